(** * C105: the main loop of the trade-reduction protocol with doubles *)

From Coq Require Import String ZArith QArith Qabs List Lia Lqa Sorted Permutation.
From Coq Require Import SpecFloat.
From Verif Require Import Base Model_Agents Model_Market Model_Float Model_FloatMcAfee Model_FloatTradeReduction Spec_Float Spec_FloatMcAfee Spec_FloatTradeReduction
  Proof_Float2 Proof_FM1 Proof_FM2 Proof_FM3 Proof_FM4 Proof_FT1.
Import ListNotations.

Local Open Scope nat_scope.

Lemma pivot0 : forall incl x y rb o rs tb ts,
  f_tr_pivot incl [x; y] (mkFTR [rb; o :: rs] [tb; ts] None) 0
  = Ok (if external incl (dot2 x o) then mkFTR [rb; o :: rs] [f_desc (tb ++ [x]); ts] (Some [pivot_price x (dot2 x o); o])
        else mkFTR [f_desc (rb ++ [x]); o :: rs] [tb; ts] None).
Proof. intros. unfold f_tr_pivot, external, dot2. cbn -[f_dot f_desc flt SFeqb fint f_external_prices]. destruct (flt _ _ || _)%bool; reflexivity. Qed.

Lemma pivot1 : forall incl x y rb o rs tb ts,
  f_tr_pivot incl [x; y] (mkFTR [o :: rb; rs] [tb; ts] None) 1
  = Ok (if external incl (dot2 o y) then mkFTR [o :: rb; rs] [tb; f_desc (ts ++ [y])] (Some [o; pivot_price y (dot2 o y)])
        else mkFTR [o :: rb; f_desc (rs ++ [y])] [tb; ts] None).
Proof. intros. unfold f_tr_pivot, external, dot2. cbn -[f_dot f_desc flt SFeqb fint f_external_prices]. destruct (flt _ _ || _)%bool; reflexivity. Qed.

Lemma pivot_known : forall incl x y rem tb ts P i, i < 2 ->
  f_tr_pivot incl [x; y] (mkFTR rem [tb; ts] (Some P)) i
  = Ok (mkFTR rem (if i =? 0 then [f_desc (tb ++ [x]); ts] else [tb; f_desc (ts ++ [y])]) (Some P)).
Proof. intros incl x y rem tb ts P [|[|i]] H; [reflexivity|reflexivity|lia]. Qed.

Definition firsts (deals : list (list double)) : list double := map (fun ps => nth 0 ps (fint 0)) deals.
Definition seconds (deals : list (list double)) : list double := map (fun ps => nth 1 ps (fint 0)) deals.
Definition pairs_only (deals : list (list double)) : Prop := forall d, In d deals -> exists x y, d = [x; y].

(** Once the prices are known all traders are kept. *)
Lemma run_known : forall incl deals rem tb ts P, pairs_only deals ->
  exists tb' ts', f_fold (f_tr_ps incl) deals (mkFTR rem [tb; ts] (Some P)) = Ok (mkFTR rem [tb'; ts'] (Some P))
    /\ Permutation tb' (tb ++ firsts deals) /\ Permutation ts' (ts ++ seconds deals).
Proof.
  intros incl deals. induction deals as [|d deals IH]; intros rem tb ts P H.
  - exists tb, ts. split; [reflexivity|]. cbn. rewrite !app_nil_r. split; reflexivity.
  - destruct (H d (or_introl eq_refl)) as (x & y & ->). cbn [f_fold]. unfold f_tr_ps at 1. cbn [length seq f_fold].
    rewrite pivot_known by lia. cbn [bind Nat.eqb]. rewrite pivot_known by lia. cbn [bind Nat.eqb].
    destruct (IH rem (f_desc (tb ++ [x])) (f_desc (ts ++ [y])) P (fun e E => H e (or_intror E))) as (tb' & ts' & E & P1 & P2).
    exists tb', ts'. split; [exact E|]. cbn [firsts seconds map nth]. fold (firsts deals) (seconds deals).
    split; [rewrite P1, f_desc_perm, <- app_assoc; reflexivity|rewrite P2, f_desc_perm, <- app_assoc; reflexivity].
Qed.

(** The best of a list. *)
Definition top (l : list double) (o : double) : Prop := In o l /\ forall s, In s l -> (dval s <= dval o)%Q.

Lemma top_perm : forall l l' o, Permutation l l' -> top l o -> top l' o.
Proof. intros l l' o P [A B]. split; [apply (Permutation_in _ P A)|]. intros s S. apply B. apply (Permutation_in _ (Permutation_sym P) S). Qed.

Lemma sorted_top : forall o l, Forall finite_double (o :: l) -> fdesc (o :: l) -> top (o :: l) o.
Proof.
  intros o l F S. split; [left; reflexivity|]. intros s [<-|H]; [apply Qle_refl|]. apply StronglySorted_inv in S. destruct S as [_ S]. rewrite Forall_forall in S.
  specialize (S s H). inversion F as [|? ? F1 F2]; subst. rewrite Forall_forall in F2. rewrite fle_dval in S by auto. apply Qle_bool_iff. exact S.
Qed.

Definition remaining_ok (l : list double) : Prop := l <> [] /\ fdesc l /\ Forall finite_double l.

Lemma remaining_append : forall l x, Forall finite_double l -> finite_double x -> remaining_ok (f_desc (l ++ [x])).
Proof.
  intros l x F X. assert (F' : Forall finite_double (l ++ [x])) by (apply Forall_app; split; [exact F|constructor; [exact X|constructor]]). split; [|split].
  - intros E. assert (P := f_desc_perm (l ++ [x])). rewrite E in P. apply Permutation_nil in P. destruct l; discriminate.
  - apply f_desc_sorted. exact F'.
  - apply f_desc_finite. exact F'.
Qed.

Section Run.
Variables (incl : bool) (B : Q).

Definition ok_deal (d : list double) : Prop := exists x y, d = [x; y] /\ fbuyer B x /\ fseller y.

(** How the loop ends: no external competition at all, or a first deal with external competition for its buyer, or for its seller. *)
Lemma run : forall deals rb rs tb ts, Forall ok_deal deals -> remaining_ok rb -> remaining_ok rs -> Forall (fbuyer B) rb -> Forall fseller rs ->
  exists tb' ts' P rem, f_fold (f_tr_ps incl) deals (mkFTR [rb; rs] [tb; ts] None) = Ok (mkFTR rem [tb'; ts'] P) /\
   ((P = None /\ tb' = tb /\ ts' = ts /\ (forall x y, In [x; y] deals -> ~ worth incl x y)) \/
    exists pre x y post, deals = pre ++ [x; y] :: post /\ (forall x y, In [x; y] pre -> ~ worth incl x y) /\
     ((exists o, top (rs ++ seconds pre) o /\ external incl (dot2 x o) = true /\ P = Some [pivot_price x (dot2 x o); o]
        /\ Permutation tb' (tb ++ x :: firsts post) /\ Permutation ts' (ts ++ y :: seconds post)) \/
      (exists o, top (rb ++ firsts pre ++ [x]) o /\ external incl (dot2 o y) = true /\ P = Some [o; pivot_price y (dot2 o y)]
        /\ Permutation tb' (tb ++ firsts post) /\ Permutation ts' (ts ++ y :: seconds post) /\ (forall s, In s (rs ++ seconds pre) -> ~ worth incl x s)))).
Proof.
  intros deals. induction deals as [|d deals IH]; intros rb rs tb ts D (NB & SB & FB) (NS & SS & FS) OB OS.
  - exists tb, ts, None, [rb; rs]. split; [reflexivity|]. left. split; [reflexivity|]. split; [reflexivity|]. split; [reflexivity|]. intros x y [].
  - inversion D as [|? ? (x & y & -> & Hx & Hy) D']; subst. destruct rs as [|o rs]; [congruence|]. clear NS.
    cbn [f_fold]. unfold f_tr_ps at 1. cbn [length seq f_fold]. rewrite pivot0. cbn [bind].
    assert (PO : pairs_only deals) by (intros e E; rewrite Forall_forall in D'; destruct (D' e E) as (a & b & -> & _); eauto).
    destruct (external incl (dot2 x o)) eqn:X0.
    + rewrite pivot_known by lia. cbn [bind Nat.eqb].
      destruct (run_known incl deals [rb; o :: rs] (f_desc (tb ++ [x])) (f_desc (ts ++ [y])) [pivot_price x (dot2 x o); o] PO) as (tb' & ts' & E & P1 & P2).
      exists tb', ts'. do 2 eexists. split; [exact E|]. right. exists [], x, y, deals. split; [reflexivity|]. split; [intros ? ? []|]. left. exists o.
      split; [cbn [seconds map]; rewrite app_nil_r; apply sorted_top; assumption|]. split; [exact X0|]. split; [reflexivity|].
      split; [rewrite P1, f_desc_perm, <- app_assoc; reflexivity|rewrite P2, f_desc_perm, <- app_assoc; reflexivity].
    + assert (RB := remaining_append rb x FB (proj1 Hx)). assert (PR := f_desc_perm (rb ++ [x])). destruct (f_desc (rb ++ [x])) as [|q rb'] eqn:EQ; [destruct RB; congruence|].
      assert (OB' : Forall (fbuyer B) (q :: rb')). { rewrite PR. apply Forall_app. split; [exact OB|constructor; [exact Hx|constructor]]. }
      rewrite pivot1. cbn [bind]. assert (TQ : top (q :: rb') q) by (apply sorted_top; apply RB).
      destruct (external incl (dot2 q y)) eqn:X1.
      * destruct (run_known incl deals [q :: rb'; o :: rs] tb (f_desc (ts ++ [y])) [q; pivot_price y (dot2 q y)] PO) as (tb' & ts' & E & P1 & P2).
        exists tb', ts'. do 2 eexists. split; [exact E|]. right. exists [], x, y, deals. split; [reflexivity|]. split; [intros ? ? []|]. right. exists q.
        split; [cbn [firsts map app]; apply (top_perm _ _ _ PR TQ)|]. split; [exact X1|]. split; [reflexivity|].
        split; [exact P1|]. split; [rewrite P2, f_desc_perm, <- app_assoc; reflexivity|]. cbn [seconds map]. rewrite app_nil_r. intros s Is W.
        assert (HO : fseller o) by (inversion OS; assumption). destruct (sorted_top o rs FS SS) as [_ TO]. specialize (TO s Is).
        assert (T : external incl (dot2 x o) = true).
        { apply (external_iff incl B x o Hx HO). destruct W as [W|[I W]]; [left; lra|]. destruct (Qlt_le_dec 0 (dval x + dval o)); [left; assumption|right]. split; [exact I|lra]. }
        congruence.
      * assert (NEG : ~ worth incl x y).
        { intros W. assert (HQ : fbuyer B q) by (inversion OB'; assumption).
          assert (LE : (dval x <= dval q)%Q) by (apply TQ; apply (Permutation_in _ (Permutation_sym PR)); apply in_or_app; right; left; reflexivity).
          assert (T : external incl (dot2 q y) = true).
          { apply (external_iff incl B q y HQ Hy). destruct W as [W|[I W]]; [left; lra|]. destruct (Qlt_le_dec 0 (dval q + dval y)); [left; assumption|right]. split; [exact I|lra]. }
          congruence. }
        destruct (IH (q :: rb') (f_desc ((o :: rs) ++ [y])) tb ts D' RB (remaining_append (o :: rs) y FS (proj1 Hy)) OB') as (tb' & ts' & P & rem & E & C).
        { rewrite f_desc_perm. apply Forall_app. split; [exact OS|constructor; [exact Hy|constructor]]. }
        exists tb', ts', P, rem. split; [exact E|]. destruct C as [(C1 & C2 & C3 & C4)|(pre & x' & y' & post & C1 & C2 & C3)].
        -- left. split; [exact C1|]. split; [exact C2|]. split; [exact C3|]. intros a b [AB|AB]; [injection AB as <- <-; exact NEG|apply C4; exact AB].
        -- right. exists ([x; y] :: pre), x', y', post. split; [rewrite C1; reflexivity|]. split.
           { intros a b [AB|AB]; [injection AB as <- <-; exact NEG|apply C2; exact AB]. }
           destruct C3 as [(o' & T & R)|(o' & T & R1 & R2 & R3 & R4 & R5)]; [left|right]; exists o';
             [split; [|exact R]|split; [|split; [exact R1|split; [exact R2|split; [exact R3|split; [exact R4|]]]]]].
           ++ eapply top_perm; [|exact T]. cbn [seconds map nth]. rewrite f_desc_perm. rewrite <- app_assoc. reflexivity.
           ++ eapply top_perm; [|exact T]. cbn [firsts map nth]. rewrite PR. rewrite <- !app_assoc. reflexivity.
           ++ intros s Is. apply R5. eapply Permutation_in; [|exact Is]. cbn [seconds map nth]. rewrite f_desc_perm. rewrite <- app_assoc. reflexivity.
Qed.
End Run.
