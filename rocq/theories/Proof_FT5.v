(** * C105: the traders of the trade-reduction protocol with doubles *)

From Coq Require Import String ZArith QArith Qpower Qabs List Lia Lqa Sorted Permutation.
From Coq Require Import SpecFloat.
From Verif Require Import Base Model_Agents Model_Market Model_Float Model_FloatMcAfee Model_FloatTradeReduction Spec_Float Spec_FloatMcAfee
  Spec_FloatTradeReduction Proof_Float Proof_Float2 Proof_FM1 Proof_FM2 Proof_FM3 Proof_FM4 Proof_FM6 Proof_FT1 Proof_FT2 Proof_FT3 Proof_FT4.
Import ListNotations.

Local Open Scope nat_scope.

Lemma worth_mono : forall incl x y x' y', worth incl x y -> (dval x <= dval x')%Q -> (dval y <= dval y')%Q -> worth incl x' y'.
Proof.
  intros incl x y x' y' [W|[I W]] L1 L2; [left; lra|]. destruct (Qlt_le_dec 0 (dval x' + dval y')) as [L|L]; [left; exact L|right]. split; [exact I|lra].
Qed.

Definition worthb (incl : bool) (d : list double) : bool :=
  match d with [x; y] => Qlt_bool 0 (dval x + dval y) || (incl && Qeq_bool (dval x + dval y) 0) | _ => false end.

Lemma worthb_iff : forall incl x y, worthb incl [x; y] = true <-> worth incl x y.
Proof. intros incl x y. unfold worthb, worth. rewrite Bool.orb_true_iff, Bool.andb_true_iff, Qlt_bool_iff, Qeq_bool_iff. reflexivity. Qed.

Lemma worthb_false : forall incl x y, worthb incl [x; y] = false <-> ~ worth incl x y.
Proof. intros incl x y. rewrite <- worthb_iff. destruct (worthb incl [x; y]); split; congruence. Qed.

Lemma prefix_filter : forall A (R : A -> A -> Prop) (f : A -> bool) l, ForallOrdPairs R l -> (forall d e, In d l -> In e l -> R d e -> f e = true -> f d = true) ->
  exists j, j <= length l /\ filter f l = firstn j l /\ forall e, In e (skipn j l) -> f e = false.
Proof.
  intros A R f l H. induction H as [|d l Hd H IH]; intros M; [exists 0; cbn; repeat split; auto; intros e []|].
  destruct IH as (j & J1 & J2 & J3); [intros a b Ia Ib; apply M; right; assumption|]. cbn [filter]. destruct (f d) eqn:E.
  - exists (S j). cbn [length firstn skipn]. rewrite J2. repeat split; auto. lia.
  - exists 0. assert (ALL : forall e, In e l -> f e = false).
    { intros e I. destruct (f e) eqn:Fe; [|reflexivity]. rewrite Forall_forall in Hd. assert (T := M d e (or_introl eq_refl) (or_intror I) (Hd e I) Fe). congruence. }
    cbn [length firstn skipn]. split; [lia|]. split.
    + rewrite J2. destruct j as [|j]; [reflexivity|]. destruct l as [|e l]; [reflexivity|]. exfalso. assert (I : In e (filter f (e :: l))) by (rewrite J2; left; reflexivity).
      apply filter_In in I. destruct I as [_ I]. rewrite ALL in I by (left; reflexivity). discriminate.
    + intros e [<-|I]; [exact E|auto].
Qed.

Lemma firstn_pairs : forall k b s j, firstn j (pairs b s k) = pairs b s (min j k).
Proof.
  induction k as [|k IH]; intros b s j.
  - rewrite Nat.min_0_r. assert (Z : pairs b s 0 = []) by (destruct b, s; reflexivity). rewrite Z. apply firstn_nil.
  - destruct j as [|j]; [destruct b, s; reflexivity|]. destruct b as [|x b]; [destruct s; apply firstn_nil|]. destruct s as [|y s]; [apply firstn_nil|]. cbn [pairs firstn Nat.min]. rewrite IH. reflexivity.
Qed.

Lemma pairs_0 : forall b s, pairs b s 0 = [].
Proof. intros [|] [|]; reflexivity. Qed.
Lemma pairs_nil_l : forall s k, pairs [] s k = [].
Proof. intros s [|k]; destruct s; reflexivity. Qed.
Lemma pairs_nil_r : forall b k, pairs b [] k = [].
Proof. intros b [|k]; destruct b; reflexivity. Qed.

Lemma skipn_pairs : forall j k b s, skipn j (pairs b s k) = pairs (skipn j b) (skipn j s) (k - j).
Proof.
  induction j as [|j IH]; intros k b s; [rewrite Nat.sub_0_r; reflexivity|]. destruct k as [|k]; [cbn [Nat.sub]; rewrite !pairs_0; apply skipn_nil|].
  destruct b as [|x b]; [rewrite pairs_nil_l; change (skipn (S j) (@nil double)) with (@nil double); rewrite pairs_nil_l; reflexivity|].
  destruct s as [|y s]; [rewrite pairs_nil_r; change (skipn (S j) (@nil double)) with (@nil double); rewrite pairs_nil_r; reflexivity|].
  cbn [pairs skipn Nat.sub]. apply IH.
Qed.

Lemma filter_perm : forall A (f : A -> bool) l l', Permutation l l' -> Permutation (filter f l) (filter f l').
Proof. intros A f l l' H. induction H; cbn; [constructor|destruct (f x); auto|destruct (f x), (f y); auto; constructor|eapply Permutation_trans; eauto]. Qed.

Lemma filter_all : forall A (f : A -> bool) l, (forall x, In x l -> f x = true) -> filter f l = l.
Proof. induction l as [|x l IH]; intros H; [reflexivity|]. cbn. rewrite (H x (or_introl eq_refl)), IH; [reflexivity|intros y Y; apply H; right; exact Y]. Qed.
Lemma filter_none : forall A (f : A -> bool) l, (forall x, In x l -> f x = false) -> filter f l = [].
Proof. induction l as [|x l IH]; intros H; [reflexivity|]. cbn. rewrite (H x (or_introl eq_refl)), IH; [reflexivity|intros y Y; apply H; right; exact Y]. Qed.

Section Traders.
Variables (bs ss : list double) (B : Q).
Hypothesis Hb : Forall finite_double bs.
Hypothesis Hs : Forall finite_double ss.
Hypothesis Pb : Forall (fun b => 0 <= dval b <= B)%Q bs.
Hypothesis Ps : Forall (fun s => -100000000 <= dval s <= 0)%Q ss.
Hypothesis HB : (B <= Qpower 2 1000)%Q.

(** The pairs that are not deals. *)
Lemma unmade : forall it k, length bs < it -> snd (f_optimal_loop it [f_desc bs; f_desc ss]) = [skipn k (f_desc bs); skipn k (f_desc ss)] ->
  forall v w, In v (skipn k (f_desc bs)) -> In w (skipn k (f_desc ss)) -> (dval v + dval w < 0)%Q.
Proof.
  intros it k L K v w V W. assert (STOP := fun x y => loop_stops it (f_desc bs) (f_desc ss) x y (f_desc_finite bs Hb) (f_desc_finite ss Hs)).
  assert (LEN : length (f_desc bs) = length bs) by (apply Permutation_length; apply f_desc_perm). rewrite LEN, K in STOP.
  assert (SB := fdesc_skipn k _ (f_desc_sorted bs Hb)). assert (SS := fdesc_skipn k _ (f_desc_sorted ss Hs)).
  assert (FB : Forall finite_double (skipn k (f_desc bs))). { assert (F := f_desc_finite bs Hb). rewrite <- (firstn_skipn k) in F. apply Forall_app in F. apply F. }
  assert (FS : Forall finite_double (skipn k (f_desc ss))). { assert (F := f_desc_finite ss Hs). rewrite <- (firstn_skipn k) in F. apply Forall_app in F. apply F. }
  destruct (skipn k (f_desc bs)) as [|h1 b]; [destruct V|]. destruct (skipn k (f_desc ss)) as [|h2 s]; [destruct W|].
  specialize (STOP h1 h2 L eq_refl). destruct (sorted_top h1 b FB SB) as [_ T1]. destruct (sorted_top h2 s FS SS) as [_ T2]. specialize (T1 v V). specialize (T2 w W). lra.
Qed.

(** The trading deals are the worthwhile ones. *)
Lemma kept_deals : forall it incl tb ts P, length bs < it -> f_trade_reduction it [bs; ss] incl = Ok ([tb; ts], P) ->
  exists rb, length rb <= 1 /\ Permutation (tb ++ rb) (firsts (filter (worthb incl) (the_deals it bs ss)))
    /\ Permutation ts (seconds (filter (worthb incl) (the_deals it bs ss)))
    /\ (P = None -> filter (worthb incl) (the_deals it bs ss) = [] /\ the_deals it bs ss <> []) /\ (the_deals it bs ss = [] -> P = Some [fint 0; fint 0]).
Proof.
  intros it incl tb ts P L H. destruct (fresult bs ss B Hb Hs Pb Ps HB it incl) as (tb' & ts' & P' & E & C). rewrite H in E. injection E as <- <- <-.
  assert (PERM : Permutation (f_by_gft (the_deals it bs ss)) (the_deals it bs ss)) by apply isort_perm.
  assert (FP := filter_perm _ (worthb incl) _ _ PERM).
  destruct C as [(C1 & -> & -> & ->)|(neg & NEG & NE & C)].
  { exists []. rewrite C1. split; [cbn; lia|]. split; [constructor|]. split; [constructor|]. split; [discriminate|reflexivity]. }
  assert (DF := deal_facts bs ss B Hb Hs Pb Ps it).
  assert (NW : forall d, In d neg -> worthb incl d = false).
  { intros d D. destruct NEG as [->|(x & y & -> & _ & _ & _ & N)]; [destruct D|]. destruct D as [<-|[]]. apply worthb_false. specialize (N L). intros [W|[_ W]]; lra. }
  destruct C as [(-> & -> & -> & C4)|(p1 & p2 & pre & x & y & post & o & -> & NP & C1 & C2 & C3)].
  { assert (FN : filter (worthb incl) (the_deals it bs ss) = []).
    { apply Permutation_nil. rewrite <- FP. rewrite filter_none; [constructor|]. intros d D. destruct (DF d D) as (x & y & -> & _). apply worthb_false. apply C4. apply in_or_app. right. exact D. }
    exists []. rewrite FN. split; [cbn; lia|]. split; [constructor|]. split; [constructor|]. split; [auto|]. intros; congruence. }
  assert (PO : pairs_only (neg ++ f_by_gft (the_deals it bs ss))).
  { intros d D. apply in_app_or in D. destruct D as [D|D]; [|destruct (DF d D) as (x1 & y1 & -> & _); eauto]. destruct NEG as [->|(x1 & y1 & -> & _)]; [destruct D|destruct D as [<-|[]]; eauto]. }
  (* the pivot is one of the deals *)
  assert (PIV : exists pre', f_by_gft (the_deals it bs ss) = pre' ++ [x; y] :: post /\ forall a b, In [a; b] pre -> In [a; b] pre' \/ (dval a <= dval x /\ dval b <= dval y)%Q).
  { destruct NEG as [->|(h1 & h2 & -> & _ & _ & LE & N)]; [exists pre; split; [exact C1|auto]|].
    destruct pre as [|d pre]; cbn [app] in C1; injection C1 as C0 C1.
    - exfalso. subst h1 h2. specialize (N L). assert (W : worth incl x y).
      { destruct C3 as [((W & [LEO|(? & [])]) & _)|((W & [LEO|(? & [])]) & _)]; apply (worth_mono _ _ _ _ _ W); auto using Qle_refl. }
      destruct W as [W|[_ W]]; lra.
    - exists pre. split; [exact C1|]. intros a b [EQ|I]; [|left; exact I]. right. rewrite <- C0 in EQ. injection EQ as <- <-. apply LE. rewrite C1. apply in_or_app. right. left. reflexivity. }
  destruct PIV as (pre' & SE & PP).
  assert (IXY : In [x; y] (f_by_gft (the_deals it bs ss))) by (rewrite SE; apply in_or_app; right; left; reflexivity).
  destruct (DF _ IXY) as (? & ? & EQ & _ & _ & (Fx & _) & (Fy & _ & Uy) & Nx & Gxy). injection EQ as <- <-.
  assert (W : worth incl x y).
  { destruct C3 as [((W & [LEO|(x' & IP)]) & _)|((W & [LEO|(y' & IP)]) & _)]; try (apply (worth_mono _ _ _ _ _ W); auto using Qle_refl; fail).
    - destruct (PP _ _ IP) as [IP'|[_ LL]]; [|apply (worth_mono _ _ _ _ _ W); auto using Qle_refl].
      assert (ID : In [x'; o] (f_by_gft (the_deals it bs ss))) by (rewrite SE; apply in_or_app; left; exact IP').
      destruct (DF _ ID) as (? & ? & EQ & _ & _ & _ & _ & _ & G'). injection EQ as <- <-. specialize (C2 _ _ IP).
      destruct (comparable bs ss B Hb Hs Pb Ps it _ _ _ _ IXY ID) as [[L1 L2]|[L1 L2]]; [|apply (worth_mono _ _ _ _ _ W); auto using Qle_refl].
      exfalso. apply C2. apply (worth_mono _ x o); auto using Qle_refl.
    - destruct (PP _ _ IP) as [IP'|[LL _]]; [|apply (worth_mono _ _ _ _ _ W); auto using Qle_refl].
      assert (ID : In [o; y'] (f_by_gft (the_deals it bs ss))) by (rewrite SE; apply in_or_app; left; exact IP').
      destruct (DF _ ID) as (? & ? & EQ & _ & _ & _ & _ & _ & G'). injection EQ as <- <-. specialize (C2 _ _ IP).
      destruct (comparable bs ss B Hb Hs Pb Ps it _ _ _ _ IXY ID) as [[L1 L2]|[L1 L2]]; [|apply (worth_mono _ _ _ _ _ W); auto using Qle_refl].
      exfalso. apply C2. apply (worth_mono _ o y); auto using Qle_refl. }
  assert (S := gains_sorted bs ss B Hb Hs Pb Ps it). rewrite SE in S.
  assert (WP : forall d, In d post -> worthb incl d = true).
  { intros d D. assert (ID : In d (f_by_gft (the_deals it bs ss))) by (rewrite SE; apply in_or_app; right; right; exact D).
    destruct (DF _ ID) as (a & b & -> & _ & _ & (Fa & _) & (Fb & _ & Ub) & Na & G). apply worthb_iff.
    replace (pre' ++ [x; y] :: post) with ((pre' ++ [[x; y]]) ++ post) in S by (rewrite <- app_assoc; reflexivity).
    assert (IL : In [x; y] (pre' ++ [[x; y]])) by (apply in_or_app; right; left; reflexivity).
    assert (LE := sorted_app _ _ _ _ _ _ S IL D). cbn beta in LE.
    destruct (comparable bs ss B Hb Hs Pb Ps it _ _ _ _ IXY ID) as [[L1 L2]|[L1 L2]]; [apply (worth_mono _ _ _ _ _ W); assumption|].
    assert (T := tie_bound a b x y Fa Fb Fx Fy Na Ub Nx Uy Gxy L1 L2 LE). unfold eps in T.
    destruct W as [W|[I _]]; [left; lra|]. destruct (Qlt_le_dec 0 (dval a + dval b)); [left; assumption|right; split; [exact I|lra]]. }
  assert (FE : filter (worthb incl) (neg ++ f_by_gft (the_deals it bs ss)) = [x; y] :: post).
  { rewrite C1, filter_app. cbn [filter]. assert (W' := proj2 (worthb_iff incl x y) W). rewrite W', (filter_all _ _ post WP), filter_none; [reflexivity|].
    intros d D. destruct (PO d) as (a & b & ->); [rewrite C1; apply in_or_app; left; exact D|]. apply worthb_false. apply C2. exact D. }
  rewrite filter_app, (filter_none _ _ neg NW) in FE. cbn [app] in FE. rewrite FE in FP.
  assert (PF : Permutation (x :: firsts post) (firsts (filter (worthb incl) (the_deals it bs ss)))) by (apply (Permutation_map (fun ps => nth 0 ps (fint 0))) in FP; exact FP).
  assert (PS : Permutation (y :: seconds post) (seconds (filter (worthb incl) (the_deals it bs ss)))) by (apply (Permutation_map (fun ps => nth 1 ps (fint 0))) in FP; exact FP).
  destruct C3 as [(_ & PT & PU)|(_ & PT & PU)].
  - exists []. split; [cbn; lia|]. rewrite app_nil_r. split; [rewrite PT; exact PF|]. split; [rewrite PU; exact PS|]. split; [discriminate|congruence].
  - exists [x]. split; [cbn; lia|]. split; [rewrite PT, Permutation_app_comm; exact PF|]. split; [rewrite PU; exact PS|]. split; [discriminate|congruence].
Qed.

Lemma worth_prefix : forall it incl, length bs < it -> exists j, j <= length bs /\ j <= length ss
  /\ firsts (filter (worthb incl) (the_deals it bs ss)) = firstn j (f_desc bs) /\ seconds (filter (worthb incl) (the_deals it bs ss)) = firstn j (f_desc ss)
  /\ length (filter (worthb incl) (the_deals it bs ss)) = j
  /\ (forall v w, In v (firstn j (f_desc bs)) -> In w (firstn j (f_desc ss)) -> worth incl v w)
  /\ (forall v w, In v (skipn j (f_desc bs)) -> In w (skipn j (f_desc ss)) -> ~ worth incl v w).
Proof.
  intros it incl L. destruct (loop_pairs it (f_desc bs) (f_desc ss)) as (k & K1 & K2 & K3 & K4). unfold the_deals. rewrite K3.
  assert (UN := unmade it k L K4).
  assert (LB : length (f_desc bs) = length bs) by (apply Permutation_length; apply f_desc_perm). assert (LS : length (f_desc ss) = length ss) by (apply Permutation_length; apply f_desc_perm).
  assert (SB := f_desc_sorted bs Hb). assert (SS := f_desc_sorted ss Hs). assert (FB := f_desc_finite bs Hb). assert (FS := f_desc_finite ss Hs).
  assert (CB := fun j v w => split_desc j bs v w Hb). assert (CS := fun j v w => split_desc j ss v w Hs).
  assert (CH := pairs_chain k _ _ SB SS).
  assert (FIN : forall x y, In [x; y] (pairs (f_desc bs) (f_desc ss) k) -> finite_double x /\ finite_double y).
  { intros x y D. destruct (pairs_In _ _ _ _ _ K1 K2 D) as [I1 I2]. rewrite Forall_forall in FB, FS.
    split; [apply FB; rewrite <- (firstn_skipn k)|apply FS; rewrite <- (firstn_skipn k)]; apply in_or_app; left; assumption. }
  destruct (prefix_filter _ _ (worthb incl) _ CH) as (j & J1 & J2 & J3).
  { intros d e D E (x & y & x' & y' & -> & -> & L1 & L2) W. destruct (FIN _ _ D) as [F1 F2]. destruct (FIN _ _ E) as [F3 F4]. rewrite fle_dval in L1, L2 by assumption. apply Qle_bool_iff in L1. apply Qle_bool_iff in L2.
    apply worthb_iff in W. apply worthb_iff. apply (worth_mono _ _ _ _ _ W); assumption. }
  rewrite pairs_length in J1 by assumption. rewrite J2, firstn_pairs, Nat.min_l by lia.
  destruct (pairs_nth j (f_desc bs) (f_desc ss) ltac:(lia) ltac:(lia) (fint 0)) as [N0 N1].
  exists j. split; [lia|]. split; [lia|]. split; [exact N0|]. split; [exact N1|]. split; [apply pairs_length; lia|]. split.
  - (* the worst pair that trades is worthwhile *)
    assert (ALL : forall d, In d (pairs (f_desc bs) (f_desc ss) j) -> worthb incl d = true).
    { intros d D. assert (D' : In d (filter (worthb incl) (pairs (f_desc bs) (f_desc ss) k))) by (rewrite J2, firstn_pairs, Nat.min_l by lia; exact D). apply filter_In in D'. apply D'. }
    intros v w V W. rewrite <- N0 in V. rewrite <- N1 in W. apply in_map_iff in V. destruct V as (d & <- & D). apply in_map_iff in W. destruct W as (e & <- & E).
    assert (D0 : In d (pairs (f_desc bs) (f_desc ss) k)) by (rewrite <- (firstn_skipn j), firstn_pairs, Nat.min_l by lia; apply in_or_app; left; exact D).
    assert (E0 : In e (pairs (f_desc bs) (f_desc ss) k)) by (rewrite <- (firstn_skipn j), firstn_pairs, Nat.min_l by lia; apply in_or_app; left; exact E).
    assert (WD := ALL d D). assert (WE := ALL e E).
    destruct (chain_In _ _ _ _ _ CH D0 E0) as [->|[(x & y & x' & y' & -> & -> & L1 & L2)|(x & y & x' & y' & -> & -> & L1 & L2)]].
    + destruct e as [|x [|y [|? ?]]]; try discriminate WD. apply worthb_iff in WD. exact WD.
    + destruct (FIN _ _ D0) as [F1 F2]. destruct (FIN _ _ E0) as [F3 F4]. rewrite fle_dval in L1, L2 by assumption. apply Qle_bool_iff in L1. apply Qle_bool_iff in L2.
      apply worthb_iff in WE. cbn [nth]. apply (worth_mono _ _ _ _ _ WE); auto using Qle_refl.
    + destruct (FIN _ _ D0) as [F1 F2]. destruct (FIN _ _ E0) as [F3 F4]. rewrite fle_dval in L1, L2 by assumption. apply Qle_bool_iff in L1. apply Qle_bool_iff in L2.
      apply worthb_iff in WD. cbn [nth]. apply (worth_mono _ _ _ _ _ WD); auto using Qle_refl.
  - destruct (Nat.eq_dec j k) as [->|NEQ].
    { intros v w V W [G|[_ G]]; specialize (UN v w V W); lra. }
    rewrite skipn_pairs in J3. assert (F1 : Forall finite_double (skipn j (f_desc bs))). { rewrite <- (firstn_skipn j) in FB. apply Forall_app in FB. apply FB. }
    assert (F2 : Forall finite_double (skipn j (f_desc ss))). { rewrite <- (firstn_skipn j) in FS. apply Forall_app in FS. apply FS. }
    assert (S1 := fdesc_skipn j _ SB). assert (S2 := fdesc_skipn j _ SS). intros v w V W G.
    destruct (skipn j (f_desc bs)) as [|h1 b]; [destruct V|]. destruct (skipn j (f_desc ss)) as [|h2 s]; [destruct W|].
    destruct (k - j) as [|m] eqn:KJ; [lia|]. specialize (J3 [h1; h2] (or_introl eq_refl)). apply worthb_false in J3. apply J3.
    destruct (sorted_top h1 b F1 S1) as [_ T1]. destruct (sorted_top h2 s F2 S2) as [_ T2]. apply (worth_mono _ _ _ _ _ G); auto.
Qed.

Lemma ftraders : forall it incl tb ts P, length bs < it -> f_trade_reduction it [bs; ss] incl = Ok ([tb; ts], P) ->
  exists rb worse_b worse_s, Permutation (tb ++ rb ++ worse_b) bs /\ Permutation (ts ++ worse_s) ss /\ length rb <= 1 /\ length (tb ++ rb) = length ts
    /\ (forall v w, In v (tb ++ rb) -> In w worse_b -> (dval w <= dval v)%Q) /\ (forall v w, In v ts -> In w worse_s -> (dval w <= dval v)%Q)
    /\ (forall v w, In v (tb ++ rb) -> In w ts -> worth incl v w) /\ (forall v w, In v worse_b -> In w worse_s -> ~ worth incl v w).
Proof.
  intros it incl tb ts P L H. destruct (kept_deals it incl tb ts P L H) as (rb & RL & PB & PS & _).
  destruct (worth_prefix it incl L) as (j & J1 & J2 & J3 & J4 & J5 & J6 & J7). rewrite J3 in PB. rewrite J4 in PS.
  exists rb, (skipn j (f_desc bs)), (skipn j (f_desc ss)).
  assert (LB : length (f_desc bs) = length bs) by (apply Permutation_length; apply f_desc_perm). assert (LS : length (f_desc ss) = length ss) by (apply Permutation_length; apply f_desc_perm).
  split; [rewrite app_assoc, PB, firstn_skipn; apply f_desc_perm|]. split; [rewrite PS, firstn_skipn; apply f_desc_perm|]. split; [exact RL|].
  split; [rewrite (Permutation_length PB), (Permutation_length PS), !firstn_length; lia|].
  split; [intros v w V W; apply (split_desc j bs); auto; apply (Permutation_in _ PB V)|]. split; [intros v w V W; apply (split_desc j ss); auto; apply (Permutation_in _ PS V)|].
  split; [|exact J7]. intros v w V W. apply J6; [apply (Permutation_in _ PB V)|apply (Permutation_in _ PS W)].
Qed.

Lemma fprices : forall it incl tb ts P, f_trade_reduction it [bs; ss] incl = Ok ([tb; ts], P) -> incl = true -> P <> None.
Proof.
  intros it incl tb ts P H I N. destruct (fresult bs ss B Hb Hs Pb Ps HB it incl) as (tb' & ts' & P' & E & C). rewrite H in E. injection E as <- <- <-.
  destruct C as [(_ & _ & _ & C)|(neg & _ & NE & [(_ & _ & _ & C)|(p1 & p2 & pre & x & y & post & o & C & _)])]; try congruence.
  assert (PM : Permutation (f_by_gft (the_deals it bs ss)) (the_deals it bs ss)) by apply isort_perm.
  destruct (f_by_gft (the_deals it bs ss)) as [|d l] eqn:E; [apply Permutation_nil in PM; congruence|].
  destruct (deal_facts bs ss B Hb Hs Pb Ps it d ltac:(rewrite E; left; reflexivity)) as (x & y & -> & _ & _ & _ & _ & _ & G).
  apply (C x y); [apply in_or_app; right; left; reflexivity|]. destruct (Qlt_le_dec 0 (dval x + dval y)); [left; assumption|right; split; [exact I|lra]].
Qed.
End Traders.

(** The statements. *)
Section Statements.
Variables (bs ss : list double) (B : Q).
Hypothesis Hb : Forall finite_double bs.
Hypothesis Hs : Forall finite_double ss.
Hypothesis Pb : Forall (fun b => 0 <= dval b <= B)%Q bs.
Hypothesis Ps : Forall (fun s => -100000000 <= dval s <= 0)%Q ss.
Hypothesis HB : (B <= Qpower 2 1000)%Q.

Lemma fbalanced : forall it incl, (0 <= B)%Q -> exists tb ts P, f_trade_reduction it [bs; ss] incl = Ok ([tb; ts], P) /\
  ((P = None /\ incl = false /\ tb = [] /\ ts = []) \/
   exists p1 p2, P = Some [p1; p2] /\ finite_double p1 /\ finite_double p2 /\ (Qabs (dval p1 + dval p2) <= (1 # 4503599627370496) * B)%Q).
Proof.
  intros it incl B0. destruct (fresult bs ss B Hb Hs Pb Ps HB it incl) as (tb & ts & P & E & C). exists tb, ts, P. split; [exact E|].
  destruct C as [(_ & _ & _ & ->)|(neg & _ & _ & [(-> & -> & -> & _)|(p1 & p2 & pre & x & y & post & o & -> & (F1 & F2 & A & _) & _)])].
  - right. exists (fint 0), (fint 0). split; [reflexivity|]. split; [apply fin0|]. split; [apply fin0|]. change (Qabs (dval (fint 0) + dval (fint 0))) with 0%Q. apply Qmult_le_0_compat; [discriminate|exact B0].
  - left. split; [reflexivity|]. split; [|auto]. destruct incl; [|reflexivity]. exfalso. apply (fprices bs ss B Hb Hs Pb Ps HB it true [] [] None E eq_refl eq_refl).
  - right. exists p1, p2. auto.
Qed.

Lemma frational : forall it incl tb ts p1 p2, f_trade_reduction it [bs; ss] incl = Ok ([tb; ts], Some [p1; p2]) ->
  (forall v, In v tb -> (dval p1 <= dval v + (1 # 4503599627370496) * B)%Q) /\ (forall v, In v ts -> (dval p2 <= dval v + (1 # 4503599627370496) * B)%Q).
Proof.
  intros it incl tb ts p1 p2 H. destruct (fresult bs ss B Hb Hs Pb Ps HB it incl) as (tb' & ts' & P & E & C). rewrite H in E. injection E as <- <- <-.
  destruct C as [(_ & -> & -> & _)|(neg & _ & _ & [(C & _)|(q1 & q2 & pre & x & y & post & o & EQ & (F1 & F2 & A & R1 & R2) & _)])].
  - split; intros v [].
  - discriminate C.
  - injection EQ as <- <-. auto.
Qed.

Lemma fno_prices : forall it incl tb ts, length bs < it -> f_trade_reduction it [bs; ss] incl = Ok ([tb; ts], None) ->
  incl = false /\ (forall b s, In b bs -> In s ss -> (dval b + dval s <= 0)%Q) /\ exists b s, In b bs /\ In s ss /\ (dval b + dval s == 0)%Q.
Proof.
  intros it incl tb ts L H. assert (I : incl = false) by (destruct incl; [exfalso; apply (fprices bs ss B Hb Hs Pb Ps HB it true tb ts None H eq_refl eq_refl)|reflexivity]).
  split; [exact I|]. destruct (kept_deals bs ss B Hb Hs Pb Ps HB it incl tb ts None L H) as (rb & _ & _ & _ & N & _). destruct (N eq_refl) as [FN NE].
  destruct (worth_prefix bs ss Hb Hs it incl L) as (j & _ & _ & _ & _ & J5 & _ & J7). rewrite FN in J5. cbn in J5. subst j. cbn [skipn] in J7.
  assert (ALL : forall b s, In b bs -> In s ss -> (dval b + dval s <= 0)%Q).
  { intros b s X Y. destruct (Qlt_le_dec 0 (dval b + dval s)) as [G|G]; [|exact G]. exfalso. apply (J7 b s); [apply (Permutation_in _ (Permutation_sym (f_desc_perm bs)) X)|apply (Permutation_in _ (Permutation_sym (f_desc_perm ss)) Y)|]. left. exact G. }
  split; [exact ALL|]. assert (PM : Permutation (f_by_gft (the_deals it bs ss)) (the_deals it bs ss)) by apply isort_perm.
  destruct (f_by_gft (the_deals it bs ss)) as [|d l] eqn:E; [apply Permutation_nil in PM; congruence|].
  destruct (deal_facts bs ss B Hb Hs Pb Ps it d ltac:(rewrite E; left; reflexivity)) as (x & y & _ & X & Y & _ & _ & _ & G). exists x, y. split; [exact X|]. split; [exact Y|]. specialize (ALL x y X Y). lra.
Qed.
End Statements.
