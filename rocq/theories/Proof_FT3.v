(** * C105: the deals of the trade-reduction protocol with doubles, in order *)

From Coq Require Import String ZArith Reals Qreals QArith Qabs List Lia Lqa Lra Sorted Permutation.
From Coq Require Import SpecFloat.
From Flocq Require Import Core BinarySingleNaN.
From Verif Require Import Base Model_Agents Model_Market Model_Float Model_FloatMcAfee Model_FloatTradeReduction Spec_Float Spec_FloatMcAfee
  Spec_FloatTradeReduction Proof_Float Proof_Float2 Proof_FM1 Proof_FM2 Proof_FM3 Proof_FM4 Proof_FM6 Proof_FT1 Proof_FT2.
Import ListNotations.

Local Open Scope nat_scope.
Ltac xlra := first [Lqa.lra | Lra.lra].

Section Sorted.
  Variable A : Type.
  Variable le : A -> A -> bool.
  Variable P : A -> Prop.
  Hypothesis total : forall x y, P x -> P y -> le x y = true \/ le y x = true.
  Hypothesis trans : forall x y z, P x -> P y -> P z -> le x y = true -> le y z = true -> le x z = true.

  Lemma isort_sorted : forall l, Forall P l -> StronglySorted (fun a b => le a b = true) (isort le l).
  Proof.
    induction 1 as [|x l Px F IH]; [constructor|]. cbn [isort].
    assert (G : Forall P (isort le l)) by (rewrite Forall_forall in *; intros y Y; apply F; apply (isort_In _ le); exact Y).
    revert G IH. generalize (isort le l). intros r. induction r as [|y r IHr]; intros G S; cbn [insert]; [repeat constructor|].
    inversion G as [|? ? Py Gr]; subst. apply StronglySorted_inv in S. destruct S as [S1 S2]. destruct (le x y) eqn:L.
    - constructor; [constructor; assumption|]. constructor; [exact L|]. rewrite Forall_forall in *. intros z Z. apply (trans x y z); auto.
    - constructor; [apply IHr; assumption|]. rewrite Forall_forall in *. intros z Z. apply insert_In in Z. destruct Z as [->|Z]; [|auto]. destruct (total x y Px Py); congruence.
  Qed.
End Sorted.

Definition dummy (l : list double) : list double := match l with [] => [fint (-100000000)] | _ => l end.

Lemma dummy_value : finite_double (fint (-100000000)) /\ (dval (fint (-100000000)) == -100000000)%Q.
Proof. destruct (fint_fin (-100000000)) as [F E]; [vm_compute; discriminate|]. split; [exact F|exact E]. Qed.

Lemma dummy_ok : forall l, fdesc l -> Forall finite_double l -> remaining_ok (dummy l).
Proof.
  intros [|x l] S F; cbn [dummy]; split; [discriminate| |discriminate|split; assumption].
  split; [repeat constructor|]. constructor; [apply dummy_value|constructor].
Qed.

Lemma dummy_Forall : forall (P : double -> Prop) l, P (fint (-100000000)) -> Forall P l -> Forall P (dummy l).
Proof. intros P [|x l] D F; [repeat constructor; exact D|exact F]. Qed.

Lemma dummy_le : forall l v, (-100000000 <= dval v)%Q -> (forall r, In r l -> (dval r <= dval v)%Q) -> forall r, In r (dummy l) -> (dval r <= dval v)%Q.
Proof. intros [|x l] v V H r R; [|auto]. destruct R as [<-|[]]. destruct dummy_value as [_ E]. rewrite E. exact V. Qed.

Lemma fdesc_skipn : forall k l, fdesc l -> fdesc (skipn k l).
Proof. intros k. induction k as [|k IH]; intros [|x l] S; try exact S. apply StronglySorted_inv in S. apply IH. apply S. Qed.

Lemma pairs_In : forall k b s x y, k <= length b -> k <= length s -> In [x; y] (pairs b s k) -> In x (firstn k b) /\ In y (firstn k s).
Proof.
  intros k b s x y K1 K2 H. destruct (pairs_nth k b s K1 K2 (fint 0)) as [<- <-]. split; apply in_map_iff; exists [x; y]; split; auto.
Qed.

(** When the iterations suffice, the first deal that is not made has a negative gain. *)
Lemma loop_stops : forall it b s x y, Forall finite_double b -> Forall finite_double s -> length b < it ->
  f_heads (snd (f_optimal_loop it [b; s])) = Some [x; y] -> (dval x + dval y < 0)%Q.
Proof.
  induction it as [|it IH]; intros b s x y Fb Fs L H; [lia|]. cbn [f_optimal_loop] in H.
  destruct b as [|x0 b]; [discriminate H|]. destruct s as [|y0 s]; [discriminate H|]. cbn [f_heads] in H. inversion Fb; subst. inversion Fs; subst.
  destruct (flt (f_gft [x0; y0]) (fint 0)) eqn:G.
  - cbn [snd f_heads] in H. injection H as <- <-. rewrite gft_sign in G by assumption. apply Qlt_bool_iff in G. cbn in G. xlra.
  - cbn [snd map tl] in H. apply (IH b s); auto. cbn [length] in L. lia.
Qed.

Section Deals.
Variables (bs ss : list double) (B : Q).
Hypothesis Hb : Forall finite_double bs.
Hypothesis Hs : Forall finite_double ss.
Hypothesis Pb : Forall (fun b => 0 <= dval b <= B)%Q bs.
Hypothesis Ps : Forall (fun s => -100000000 <= dval s <= 0)%Q ss.

Lemma buyer_ok : forall x, In x bs -> fbuyer B x.
Proof. intros x X. rewrite Forall_forall in Hb, Pb. destruct (Pb x X). split; [auto|]. split; [xlra|assumption]. Qed.
Lemma seller_ok : forall y, In y ss -> fseller y.
Proof. intros y Y. rewrite Forall_forall in Hs, Ps. split; [auto|apply Ps; exact Y]. Qed.

Lemma deal_facts : forall it d, In d (f_by_gft (the_deals it bs ss)) ->
  exists x y, d = [x; y] /\ In x bs /\ In y ss /\ fbuyer B x /\ fseller y /\ (0 <= dval x)%Q /\ (0 <= dval x + dval y)%Q.
Proof.
  intros it d D. apply (Permutation_in _ (isort_perm _ _)) in D. destruct (deal_two it bs ss d Hb Hs D) as (x & y & -> & _ & _ & X & Y & G).
  exists x, y. split; [reflexivity|]. split; [exact X|]. split; [exact Y|]. split; [apply buyer_ok; exact X|]. split; [apply seller_ok; exact Y|].
  rewrite Forall_forall in Pb. split; [apply Pb; exact X|]. cbn in G. xlra.
Qed.

Lemma gains : forall it d, In d (f_by_gft (the_deals it bs ss)) -> exists g : bf, f_gft d = B2SF g /\ is_finite g = true.
Proof.
  intros it d D. destruct (deal_facts it d D) as (x & y & -> & _ & _ & (Fx & _) & (Fy & _ & Uy) & Nx & _). destruct (gain_B x y Fx Fy Nx Uy) as (g & E & F & _). exists g. auto.
Qed.

Lemma gains_sorted : forall it, StronglySorted (fun d e => fle (f_gft d) (f_gft e) = true) (f_by_gft (the_deals it bs ss)).
Proof.
  intros it. apply (isort_sorted _ (fun d e => fle (f_gft d) (f_gft e)) (fun d => In d (f_by_gft (the_deals it bs ss)))).
  - intros d e D E. destruct (gains it d D) as (g & -> & F). destruct (gains it e E) as (g' & -> & F'). rewrite !fle_B.
    destruct (Rle_or_lt (B2R g) (B2R g')); [left|right]; apply Bleb_iff; auto. Lra.lra.
  - intros d e f D E F. destruct (gains it d D) as (g & -> & F1). destruct (gains it e E) as (g' & -> & F2). destruct (gains it f F) as (g'' & -> & F3). rewrite !fle_B.
    intros L1 L2. apply Bleb_iff in L1; auto. apply Bleb_iff in L2; auto. apply Bleb_iff; auto. Lra.lra.
  - apply Forall_forall. intros d D. apply (Permutation_in _ (Permutation_sym (isort_perm _ _))). exact D.
Qed.

Lemma comparable : forall it x y x' y', In [x; y] (f_by_gft (the_deals it bs ss)) -> In [x'; y'] (f_by_gft (the_deals it bs ss)) ->
  ((dval x <= dval x' /\ dval y <= dval y') \/ (dval x' <= dval x /\ dval y' <= dval y))%Q.
Proof.
  intros it x y x' y' D E. assert (D0 := D). assert (E0 := E). destruct (deal_facts it _ D) as (? & ? & EQ & _ & _ & (Fx & _) & (Fy & _) & _). injection EQ as <- <-.
  destruct (deal_facts it _ E) as (? & ? & EQ & _ & _ & (Fx' & _) & (Fy' & _) & _). injection EQ as <- <-.
  apply (Permutation_in _ (isort_perm _ _)) in D0. apply (Permutation_in _ (isort_perm _ _)) in E0.
  destruct (loop_pairs it (f_desc bs) (f_desc ss)) as (k & _ & _ & K3 & _). unfold the_deals in D0, E0. rewrite K3 in D0, E0.
  destruct (chain_In _ _ _ _ _ (pairs_chain k _ _ (f_desc_sorted bs Hb) (f_desc_sorted ss Hs)) D0 E0)
    as [EQ|[(? & ? & ? & ? & E1 & E2 & L1 & L2)|(? & ? & ? & ? & E1 & E2 & L1 & L2)]].
  - injection EQ as -> ->. left. split; apply Qle_refl.
  - injection E1 as <- <-. injection E2 as <- <-. rewrite fle_dval in L1, L2 by assumption. apply Qle_bool_iff in L1. apply Qle_bool_iff in L2. right. split; assumption.
  - injection E1 as <- <-. injection E2 as <- <-. rewrite fle_dval in L1, L2 by assumption. apply Qle_bool_iff in L1. apply Qle_bool_iff in L2. left. split; assumption.
Qed.

(** A deal of smaller (rounded) gain has smaller values, but for the rounding. *)
Lemma nearly_ordered : forall it x y x' y', In [x; y] (f_by_gft (the_deals it bs ss)) -> In [x'; y'] (f_by_gft (the_deals it bs ss)) ->
  fle (f_gft [x; y]) (f_gft [x'; y']) = true -> (dval x <= dval x' + eps * B /\ dval y <= dval y' + eps * B)%Q.
Proof.
  intros it x y x' y' D E M. destruct (deal_facts it _ D) as (? & ? & EQ & _ & _ & (Fx & _ & Ux) & (Fy & _ & Uy) & Nx & G). injection EQ as <- <-.
  destruct (deal_facts it _ E) as (? & ? & EQ & _ & _ & (Fx' & _ & Ux') & (Fy' & _ & Uy') & Nx' & G'). injection EQ as <- <-.
  assert (NB : (0 <= B)%Q) by xlra. assert (EP : (0 <= eps * B)%Q) by (apply Qmult_le_0_compat; [discriminate|exact NB]).
  destruct (comparable it _ _ _ _ D E) as [[L1 L2]|[L1 L2]]; [split; xlra|].
  assert (T := tie_bound x' y' x y Fx' Fy' Fx Fy Nx' Uy' Nx Uy G L1 L2 M).
  assert (BD : (eps * (dval x + dval y) <= eps * B)%Q). { apply Qmult_le_l; [reflexivity|]. xlra. }
  split; xlra.
Qed.

(** The procurement sets that compete, and the remaining agents. *)
Lemma setup : forall it incl, the_deals it bs ss <> [] -> exists neg rb rs,
  f_trade_reduction it [bs; ss] incl
    = (s <- f_fold (f_tr_ps incl) (neg ++ f_by_gft (the_deals it bs ss)) (mkFTR [rb; rs] [[]; []] None) ;; Ok (ftr_traders s, ftr_prices s))
  /\ remaining_ok rb /\ remaining_ok rs /\ Forall (fbuyer B) rb /\ Forall fseller rs
  /\ (neg = [] \/ exists x y, neg = [[x; y]] /\ In x bs /\ In y ss
        /\ (forall x' y', In [x'; y'] (f_by_gft (the_deals it bs ss)) -> (dval x <= dval x' /\ dval y <= dval y')%Q)
        /\ (length bs < it -> (dval x + dval y < 0)%Q))
  /\ (forall x y, In [x; y] (neg ++ f_by_gft (the_deals it bs ss)) ->
        (forall r, In r rb -> (dval r <= dval x)%Q) /\ (forall r, In r rs -> (dval r <= dval y)%Q))
  /\ (exists rb0 rs0, rb = dummy rb0 /\ rs = dummy rs0 /\ Permutation (firsts (neg ++ f_by_gft (the_deals it bs ss)) ++ rb0) bs
        /\ Permutation (seconds (neg ++ f_by_gft (the_deals it bs ss)) ++ rs0) ss /\ (neg = [] -> rb0 = [] \/ rs0 = [])).
Proof.
  intros it incl NE. unfold f_trade_reduction. cbn [map]. fold (the_deals it bs ss).
  assert (NE' : f_by_gft (the_deals it bs ss) <> []).
  { intros E. apply NE. assert (PM : Permutation (f_by_gft (the_deals it bs ss)) (the_deals it bs ss)) by apply isort_perm. rewrite E in PM. apply Permutation_nil in PM. exact PM. }
  assert (STOP := fun x y => loop_stops it (f_desc bs) (f_desc ss) x y (f_desc_finite bs Hb) (f_desc_finite ss Hs)).
  assert (LEN : length (f_desc bs) = length bs) by (apply Permutation_length; apply f_desc_perm). rewrite LEN in STOP.
  destruct (loop_pairs it (f_desc bs) (f_desc ss)) as (k & K1 & K2 & K3 & K4). rewrite K4 in *.
  assert (DF : forall x y, In [x; y] (f_by_gft (the_deals it bs ss)) -> In x (firstn k (f_desc bs)) /\ In y (firstn k (f_desc ss)) /\ (-100000000 <= dval x)%Q /\ (-100000000 <= dval y)%Q).
  { intros x y D. destruct (deal_facts it _ D) as (? & ? & EQ & _ & _ & (_ & Lx & _) & (_ & Ly & _) & _). injection EQ as <- <-.
    apply (Permutation_in _ (isort_perm _ _)) in D. unfold the_deals in D. rewrite K3 in D. destruct (pairs_In k _ _ x y K1 K2 D). auto. }
  assert (SKB : forall x, In x (skipn k (f_desc bs)) -> In x bs). { intros x X. apply (Permutation_in _ (f_desc_perm bs)). rewrite <- (firstn_skipn k). apply in_or_app. right. exact X. }
  assert (SKS : forall x, In x (skipn k (f_desc ss)) -> In x ss). { intros x X. apply (Permutation_in _ (f_desc_perm ss)). rewrite <- (firstn_skipn k). apply in_or_app. right. exact X. }
  assert (SB : fdesc (skipn k (f_desc bs))) by (apply fdesc_skipn; apply f_desc_sorted; exact Hb).
  assert (SS : fdesc (skipn k (f_desc ss))) by (apply fdesc_skipn; apply f_desc_sorted; exact Hs).
  assert (CB := fun v w => split_desc k bs v w Hb). assert (CS := fun v w => split_desc k ss v w Hs).
  destruct (dummy_value) as [DV1 DV2].
  assert (PERM : Permutation (f_by_gft (the_deals it bs ss)) (pairs (f_desc bs) (f_desc ss) k)) by (unfold the_deals; rewrite <- K3; apply isort_perm).
  destruct (pairs_nth k (f_desc bs) (f_desc ss) K1 K2 (fint 0)) as [NN1 NN2].
  assert (AB : Permutation (firsts (f_by_gft (the_deals it bs ss)) ++ skipn k (f_desc bs)) bs).
  { transitivity (firstn k (f_desc bs) ++ skipn k (f_desc bs)); [|rewrite firstn_skipn; apply f_desc_perm]. apply Permutation_app_tail. rewrite <- NN1. apply Permutation_map. exact PERM. }
  assert (AS : Permutation (seconds (f_by_gft (the_deals it bs ss)) ++ skipn k (f_desc ss)) ss).
  { transitivity (firstn k (f_desc ss) ++ skipn k (f_desc ss)); [|rewrite firstn_skipn; apply f_desc_perm]. apply Permutation_app_tail. rewrite <- NN2. apply Permutation_map. exact PERM. }
  clear PERM NN1 NN2.
  assert (NB : (0 <= B)%Q). { destruct (f_by_gft (the_deals it bs ss)) as [|d l] eqn:E; [congruence|]. destruct (deal_facts it d ltac:(rewrite E; left; reflexivity)) as (x & y & _ & _ & _ & (_ & _ & U) & _ & N & _). xlra. }
  assert (DB : fbuyer B (fint (-100000000))) by (split; [exact DV1|rewrite DV2; split; xlra]).
  assert (DS : fseller (fint (-100000000))) by (split; [exact DV1|rewrite DV2; split; xlra]).
  assert (GO : forall lst (nb ns : list double),
     match f_by_gft (the_deals it bs ss) with
      | [] => Ok ([[]; []], Some [fint 0; fint 0])
      | _ :: _ => s <- f_fold (f_tr_ps incl) lst (mkFTR [dummy nb; dummy ns] [[]; []] None) ;; Ok (ftr_traders s, ftr_prices s) end
     = (s <- f_fold (f_tr_ps incl) lst (mkFTR [dummy nb; dummy ns] [[]; []] None) ;; Ok (ftr_traders s, ftr_prices s))).
  { intros. destruct (f_by_gft (the_deals it bs ss)); [congruence|reflexivity]. }
  revert SKB SKS SB SS CB CS STOP AB AS. generalize (skipn k (f_desc bs)) (skipn k (f_desc ss)). intros b s SKB SKS SB SS CB CS STOP AB AS.
  assert (FB : Forall (fbuyer B) b) by (apply Forall_forall; intros x X; apply buyer_ok; auto).
  assert (FS : Forall fseller s) by (apply Forall_forall; intros x X; apply seller_ok; auto).
  assert (FB' : Forall finite_double b) by (apply Forall_impl with (2 := FB); intros a A; apply A).
  assert (FS' : Forall finite_double s) by (apply Forall_impl with (2 := FS); intros a A; apply A).
  assert (NONE : f_heads [b; s] = None -> exists neg rb rs,
    match f_by_gft (the_deals it bs ss) with
      | [] => Ok ([[]; []], Some [fint 0; fint 0])
      | _ :: _ => s0 <- f_fold (f_tr_ps incl) (f_by_gft (the_deals it bs ss)) (mkFTR [dummy b; dummy s] [[]; []] None) ;; Ok (ftr_traders s0, ftr_prices s0) end
      = (s <- f_fold (f_tr_ps incl) (neg ++ f_by_gft (the_deals it bs ss)) (mkFTR [rb; rs] [[]; []] None) ;; Ok (ftr_traders s, ftr_prices s))
  /\ remaining_ok rb /\ remaining_ok rs /\ Forall (fbuyer B) rb /\ Forall fseller rs
  /\ (neg = [] \/ exists x y, neg = [[x; y]] /\ In x bs /\ In y ss
        /\ (forall x' y', In [x'; y'] (f_by_gft (the_deals it bs ss)) -> (dval x <= dval x' /\ dval y <= dval y')%Q)
        /\ (length bs < it -> (dval x + dval y < 0)%Q))
  /\ (forall x y, In [x; y] (neg ++ f_by_gft (the_deals it bs ss)) ->
        (forall r, In r rb -> (dval r <= dval x)%Q) /\ (forall r, In r rs -> (dval r <= dval y)%Q))
  /\ (exists rb0 rs0, rb = dummy rb0 /\ rs = dummy rs0 /\ Permutation (firsts (neg ++ f_by_gft (the_deals it bs ss)) ++ rb0) bs
        /\ Permutation (seconds (neg ++ f_by_gft (the_deals it bs ss)) ++ rs0) ss /\ (neg = [] -> rb0 = [] \/ rs0 = []))).
  { intros FH. exists [], (dummy b), (dummy s). split; [rewrite GO; reflexivity|]. split; [apply dummy_ok; assumption|]. split; [apply dummy_ok; assumption|].
    split; [apply dummy_Forall; assumption|]. split; [apply dummy_Forall; assumption|]. split; [left; reflexivity|].
    split; [cbn [app]; intros x y D; destruct (DF x y D) as (D1 & D2 & D3 & D4); split; apply dummy_le; auto|].
    exists b, s. split; [reflexivity|]. split; [reflexivity|]. split; [exact AB|]. split; [exact AS|]. intros _. destruct b; [left; reflexivity|]. destruct s; [right; reflexivity|discriminate]. }
  destruct b as [|h1 b]; [|destruct s as [|h2 s]].
  - specialize (NONE eq_refl). destruct (f_by_gft (the_deals it bs ss)); exact NONE.
  - specialize (NONE eq_refl). destruct (f_by_gft (the_deals it bs ss)); exact NONE.
  - clear NONE. cbn [f_heads map tl] in *. apply StronglySorted_inv in SB. destruct SB as [SB1 SB2]. apply StronglySorted_inv in SS. destruct SS as [SS1 SS2].
    inversion FB as [|? ? HB1 HB2]; subst. inversion FS as [|? ? HS1 HS2]; subst. inversion FB' as [|? ? HB3 HB4]; subst. inversion FS' as [|? ? HS3 HS4]; subst.
    exists [[h1; h2]], (dummy b), (dummy s). split.
    { assert (G := GO ([h1; h2] :: f_by_gft (the_deals it bs ss)) b s). destruct (f_by_gft (the_deals it bs ss)); [congruence|]. exact G. }
    split; [apply dummy_ok; assumption|]. split; [apply dummy_ok; assumption|]. split; [apply dummy_Forall; assumption|]. split; [apply dummy_Forall; assumption|]. split.
    + right. exists h1, h2. split; [reflexivity|]. split; [apply SKB; left; reflexivity|]. split; [apply SKS; left; reflexivity|]. split.
      * intros x y D. destruct (DF x y D) as (D1 & D2 & _). split; [apply CB|apply CS]; auto; left; reflexivity.
      * intros L. apply STOP; [exact L|reflexivity].
    + split; [|exists b, s; split; [reflexivity|]; split; [reflexivity|]; split;
        [cbn [firsts app map nth]; fold (firsts (f_by_gft (the_deals it bs ss))); eapply Permutation_trans; [|exact AB]; apply Permutation_middle|];
        split; [cbn [seconds app map nth]; fold (seconds (f_by_gft (the_deals it bs ss))); eapply Permutation_trans; [|exact AS]; apply Permutation_middle|discriminate]].
      cbn [app]. intros x y [E|D].
      * injection E as <- <-. rewrite Forall_forall in SB2, SS2, HB4, HS4. split; apply dummy_le; try apply HB1; try apply HS1.
        -- intros r R. specialize (SB2 r R). rewrite fle_dval in SB2 by auto. apply Qle_bool_iff. exact SB2.
        -- intros r R. specialize (SS2 r R). rewrite fle_dval in SS2 by auto. apply Qle_bool_iff. exact SS2.
      * destruct (DF x y D) as (D1 & D2 & D3 & D4). split; apply dummy_le; auto; intros r R; [apply CB|apply CS]; auto; right; exact R.
Qed.
End Deals.
