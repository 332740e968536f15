(** * C104: from the last step to the auction *)

From Coq Require Import String ZArith Reals Qreals QArith Qpower Qabs List Lia Lra Lqa Sorted Permutation.
From Coq Require Import SpecFloat.
From Flocq Require Import Core BinarySingleNaN Plus_error Relative.
From Verif Require Import Base Model_Float Spec_Float Spec_FloatMcAfee Spec_FloatBudget Proof_Float Proof_Float2 Proof_FM1 Proof_FB1 Proof_FB2.
Import ListNotations.

Local Open Scope nat_scope.
#[local] Existing Instance hprec.
#[local] Existing Instance hmax.
#[local] Existing Instance ve.
Ltac lra := first [Lra.lra | Lqa.lra].

Lemma Forall_set : forall A (P : A -> Prop) l i x, Forall P l -> P x -> Forall P (set_nth i x l).
Proof. intros A P l. induction l as [|a l IH]; intros [|i] x H X; cbn [set_nth]; inversion H; subst; constructor; auto. Qed.

Lemma Forall_nth : forall A (P : A -> Prop) l i x, Forall P l -> nth_error l i = Some x -> P x.
Proof. intros A P l i x H E. rewrite Forall_forall in H. apply H. eapply nth_error_In. exact E. Qed.

(** How the loop ends: a category is empty, or the last price is set. *)
Lemma loop_final : forall (P : double -> Prop) (Q : list double -> double -> Prop) recipe,
  (forall c low p, Q (c ++ [low]) p -> Q c low) ->
  forall fuel cats prices cats' prices',
  length cats = length recipe -> Forall2 Q cats prices -> Forall (Forall P) cats -> Forall P prices ->
  f_loop fuel recipe cats prices = Ok (cats', prices') ->
  (Forall2 Q cats' prices' /\ Forall (Forall P) cats' /\ Forall P prices' /\ exists i r, nth_error recipe i = Some (S r) /\ nth_error cats' i = Some []) \/
  exists prices0 i r c low p, Forall2 Q cats' prices0 /\ Forall (Forall P) cats' /\ Forall P prices0 /\ length cats' = length recipe /\
    nth_error recipe i = Some (S r) /\ nth_error cats' i = Some (c ++ [low]) /\ nth_error prices0 i = Some p /\
    fle (fint 0) (fadd (fsub (f_dot prices0 recipe) (fmul (fint (Z.of_nat (S r))) p)) (fmul (fint (Z.of_nat (S r))) low)) = true /\
    prices' = set_nth i (fdiv (fsub (fint 0) (fsub (f_dot prices0 recipe) (fmul (fint (Z.of_nat (S r))) p))) (fint (Z.of_nat (S r)))) prices0.
Proof.
  intros P Q recipe HQ. induction fuel as [|fuel IH]; intros cats prices cats' prices' Lc I HC HP H; [discriminate|].
  cbn [f_loop] in H. change (filter _ _) with (relevant recipe) in H.
  destruct (relevant recipe) as [|x l] eqn:R; [discriminate|].
  assert (Im : In (f_argmax_from (f_potential cats recipe) x l) (relevant recipe)) by (rewrite R; apply argmax_in).
  set (main := f_argmax_from _ _ _) in *.
  destruct (relevant_in _ _ Im) as (r & Hr).
  assert (Hi : main < length recipe) by (apply nth_error_Some; congruence).
  assert (Lp : length prices = length recipe).
  { rewrite <- Lc. symmetry. eapply Forall2_length. exact I. }
  destruct (nth_error cats main) as [c|] eqn:Hc; [|apply nth_error_None in Hc; lia].
  destruct (nth_error prices main) as [p|] eqn:Hp; [|apply nth_error_None in Hp; lia].
  unfold get in H. rewrite Hc in H. cbn [bind] in H.
  destruct (rev c) as [|low rc] eqn:Rc.
  { inversion H; subst. left. split; [exact I|]. split; [exact HC|]. split; [exact HP|]. exists main, r. split; [exact Hr|]. rewrite Hc. f_equal. rewrite <- (rev_involutive c), Rc. reflexivity. }
  apply rev_last in Rc.
  destruct (increase_ok recipe prices main r low p Hr Hp) as (b & np & E & E1 & E2). rewrite E in H. cbn [bind fst snd] in H.
  pose proof (Forall2_nth _ _ _ _ _ _ _ _ I Hc Hp) as G. rewrite Rc in G.
  assert (PC : Forall P c) by (apply (Forall_nth _ _ _ _ _ HC Hc)).
  destruct b.
  - inversion H; subst cats' prices'. clear H. right. destruct (E2 eq_refl) as (w & Ew & L & En). subst w.
    exists prices, main, r, (removelast c), low, p. split; [exact I|]. split; [exact HC|]. split; [exact HP|]. split; [exact Lc|]. split; [exact Hr|].
    split; [rewrite <- Rc; exact Hc|]. split; [exact Hp|]. split; [exact L|]. rewrite En. reflexivity.
  - rewrite (E1 eq_refl) in H. rewrite Rc in PC. apply Forall_app in PC. destruct PC as [PC PL]. apply IH in H; auto.
    + rewrite set_len; assumption.
    + apply Forall2_set; [assumption|]. apply (HQ _ _ _ G).
    + apply Forall_set; assumption.
    + apply Forall_set; [assumption|]. inversion PL; assumption.
Qed.

Lemma no_deal : forall recipe cats i r, nth_error recipe i = Some (S r) -> nth_error cats i = Some [] -> In 0 (f_deals cats recipe).
Proof.
  intros recipe. induction recipe as [|a recipe IH]; intros [|c cats] [|i] r Hr Hc; try discriminate; cbn [nth_error] in *.
  - injection Hr as ->. injection Hc as ->. cbn [f_deals]. left. apply Nat.div_0_l. discriminate.
  - cbn [f_deals]. destruct a; [|right]; apply (IH cats i r Hr Hc).
Qed.

Definition bound (B : Q) (x : double) : Prop := finite_double x /\ (Qabs (dval x) <= B)%Q.

Lemma Q2R_abs : forall q, Q2R (Qabs q) = Rabs (Q2R q).
Proof.
  intros q. destruct (Qlt_le_dec q 0) as [L|L].
  - rewrite (Qeq_eqR _ _ (Qabs_neg q (Qlt_le_weak _ _ L))), Q2R_opp. symmetry. apply Rabs_left1. apply Qlt_le_weak in L. apply Qle_Rle in L.
    replace (Q2R 0) with 0%R in L by (unfold Q2R; cbn; lra). exact L.
  - rewrite (Qeq_eqR _ _ (Qabs_pos q L)). symmetry. apply Rabs_pos_eq. apply Qle_Rle in L. replace (Q2R 0) with 0%R in L by (unfold Q2R; cbn; lra). exact L.
Qed.

Lemma Q2R_Z : forall z, Q2R (inject_Z z) = IZR z.
Proof. intros. unfold Q2R, inject_Z. cbn [Qnum Qden]. lra. Qed.

Lemma bound_okp : forall B x, bound B x -> exists b : bf, x = B2SF b /\ okp (Q2R B) b.
Proof.
  intros B x [F H]. destruct (finite_B x F) as (b & Fb & ->). exists b. split; [reflexivity|]. split; [exact Fb|].
  apply Qle_Rle in H. rewrite Q2R_abs, dval_B in H by exact Fb. exact H.
Qed.

Lemma bounds_okp : forall B l, Forall (bound B) l -> exists bs : list bf, l = map B2SF bs /\ Forall (okp (Q2R B)) bs.
Proof.
  intros B l H. induction H as [|x l H1 H2 (bs & -> & I)]; [exists []; split; [reflexivity|constructor]|].
  destruct (bound_okp B x H1) as (b & -> & O). exists (b :: bs). split; [reflexivity|constructor; assumption].
Qed.

Lemma paid_R : forall ps recipe, Forall (fun b => is_finite b = true) ps -> Q2R (paid (map B2SF ps) recipe) = rpaid ps recipe.
Proof.
  intros ps. induction ps as [|p ps IH]; intros [|r recipe] H; cbn [map paid rpaid]; try (unfold Q2R; cbn; lra).
  inversion H; subst. rewrite Q2R_plus, Q2R_mult, Q2R_Z, dval_B, IH by assumption. rewrite <- INR_IZR_INZ. reflexivity.
Qed.

Lemma map_set : forall A C (f : A -> C) l i x, map f (set_nth i x l) = set_nth i (f x) (map f l).
Proof. intros A C f l. induction l as [|a l IH]; intros [|i] x; cbn [set_nth map]; try reflexivity. rewrite IH. reflexivity. Qed.

Lemma nth_map_inv : forall A C (f : A -> C) l i y, nth_error (map f l) i = Some y -> exists x, nth_error l i = Some x /\ f x = y.
Proof. intros A C f l. induction l as [|a l IH]; intros [|i] y H; try discriminate; cbn in *; [injection H as <-; eauto|auto]. Qed.

Lemma nsum_le : forall l r, In r l -> r <= nsum l.
Proof. intros l r H. induction l as [|a l IH]; [destruct H|]. cbn [nsum fold_right]. change (fold_right Nat.add 0 l) with (nsum l). destruct H as [->|H]; [lia|]. specialize (IH H). lia. Qed.

Lemma start_bound : forall B cats n, (100000000 <= B)%Q -> Forall (Forall finite_double) cats -> Forall (Forall (fun v => (Qabs (dval v) <= B)%Q)) cats ->
  Forall (Forall (bound B)) (map f_sort cats) /\ Forall (bound B) (repeat (fint (-100000000)) n).
Proof.
  intros B cats n HB F H. split.
  - rewrite Forall_map. apply Forall_forall. intros c Hc. apply sort_forall. rewrite Forall_forall in F. specialize (F c Hc). rewrite Forall_forall in H. specialize (H c Hc).
    rewrite Forall_forall in *. intros v Hv. split; auto.
  - apply Forall_forall. intros x Hx. apply repeat_spec in Hx. subst x. destruct (fint_fin (-100000000)) as [A E]; [lia|]. split; [exact A|]. rewrite E. exact HB.
Qed.

(** The hypotheses about sizes, in reals. *)
Lemma sizes : forall recipe B k i r, nth_error recipe i = Some (S r) -> (100000000 <= B)%Q -> (2 * inject_Z (traders recipe) * B <= Qpower 2 k)%Q ->
  (1 <= Q2R B)%R /\ (2 * (INR (nsum recipe) * Q2R B) <= bpow radix2 k)%R /\ (1 <= k)%Z.
Proof.
  intros recipe B k i r Hr HB HK. apply Qle_Rle in HB, HK. rewrite !Q2R_mult, Q2R_pow2, Q2R_Z in HK. unfold traders in HK. rewrite <- INR_IZR_INZ in HK.
  change 100000000%Q with (inject_Z 100000000) in HB. rewrite Q2R_Z in HB. change 2%Q with (inject_Z 2) in HK. rewrite Q2R_Z in HK.
  assert (N : (1 <= INR (nsum recipe))%R). { change 1%R with (INR 1). apply le_INR. apply nth_error_In in Hr. apply nsum_le in Hr. lia. }
  assert (Q1 : (1 * Q2R B <= INR (nsum recipe) * Q2R B)%R) by (apply Rmult_le_compat_r; lra).
  split; [lra|]. split; [lra|]. destruct (Z_le_gt_dec 1 k) as [L|L]; [exact L|]. exfalso.
  assert (P : (bpow radix2 k <= bpow radix2 0)%R) by (apply bpow_le; lia). change (bpow radix2 0) with 1%R in P. lra.
Qed.

Lemma near_balance : forall cats recipe cats' prices B k,
  Forall (Forall finite_double) cats -> Forall (Forall (fun v => (Qabs (dval v) <= B)%Q)) cats -> (100000000 <= B)%Q ->
  (2 * inject_Z (traders recipe) * B <= Qpower 2 k)%Q -> (k <= 1000)%Z -> (traders recipe <= 2 ^ 53)%Z -> (2 * Z.of_nat (length recipe) + 2 <= 2 ^ 53)%Z ->
  f_auction cats recipe = Ok (cats', prices) -> Forall (fun n => 0 < n) (f_deals cats' recipe) ->
  Forall finite_double prices /\ (Qabs (paid prices recipe) <= inject_Z (2 * Z.of_nat (length recipe) + 5) * Qpower 2 (k - 54))%Q.
Proof.
  intros cats recipe cats' prices B k F H HB HK K1000 HT HN A D. unfold f_auction in A. destruct (length recipe =? length cats) eqn:L; [|discriminate]. apply Nat.eqb_eq in L.
  destruct (start_bound B cats (length recipe) HB F H) as [SC SP].
  apply (loop_final (bound B) (fun _ _ => True) recipe ltac:(auto)) in A; auto.
  2:{ rewrite map_length. auto. }
  2:{ rewrite L. clear. induction cats as [|c cats IH]; cbn [map length repeat]; constructor; auto. }
  destruct A as [(_ & _ & _ & i & r & Hr & Hc)|(prices0 & i & r & c & low & p & HI & HC & HP & Lc & Hr & Hc & Hp & C & E)].
  { exfalso. apply (no_deal recipe cats' i r Hr) in Hc. rewrite Forall_forall in D. specialize (D _ Hc). lia. }
  destruct (sizes recipe B k i r Hr HB HK) as (B1 & HB' & K1).
  destruct (bounds_okp B prices0 HP) as (ps & -> & OP).
  assert (LP : length ps = length recipe). { apply Forall2_length in HI. rewrite map_length in HI. congruence. }
  destruct (nth_map_inv _ _ _ _ _ _ Hp) as (bp & Hbp & Ebp). subst p.
  assert (HR : Forall (fun r => (Z.of_nat r <= 2 ^ 53)%Z) recipe).
  { apply Forall_forall. intros a Ha. apply nsum_le in Ha. unfold traders in HT. lia. }
  destruct (final_balance k (Q2R B) recipe ps i r bp ltac:(lia) ltac:(lra) OP HR LP Hr Hbp HB' HN) as (np & En & Fn & BAL).
  rewrite En in E. rewrite <- map_set in E. subst prices.
  assert (FP : Forall (fun b => is_finite b = true) (set_nth i np ps)).
  { apply Forall_set; [|exact Fn]. revert OP. apply Forall_impl. intros b [X _]. exact X. }
  split.
  - rewrite Forall_map. revert FP. apply Forall_impl. intros b X. apply finite_SF. exact X.
  - apply Rle_Qle. rewrite Q2R_abs, Q2R_mult, Q2R_Z, Q2R_pow2, paid_R by exact FP. rewrite plus_IZR, mult_IZR, <- INR_IZR_INZ. exact BAL.
Qed.

Lemma near_rationality : forall cats recipe cats' prices B k,
  Forall (Forall finite_double) cats -> Forall (Forall (fun v => (-100000000 <= dval v /\ dval v <= B)%Q)) cats -> (100000000 <= B)%Q ->
  (2 * inject_Z (traders recipe) * B <= Qpower 2 k)%Q -> (k <= 1000)%Z -> (traders recipe <= 2 ^ 53)%Z -> (2 * Z.of_nat (length recipe) + 2 <= 2 ^ 53)%Z ->
  f_auction cats recipe = Ok (cats', prices) ->
  forall i c p v, nth_error cats' i = Some c -> nth_error prices i = Some p -> In v c -> (dval p <= dval v + (3 # 9007199254740992) * B)%Q.
Proof.
  intros cats recipe cats' prices B k F H HB HK K1000 HT HN A j c p v Hc Hp Hv. unfold f_auction in A. destruct (length recipe =? length cats) eqn:L; [|discriminate]. apply Nat.eqb_eq in L.
  assert (M : finite_double (fint (-100000000)) /\ (dval (fint (-100000000)) == -100000000)%Q) by (apply fint_fin; lia). destruct M as [MF ME].
  destruct (start_bound B cats (length recipe) HB F) as [SC SP].
  { revert H. apply Forall_impl. intros l. apply Forall_impl. intros x [X1 X2]. apply Qabs_Qle_condition. split; [|exact X2]. apply Qle_trans with (-100000000)%Q; [|exact X1].
    apply Qopp_le_compat in HB. exact HB. }
  apply (loop_final (bound B) good recipe removelast_good) in A; auto.
  2:{ rewrite map_length. auto. }
  2:{ apply start_good; auto. clear - F H MF ME. rewrite Forall_forall in *. intros l Hl. specialize (F l Hl). specialize (H l Hl). rewrite Forall_forall in *. intros x Hx.
      rewrite fle_dval by auto. apply Qle_bool_iff. rewrite ME. apply (H x Hx). }
  assert (EB : (0 <= (3 # 9007199254740992) * B)%Q) by (apply Qmult_le_0_compat; [discriminate|apply Qle_trans with 100000000%Q; [discriminate|exact HB]]).
  assert (EASY : forall cs ps, Forall2 good cs ps -> Forall (bound B) ps -> nth_error cs j = Some c -> nth_error ps j = Some p -> (dval p <= dval v + (3 # 9007199254740992) * B)%Q).
  { intros cs ps G PP E1 E2. destruct (Forall2_nth _ _ _ _ _ _ _ _ G E1 E2) as (G1 & _ & _ & G4). rewrite Forall_forall in G1, G4. specialize (G1 v Hv). specialize (G4 v Hv).
    destruct (Forall_nth _ _ _ _ _ PP E2) as [FP _]. rewrite fle_dval in G4 by assumption. apply Qle_bool_iff in G4. lra. }
  destruct A as [(HI & _ & HP & _)|(prices0 & i & r & c' & low & p' & HI & HC & HP & Lc & Hr & Hc' & Hp' & C & E)].
  { exact (EASY _ _ HI HP Hc Hp). }
  destruct (Nat.eq_dec i j) as [->|NE].
  2:{ rewrite E, nth_set_other in Hp by exact NE. exact (EASY _ _ HI HP Hc Hp). }
  destruct (sizes recipe B k j r Hr HB HK) as (B1 & HB' & K1).
  destruct (bounds_okp B prices0 HP) as (ps & EP & OP). subst prices0.
  assert (LP : length ps = length recipe). { apply Forall2_length in HI. rewrite map_length in HI. congruence. }
  destruct (nth_map_inv _ _ _ _ _ _ Hp') as (bp & Hbp & Ebp). subst p'.
  assert (HR : Forall (fun r => (Z.of_nat r <= 2 ^ 53)%Z) recipe).
  { apply Forall_forall. intros a Ha. apply nsum_le in Ha. unfold traders in HT. lia. }
  assert (EC : c = c' ++ [low]) by congruence. assert (G := Forall2_nth _ _ _ _ _ _ _ _ HI Hc' Hp'). assert (BC := Forall_nth _ _ _ _ _ HC Hc').
  assert (BL : bound B low) by (apply Forall_app in BC; destruct BC as [_ X]; inversion X; assumption).
  destruct (bound_okp B low BL) as (bl & El & OL). subst low.
  destruct (final_balance k (Q2R B) recipe ps j r bp ltac:(lia) ltac:(lra) OP HR LP Hr Hbp HB' HN) as (np & En & Fn & _).
  assert (PR := final_price k (Q2R B) recipe ps j r bp bl ltac:(lia) ltac:(lra) OP HR LP Hr Hbp HB' HN OL C B1 np En).
  rewrite En in E. rewrite E, nth_set_same in Hp by (rewrite map_length; apply nth_error_Some; congruence). injection Hp as <-.
  assert (PQ : (dval (B2SF np) <= dval (B2SF bl) + (3 # 9007199254740992) * B)%Q).
  { apply Rle_Qle. rewrite Q2R_plus, Q2R_mult, !dval_B by (assumption || apply OL).
    replace (Q2R (3 # 9007199254740992)) with (3 * bpow radix2 (-53))%R; [exact PR|]. unfold Q2R. cbn [Qnum Qden]. reflexivity. }
  assert (VL : (dval (B2SF bl) <= dval v)%Q).
  { subst c. destruct (low_le _ _ _ _ G Hv) as [->|Q]; [apply Qle_refl|]. rewrite fle_dval in Q; [apply Qle_bool_iff; exact Q|apply BL|].
    rewrite Forall_forall in BC. apply BC. exact Hv. }
  lra.
Qed.
