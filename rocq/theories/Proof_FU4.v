(** * C106: a false report gains at most the rounding *)

From Coq Require Import String ZArith Reals Qreals QArith Qpower Qabs List Lia Lra Lqa Sorted Permutation.
From Coq Require Import SpecFloat.
From Flocq Require Import Core BinarySingleNaN Plus_error Relative.
From Verif Require Import Base Model_Float Spec_Float Spec_FloatMcAfee Spec_FloatBudget Spec_FloatTruth
  Proof_Float Proof_Float2 Proof_FM1 Proof_FB1 Proof_FB2 Proof_FB3 Proof_FU1 Proof_FU2 Proof_FU3.
Import ListNotations.

Local Open Scope nat_scope.
#[local] Existing Instance hprec.
#[local] Existing Instance hmax.
#[local] Existing Instance ve.
Ltac lra := first [Lra.lra | Lqa.lra].

(** ** The number of deals *)

Lemma deals_len : forall cats cats' recipe, map (@length double) cats = map (@length double) cats' -> f_deals cats recipe = f_deals cats' recipe.
Proof.
  intros cats. induction cats as [|c cats IH]; intros [|c' cats'] recipe H; try discriminate; [reflexivity|].
  cbn [map] in H. injection H as H1 H2. destruct recipe as [|[|r] recipe]; cbn [f_deals]; [reflexivity|apply IH; exact H2|]. rewrite H1, (IH _ _ H2). reflexivity.
Qed.

Lemma fold_min_le : forall l n x, In x (n :: l) -> fold_left Nat.min l n <= x.
Proof.
  induction l as [|y l IH]; intros n x H; cbn [fold_left].
  - destruct H as [->|[]]. lia.
  - destruct H as [->|[->|H]].
    + eapply Nat.le_trans; [apply (IH _ (Nat.min x y)); left; reflexivity|lia].
    + eapply Nat.le_trans; [apply (IH _ (Nat.min n x)); left; reflexivity|lia].
    + apply IH. right. exact H.
Qed.

Lemma in_deals : forall cats recipe i c r, nth_error cats i = Some c -> nth_error recipe i = Some (S r) -> length cats = length recipe ->
  In (length c / S r) (f_deals cats recipe).
Proof.
  induction cats as [|a cats IH]; intros [|b recipe] [|i] c r Hc Hr L; try discriminate; cbn [nth_error] in *.
  - injection Hc as ->. injection Hr as ->. cbn [f_deals]. left. reflexivity.
  - injection L as L. specialize (IH recipe i c r Hc Hr L). destruct b; cbn [f_deals]; [exact IH|right; exact IH].
Qed.

Lemma traders_le : forall cats recipe i c, nth_error cats i = Some c -> length cats = length recipe -> nth i recipe 0 * deals_made cats recipe <= length c.
Proof.
  intros cats recipe i c Hc L. assert (Hi : i < length cats) by (apply nth_error_Some; congruence).
  destruct (nth i recipe 0) as [|r] eqn:E; [lia|].
  assert (Hr : nth_error recipe i = Some (S r)) by (rewrite <- E; apply nth_error_nth'; lia).
  assert (I := in_deals cats recipe i c r Hc Hr L). unfold deals_made. destruct (f_deals cats recipe) as [|n l]; [destruct I|].
  apply fold_min_le in I. apply Nat.le_trans with (S r * (length c / S r)); [apply Nat.mul_le_mono_l; exact I|apply Nat.mul_div_le; lia].
Qed.

(** The probability to trade. *)
Lemma prob : forall cats recipe i c, nth_error cats i = Some c -> length cats = length recipe -> 0 < length c ->
  (0 <= inject_Z (Z.of_nat (nth i recipe 0%nat * deals_made cats recipe)%nat) / inject_Z (Z.of_nat (length c)) <= 1)%Q.
Proof.
  intros cats recipe i c Hc L P. assert (T := traders_le cats recipe i c Hc L).
  assert (Q0 : (0 < inject_Z (Z.of_nat (length c)))%Q) by (change 0%Q with (inject_Z 0); rewrite <- Zlt_Qlt; lia).
  split.
  - apply Qle_shift_div_l; [exact Q0|]. rewrite Qmult_0_l. change 0%Q with (inject_Z 0). rewrite <- Zle_Qle. lia.
  - apply Qle_shift_div_r; [exact Q0|]. rewrite Qmult_1_l. rewrite <- Zle_Qle. lia.
Qed.

Lemma loop_len : forall recipe fuel cats prices cats' prices', f_loop fuel recipe cats prices = Ok (cats', prices') -> length cats' = length cats /\ length prices' = length prices.
Proof.
  intros recipe. induction fuel as [|fuel IH]; intros cats prices cats' prices' H; [discriminate|].
  cbn [f_loop] in H. destruct (filter _ _) as [|x l]; [discriminate|]. set (main := f_argmax_from _ _ _) in *.
  unfold get in H. destruct (nth_error cats main) as [c|] eqn:Hc; [|discriminate]. cbn [bind] in H.
  destruct (rev c) as [|low rc]; [injection H as <- <-; auto|].
  apply bind_Ok in H. destruct H as ([b np] & E & H). cbn [fst snd] in H.
  assert (LN : length np = length prices).
  { unfold f_increase in E. apply bind_Ok in E. destruct E as (r & _ & E). apply bind_Ok in E. destruct E as (w & _ & E).
    destruct (fle _ _); [destruct (r =? 0); [discriminate|]|]; injection E as <- <-; apply set_len. }
  destruct b; [injection H as <- <-; auto|]. apply IH in H. rewrite set_len in H. rewrite LN in H. exact H.
Qed.

Lemma utility_in : forall cats prices recipe i pos v c p, nth_error cats i = Some c -> nth_error prices i = Some p -> pos < length c ->
  f_utility cats prices recipe i pos v = (inject_Z (Z.of_nat (nth i recipe 0%nat * deals_made cats recipe)%nat) / inject_Z (Z.of_nat (length c)) * (dval v - dval p))%Q.
Proof. intros cats prices recipe i pos v c p Hc Hp L. unfold f_utility. rewrite Hc, Hp. rewrite (proj2 (Nat.ltb_lt _ _) L). reflexivity. Qed.

Lemma utility_out : forall cats prices recipe i pos v c, nth_error cats i = Some c -> length c <= pos -> f_utility cats prices recipe i pos v = 0%Q.
Proof.
  intros cats prices recipe i pos v c Hc L. unfold f_utility. rewrite Hc. destruct (nth_error prices i); [|reflexivity].
  rewrite (proj2 (Nat.ltb_ge _ _) L). reflexivity.
Qed.

Section Truth.
Variables (recipe : list nat) (B : Q) (k : Z) (i : nat) (cats : list (list double)) (pre post : list double).
Hypothesis (HB : (100000000 <= B)%Q).
Hypothesis (HK : (2 * inject_Z (traders recipe) * B <= Qpower 2 k)%Q).
Hypothesis (K1000 : (k <= 1000)%Z).
Hypothesis (HT : (traders recipe <= 2 ^ 53)%Z).
Hypothesis (HN : (2 * Z.of_nat (length recipe) + 2 <= 2 ^ 53)%Z).
Hypothesis (Hi : i < length cats).
Hypothesis (BC : Forall (Forall (bound B)) cats).
Hypothesis (B1 : Forall (bound B) pre).
Hypothesis (B2 : Forall (bound B) post).

Let err := (inject_Z (4 * Z.of_nat (length recipe) + 8) * Qpower 2 (k - 54))%Q.

Lemma err_R : Q2R err = ((4 * INR (length recipe) + 8) * bpow radix2 (k - 54))%R.
Proof. unfold err. rewrite Q2R_mult, Q2R_Z, Q2R_pow2, plus_IZR, mult_IZR, <- INR_IZR_INZ. reflexivity. Qed.

Lemma err_pos : (0 <= err)%Q.
Proof.
  unfold err. apply Qmult_le_0_compat; [change 0%Q with (inject_Z 0); rewrite <- Zle_Qle; lia|]. apply Qpower_pos. discriminate.
Qed.

Lemma bound_fin : forall l, Forall (bound B) l -> Forall finite_double l.
Proof. apply Forall_impl. intros x [H _]. exact H. Qed.

Lemma two_float_runs : forall lo hi cl pl ch ph, bound B lo -> bound B hi -> fle lo hi = true ->
  f_auction (set_nth i (pre ++ lo :: post) cats) recipe = Ok (cl, pl) ->
  f_auction (set_nth i (pre ++ hi :: post) cats) recipe = Ok (ch, ph) ->
  (forall v, f_utility ch ph recipe i (position pre post hi) v = f_utility cl pl recipe i (position pre post lo) v) \/
  ((forall v, f_utility cl pl recipe i (position pre post lo) v = 0%Q) /\ exists p, nth_error ph i = Some p /\ (dval lo - err <= dval p)%Q).
Proof.
  intros lo hi cl pl ch ph Blo Bhi LE Hl Hh. unfold f_auction in Hl, Hh. rewrite !set_len in Hl, Hh.
  destruct (length recipe =? length cats) eqn:L; [|discriminate]. apply Nat.eqb_eq in L.
  assert (FUEL : map (@length double) (set_nth i (pre ++ lo :: post) cats) = map (@length double) (set_nth i (pre ++ hi :: post) cats)).
  { apply map_set_len. rewrite !app_length. reflexivity. }
  rewrite FUEL in Hl. rewrite !map_set in Hl, Hh. set (fuel := S (nsum _)) in *. clearbody fuel.
  destruct (two_sorted pre post lo hi (proj1 Blo) (proj1 Bhi) (bound_fin _ B1) (bound_fin _ B2) LE) as (xl & xh & q & top & E1 & E2 & L1 & L2 & LT).
  assert (PM := position_mono pre post lo hi (proj1 Blo) (proj1 Bhi) (bound_fin _ B1) (bound_fin _ B2) LE).
  assert (SH : Forall (bound B) (f_sort (pre ++ hi :: post))). { apply sort_forall. apply Forall_app. split; [exact B1|constructor; assumption]. }
  assert (SS : fdesc (f_sort (pre ++ hi :: post))). { apply sort_sorted. apply bound_fin. apply Forall_app. split; [exact B1|constructor; assumption]. }
  rewrite E1 in Hl. rewrite E2 in Hh, SH, SS. apply Forall_app in SH. destruct SH as [SH1 SH2].
  assert (BT : bound B top) by (apply Forall_app in SH1; destruct SH1 as [_ X]; inversion X; assumption).
  destruct (bound_okp B lo Blo) as (blo & Elo & OLO). subst lo. destruct (bound_okp B top BT) as (btop & Et & OT). subst top.
  destruct (bounds_okp B (repeat (fint (-100000000)) (length recipe))) as (ps & EP & OP).
  { apply (start_bound B [] (length recipe)); [exact HB|constructor..]. }
  rewrite EP in Hl, Hh.
  assert (LP : length ps = length recipe). { rewrite <- (map_length B2SF ps), <- EP. apply repeat_length. }
  assert (FX : Forall (fun v => fle (B2SF blo) v = true) xh).
  { apply Forall_forall. intros z Hz.
    assert (TZ : fle (B2SF btop) z = true).
    { clear - SS Hz. induction xh as [|y xh IH]; [destruct Hz|]. cbn [app] in SS. inversion SS as [|? ? S1 S2]; subst.
      destruct Hz as [->|Hz]; [|auto]. rewrite Forall_forall in S2. apply S2. apply in_or_app. left. apply in_or_app. right. left. reflexivity. }
    assert (FZ : finite_double z) by (apply Forall_app in SH1; destruct SH1 as [X _]; rewrite Forall_forall in X; apply X; exact Hz).
    exact (fle_trans _ _ _ (finite_dbl _ (proj1 Blo)) (proj1 BT) FZ LT TZ). }
  assert (LTR : (B2R blo <= B2R btop)%R). { rewrite fle_B in LT. apply Bleb_iff in LT; [exact LT|apply OLO|apply OT]. }
  assert (LL := loop_len _ _ _ _ _ _ Hl). assert (LH := loop_len _ _ _ _ _ _ Hh). rewrite !set_len, !map_length in LL, LH.
  assert (HCS : Forall (Forall (bound B)) (map f_sort cats)).
  { rewrite Forall_map. revert BC. apply Forall_impl. intros c. apply sort_forall. }
  destruct (lockstep recipe B k i HB HK K1000 HT HN xl xh blo btop L2 LTR SH1 OLO FX fuel q (map f_sort cats) ps cl pl ch ph) as [(EQP & EQC & c & Ec & Lc)|((c & Ec & Lc) & bp & Ep & Fp & LB)]; auto.
  { rewrite map_length. exact Hi. }
  { rewrite map_length. auto. }
  - left. intros v. subst ph. rewrite L1 in Lc.
    assert (IH : i < length ch) by lia. destruct (nth_error ch i) as [c'|] eqn:Ec'; [|apply nth_error_None in Ec'; lia].
    assert (LC : length c' = length c).
    { assert (X : nth_error (map (@length double) cl) i = nth_error (map (@length double) ch) i) by (rewrite EQC; reflexivity).
      rewrite !nth_error_map, Ec, Ec' in X. cbn in X. congruence. }
    assert (DM : deals_made ch recipe = deals_made cl recipe) by (unfold deals_made; rewrite (deals_len _ _ recipe EQC); reflexivity).
    assert (Ip : i < length pl) by lia. destruct (nth_error pl i) as [p|] eqn:Ep; [|apply nth_error_None in Ep; lia].
    rewrite (utility_in cl pl recipe i _ v c p Ec Ep Lc). rewrite (utility_in ch pl recipe i _ v c' p Ec' Ep) by lia. rewrite LC, DM. reflexivity.
  - right. split; [intros v; apply (utility_out cl pl recipe i _ v c Ec); lia|]. exists (B2SF bp). split; [exact Ep|].
    apply Rle_Qle. rewrite Q2R_minus, err_R, !dval_B by (exact Fp || apply OLO). exact LB.
Qed.

Lemma float_truthful : forall v v' ct pt cl pl, bound B v -> bound B v' ->
  Forall (Forall (fun x => (-100000000 <= dval x)%Q)) cats -> Forall (fun x => (-100000000 <= dval x)%Q) (pre ++ v :: post) ->
  f_auction (set_nth i (pre ++ v :: post) cats) recipe = Ok (ct, pt) ->
  f_auction (set_nth i (pre ++ v' :: post) cats) recipe = Ok (cl, pl) ->
  (f_utility cl pl recipe i (position pre post v') v <= f_utility ct pt recipe i (position pre post v) v + err)%Q.
Proof.
  intros v v' ct pt cl pl Bv Bv' LC LV Ht Hl. assert (EP := err_pos).
  assert (LEN : forall x cs ps, f_auction (set_nth i (pre ++ x :: post) cats) recipe = Ok (cs, ps) -> length cs = length recipe /\ length ps = length recipe).
  { intros x cs ps H. unfold f_auction in H. rewrite set_len in H. destruct (length recipe =? length cats) eqn:L; [|discriminate]. apply Nat.eqb_eq in L.
    apply loop_len in H. rewrite map_length, set_len, repeat_length in H. destruct H. split; congruence. }
  assert (LR : length cats = length recipe).
  { unfold f_auction in Ht. rewrite set_len in Ht. destruct (length recipe =? length cats) eqn:L; [|discriminate]. apply Nat.eqb_eq in L. congruence. }
  destruct (LEN _ _ _ Ht) as [LT1 LT2]. destruct (LEN _ _ _ Hl) as [LL1 LL2].
  destruct (fle v v') eqn:E.
  - destruct (two_float_runs v v' ct pt cl pl Bv Bv' E Ht Hl) as [SAME|[Z (p & Hp & LB)]].
    { rewrite SAME. lra. }
    rewrite Z. rewrite Qplus_0_l. assert (Ic : i < length cl) by lia. destruct (nth_error cl i) as [c|] eqn:Hc; [|apply nth_error_None in Hc; lia].
    destruct (le_lt_dec (length c) (position pre post v')) as [O|O]; [rewrite (utility_out cl pl recipe i _ v c Hc O); exact EP|].
    rewrite (utility_in cl pl recipe i _ v c p Hc Hp O).
    destruct (prob cl recipe i c Hc LL1 ltac:(lia)) as [P0 P1]. set (pr := (_ / _)%Q) in *. clearbody pr.
    assert (X : (dval v - dval p <= err)%Q) by lra. nra.
  - assert (E' : fle v' v = true) by (apply fle_total; [apply Bv|apply Bv'|exact E]).
    destruct (two_float_runs v' v cl pl ct pt Bv' Bv E' Hl Ht) as [SAME|[Z _]].
    { rewrite SAME. lra. }
    rewrite Z. assert (Ic : i < length ct) by lia. destruct (nth_error ct i) as [c|] eqn:Hc; [|apply nth_error_None in Hc; lia].
    destruct (le_lt_dec (length c) (position pre post v)) as [O|O]; [rewrite (utility_out ct pt recipe i _ v c Hc O); lra|].
    assert (Ip : i < length pt) by lia. destruct (nth_error pt i) as [p|] eqn:Hp; [|apply nth_error_None in Hp; lia].
    rewrite (utility_in ct pt recipe i _ v c p Hc Hp O).
    destruct (prob ct recipe i c Hc LT1 ltac:(lia)) as [P0 P1].
    destruct (nth i recipe 0) as [|r] eqn:ER.
    { change (0 * deals_made ct recipe) with 0. change (inject_Z (Z.of_nat 0)) with 0%Q. unfold Qdiv. rewrite !Qmult_0_l. lra. }
    assert (Hr : nth_error recipe i = Some (S r)) by (rewrite <- ER; apply nth_error_nth'; lia).
    destruct (sizes recipe B k i r Hr HB HK) as (RB1 & HB' & K1).
    assert (BALL : Forall (Forall (bound B)) (set_nth i (pre ++ v :: post) cats)).
    { apply Forall_set; [exact BC|]. apply Forall_app. split; [exact B1|]. constructor; assumption. }
    assert (LALL : Forall (Forall (fun x => (-100000000 <= dval x)%Q)) (set_nth i (pre ++ v :: post) cats)) by (apply Forall_set; assumption).
    assert (IN : In v c).
    { assert (X := float_best _ _ _ _ Ht). assert (Y := nth_set_same _ cats i (pre ++ v :: post) Hi).
      destruct (Forall2_nth _ _ _ _ _ _ _ _ X Y Hc) as (n & ->).
      destruct (sort_position pre post v (proj1 Bv) (bound_fin _ B1) (bound_fin _ B2)) as (a & b & _ & ES & La & _). rewrite <- La, ES in O. rewrite ES.
      rewrite firstn_length, app_length in O. rewrite firstn_app. apply in_or_app. right. destruct (n - length a) eqn:NA; [lia|]. left. reflexivity. }
    assert (IR := near_rationality (set_nth i (pre ++ v :: post) cats) recipe ct pt B k).
    specialize (IR (Forall_impl _ bound_fin BALL)).
    assert (RNG : Forall (Forall (fun v => (-100000000 <= dval v /\ dval v <= B)%Q)) (set_nth i (pre ++ v :: post) cats)).
    { rewrite Forall_forall in *. intros l Hin. specialize (BALL l Hin). specialize (LALL l Hin). rewrite Forall_forall in *. intros x Hx. split; [auto|].
      destruct (BALL x Hx) as [_ X]. apply Qabs_Qle_condition in X. apply X. }
    specialize (IR RNG HB HK K1000 HT HN Ht i c p v Hc Hp IN).
    assert (D : ((3 # 9007199254740992) * B <= err)%Q).
    { apply Rle_Qle. rewrite err_R, Q2R_mult. replace (Q2R (3 # 9007199254740992)) with (3 * bpow radix2 (-53))%R by reflexivity.
      assert (N1 : (1 <= INR (nsum recipe))%R). { change 1%R with (INR 1). apply le_INR. apply nth_error_In in Hr. apply nsum_le in Hr. lia. }
      assert (Q1 : (1 * Q2R B <= INR (nsum recipe) * Q2R B)%R) by (apply Rmult_le_compat_r; lra).
      assert (BK : (bpow radix2 (-53) * (2 * Q2R B) <= 2 * bpow radix2 (k - 54))%R).
      { apply Rle_trans with (bpow radix2 (-53) * bpow radix2 k)%R; [apply Rmult_le_compat_l; [apply bpow_ge_0|lra]|].
        rewrite <- bpow_plus. replace (-53 + k)%Z with (1 + (k - 54))%Z by lia. rewrite bpow_plus. change (bpow radix2 1) with 2%R. lra. }
      assert (0 <= INR (length recipe) * bpow radix2 (k - 54))%R by (apply Rmult_le_pos; [apply pos_INR|apply bpow_ge_0]).
      assert (0 <= bpow radix2 (k - 54))%R by apply bpow_ge_0. lra. }
    set (pr := (_ / _)%Q) in *. clearbody pr.
    assert (X : (- err <= dval v - dval p)%Q) by lra. nra.
Qed.
End Truth.
