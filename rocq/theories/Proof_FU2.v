(** * C106: the rounds before the last one *)

From Coq Require Import String ZArith Reals Qreals QArith Qpower Qabs List Lia Lra Sorted Permutation.
From Coq Require Import SpecFloat.
From Flocq Require Import Core BinarySingleNaN Plus_error Relative.
From Verif Require Import Base Model_Float Spec_Float Spec_FloatMcAfee Spec_FloatBudget Proof_Float Proof_Float2 Proof_FM1 Proof_FB1 Proof_FB2.
Import ListNotations.

Local Open Scope R_scope.
#[local] Existing Instance hprec.
#[local] Existing Instance hmax.
#[local] Existing Instance ve.

(** The sign of a rounded sum. *)
Lemma sum_neg : forall (x y : bf) j, (-1000 <= j < 1023)%Z -> is_finite x = true -> is_finite y = true ->
  Rabs (B2R x) <= bpow radix2 j -> Rabs (B2R y) <= bpow radix2 j ->
  fle (fint 0) (fadd (B2SF x) (B2SF y)) = false -> B2R x + B2R y < 0.
Proof.
  intros x y j J Fx Fy Bx By C. destruct (Rlt_le_dec (B2R x + B2R y) 0) as [L|L]; [exact L|]. exfalso.
  assert (BB : Rabs (B2R x + B2R y) <= bpow radix2 (j + 1)).
  { eapply Rle_trans; [apply Rabs_triang|]. rewrite bpow_plus. change (bpow radix2 1) with 2. lra. }
  destruct (rnd_err (j + 1) _ ltac:(lia) BB) as [_ E2].
  pose proof (Bplus_correct 53 1024 hprec hmax mode_NE x y Fx Fy) as CP. change (round_mode mode_NE) with ZnearestE in CP.
  rewrite (no_overflow (j + 1) _ ltac:(lia) E2) in CP. destruct CP as (C1 & C2 & _).
  rewrite int_B, add_B, fle_B in C. rewrite Bleb_correct in C by (auto; reflexivity). rewrite bint0 in C. simpl (B2R (B754_zero false)) in C.
  destruct (Rle_bool_spec 0 (B2R (Bplus mode_NE x y))) as [X|X]; [discriminate|].
  rewrite C1 in X. assert (Y : 0 <= rnd (B2R x + B2R y)) by (apply round_ge_generic; auto with typeclass_instances; apply generic_format_0). lra.
Qed.

(** A higher value gives a higher rounded sum. *)
Lemma mono_sum : forall k B recipe i r (bw lo top : bf), (1 <= k <= 1000)%Z -> 0 <= B -> Forall (fun r => (Z.of_nat r <= 2 ^ 53)%Z) recipe ->
  nth_error recipe i = Some (S r) -> 2 * (INR (nsum recipe) * B) <= bpow radix2 k -> is_finite bw = true -> Rabs (B2R bw) <= bpow radix2 k ->
  okp B lo -> okp B top -> B2R lo <= B2R top ->
  fle (fint 0) (fadd (B2SF bw) (fmul (fint (Z.of_nat (S r))) (B2SF lo))) = true ->
  fle (fint 0) (fadd (B2SF bw) (fmul (fint (Z.of_nat (S r))) (B2SF top))) = false -> False.
Proof.
  intros k B recipe i r bw lo top K PB HR Hr HB Fw WA [Fl Bl] [Ft Bt] LT C1 C2.
  assert (RB : rep (Z.of_nat (S r)) (bnat (S r))) by (apply rep_int; assert (R : (Z.of_nat (S r) <= 2 ^ 53)%Z) by (eapply r_53; eassumption); lia).
  destruct RB as [Fr Er]. rewrite <- INR_IZR_INZ in Er.
  rewrite (int_B (Z.of_nat (S r))) in C1, C2. change (bint (Z.of_nat (S r))) with (bnat (S r)) in C1, C2. rewrite mul_B in C1, C2.
  assert (RR : INR (S r) * B <= bpow radix2 k) by (eapply r_rb; eassumption).
  assert (M : forall y : bf, is_finite y = true -> Rabs (B2R y) <= B -> is_finite (Bmult mode_NE (bnat (S r)) y) = true /\
    B2R (Bmult mode_NE (bnat (S r)) y) = rnd (INR (S r) * B2R y) /\ Rabs (B2R (Bmult mode_NE (bnat (S r)) y)) <= bpow radix2 k).
  { intros y Fy By. assert (LR : Rabs (INR (S r) * B2R y) <= bpow radix2 k).
    { rewrite Rabs_mult, (Rabs_pos_eq (INR (S r))) by apply pos_INR. eapply Rle_trans; [apply Rmult_le_compat_l; [apply pos_INR|exact By]|exact RR]. }
    destruct (rnd_err k _ ltac:(lia) LR) as [_ RL].
    pose proof (Bmult_correct 53 1024 hprec hmax mode_NE (bnat (S r)) y) as CM. change (round_mode mode_NE) with ZnearestE in CM. rewrite Er in CM.
    rewrite (no_overflow k _ ltac:(lia) RL) in CM. destruct CM as (CM1 & CM2 & _). rewrite Fr, Fy in CM2. rewrite CM1. auto. }
  destruct (M lo Fl Bl) as (F1 & E1 & A1). destruct (M top Ft Bt) as (F2 & E2 & A2).
  apply (sum_neg _ _ k ltac:(lia) Fw F2 WA A2) in C2.
  assert (X : B2R (Bmult mode_NE (bnat (S r)) lo) <= B2R (Bmult mode_NE (bnat (S r)) top)).
  { rewrite E1, E2. apply round_le; auto with typeclass_instances. apply Rmult_le_compat_l; [apply pos_INR|exact LT]. }
  set (x := Bmult mode_NE (bnat (S r)) lo) in *.
  assert (L : B2R bw + B2R x < 0) by lra. apply (sign_sum bw x Fw F1) in L.
  rewrite int_B, add_B, fle_B in C1.
  assert (BB : Rabs (B2R bw + B2R x) <= bpow radix2 (k + 1)).
  { eapply Rle_trans; [apply Rabs_triang|]. rewrite bpow_plus. change (bpow radix2 1) with 2. lra. }
  destruct (rnd_err (k + 1) _ ltac:(lia) BB) as [_ RE].
  pose proof (Bplus_correct 53 1024 hprec hmax mode_NE bw x Fw F1) as CP. change (round_mode mode_NE) with ZnearestE in CP.
  rewrite (no_overflow (k + 1) _ ltac:(lia) RE) in CP. destruct CP as (_ & FS & _).
  change (Bltb (Bplus mode_NE bw x) (bint 0) = true) in L.
  rewrite Bltb_correct in L by (auto; reflexivity). rewrite Bleb_correct in C1 by (auto; reflexivity).
  destruct (Rlt_bool_spec (B2R (Bplus mode_NE bw x)) (B2R (bint 0))); [|discriminate]. destruct (Rle_bool_spec (B2R (bint 0)) (B2R (Bplus mode_NE bw x))); [lra|discriminate].
Qed.

Section Round.
Variables (k : Z) (B : R) (recipe : list nat) (ps : list bf) (i : nat) (r : nat) (p low : bf).
Hypothesis (K : (1 <= k <= 1000)%Z).
Hypothesis (PB : 0 <= B).
Hypothesis (HP : Forall (okp B) ps).
Hypothesis (HR : Forall (fun r => (Z.of_nat r <= 2 ^ 53)%Z) recipe).
Hypothesis (LP : length ps = length recipe).
Hypothesis (Hr : nth_error recipe i = Some (S r)).
Hypothesis (Hp : nth_error ps i = Some p).
Hypothesis (HB : 2 * (INR (nsum recipe) * B) <= bpow radix2 k).
Hypothesis (HN : (2 * Z.of_nat (length recipe) + 2 <= 2 ^ 53)%Z).
Hypothesis (Hlow : okp B low).

Let d := bpow radix2 (k - 54).
Let W := rpaid ps recipe - INR (S r) * B2R p.
Let w := fsub (f_dot (map B2SF ps) recipe) (fmul (fint (Z.of_nat (S r))) (B2SF p)).
Let np := fdiv (fsub (fint 0) w) (fint (Z.of_nat (S r))).

Lemma S1 : 1 <= INR (S r).
Proof. rewrite S_INR. assert (P := pos_INR r). lra. Qed.

(** What a round knows when the price-sum has not crossed zero. *)
Lemma stay : fle (fint 0) (fadd w (fmul (fint (Z.of_nat (S r))) (B2SF low))) = false ->
  exists bw : bf, w = B2SF bw /\ is_finite bw = true /\ Rabs (B2R bw - W) <= (2 * INR (length recipe) + 2) * d /\
    Rabs (B2R bw) <= bpow radix2 k /\ B2R bw < - (INR (S r) * B2R low) + d.
Proof.
  intros C. destruct (final_w k B recipe ps i r p K PB HP HR LP Hr Hp HB HN) as (bw & E & N).
  assert (WA : Rabs (B2R bw) <= bpow radix2 k) by (eapply w_abs; eassumption). destruct N as [Fw N].
  change (w = B2SF bw) in E. exists bw. split; [exact E|]. split; [exact Fw|]. fold d W in N.
  split; [eapply Rle_trans; [exact N|]; lra|]. split; [exact WA|].
  assert (RB : rep (Z.of_nat (S r)) (bnat (S r))) by (apply rep_int; assert (R : (Z.of_nat (S r) <= 2 ^ 53)%Z) by (eapply r_53; eassumption); lia).
  destruct RB as [Fr Er]. rewrite <- INR_IZR_INZ in Er. destruct Hlow as [Fl Bl].
  assert (LR : Rabs (B2R (bnat (S r)) * B2R low) <= bpow radix2 k).
  { rewrite Er, Rabs_mult, (Rabs_pos_eq (INR (S r))) by apply pos_INR. eapply Rle_trans; [apply Rmult_le_compat_l; [apply pos_INR|exact Bl]|].
    eapply r_rb; eassumption. }
  assert (NM := near_mul k (bnat (S r)) low ltac:(lia) Fr Fl LR). destruct NM as [FM NM].
  destruct (rnd_err k _ ltac:(lia) LR) as [_ RL].
  pose proof (Bmult_correct 53 1024 hprec hmax mode_NE (bnat (S r)) low) as CM. change (round_mode mode_NE) with ZnearestE in CM.
  rewrite (no_overflow k _ ltac:(lia) RL) in CM. destruct CM as (CM1 & _ & _).
  rewrite E, (int_B (Z.of_nat (S r))) in C. change (bint (Z.of_nat (S r))) with (bnat (S r)) in C. rewrite mul_B in C.
  apply (sum_neg _ _ k ltac:(lia) Fw FM WA) in C; [|rewrite CM1; exact RL].
  rewrite Er in NM. fold d in NM. apply Rabs_le_inv in NM. lra.
Qed.

(** The price-sum after a round that does not end the auction is at most a little above zero. *)
Lemma stay_sum : fle (fint 0) (fadd w (fmul (fint (Z.of_nat (S r))) (B2SF low))) = false ->
  rpaid (set_nth i low ps) recipe <= (2 * INR (length recipe) + 3) * d.
Proof.
  intros C. destruct (stay C) as (bw & _ & _ & N & _ & L). rewrite (rpaid_set ps recipe i (S r) p low Hr Hp). fold W. apply Rabs_le_inv in N. lra.
Qed.

(** If [low] would not end the auction but a higher value does, the price is at most a little below [low]. *)
Lemma stay_price : fle (fint 0) (fadd w (fmul (fint (Z.of_nat (S r))) (B2SF low))) = false ->
  forall bp : bf, np = B2SF bp -> B2R low - 2 * d <= B2R bp.
Proof.
  intros C bp Ebp. destruct (stay C) as (bw & E & Fw & _ & WA & L). assert (R1 := S1).
  destruct (zero_minus bw Fw) as [F0 E0].
  assert (RB : rep (Z.of_nat (S r)) (bnat (S r))) by (apply rep_int; assert (R : (Z.of_nat (S r) <= 2 ^ 53)%Z) by (eapply r_53; eassumption); lia).
  destruct RB as [Fr Er]. rewrite <- INR_IZR_INZ in Er.
  destruct (div_ok k (Bminus mode_NE (bint 0) bw) (bnat (S r)) ltac:(lia) F0 ltac:(rewrite Er; exact R1)) as [FD ED].
  { rewrite E0, Rabs_Ropp. exact WA. }
  assert (EP : bp = Bdiv mode_NE (Bminus mode_NE (bint 0) bw) (bnat (S r))).
  { apply B2SF_inj. rewrite <- Ebp. unfold np. rewrite E, !int_B, sub_B. change (bint (Z.of_nat (S r))) with (bnat (S r)). rewrite div_B. reflexivity. }
  rewrite EP, ED, E0, Er.
  assert (I1 : 0 < / INR (S r) <= 1). { split; [apply Rinv_0_lt_compat; lra|]. rewrite <- Rinv_1. apply Rinv_le_contravar; lra. }
  assert (Q : Rabs (- B2R bw / INR (S r)) <= bpow radix2 k).
  { unfold Rdiv. rewrite Rabs_mult, Rabs_Ropp, (Rabs_pos_eq (/ INR (S r))) by lra. apply Rle_trans with (Rabs (B2R bw) * 1); [|lra].
    apply Rmult_le_compat_l; [apply Rabs_pos|lra]. }
  destruct (rnd_err k _ ltac:(lia) Q) as [ERR _]. fold d in ERR. apply Rabs_le_inv in ERR.
  assert (D0 : 0 <= d) by apply bpow_ge_0.
  assert (X : B2R low - d <= - B2R bw / INR (S r)).
  { apply Rmult_le_reg_r with (INR (S r)); [lra|]. unfold Rdiv. rewrite Rmult_assoc, Rinv_l, Rmult_1_r by lra.
    assert (d * 1 <= d * INR (S r)) by (apply Rmult_le_compat_l; lra). rewrite Rmult_minus_distr_r. lra. }
  lra.
Qed.

(** The last price is at most a little below the price before it. *)
Lemma last_price : rpaid ps recipe <= (2 * INR (length recipe) + 3) * d ->
  forall bp : bf, np = B2SF bp -> B2R p - (4 * INR (length recipe) + 8) * d <= B2R bp.
Proof.
  intros S0 bp Ebp. destruct (final_balance k B recipe ps i r p K PB HP HR LP Hr Hp HB HN) as (bp' & E & F & N).
  change (np = B2SF bp') in E. rewrite Ebp in E. apply B2SF_inj in E. subst bp'. fold d in N.
  rewrite (rpaid_set ps recipe i (S r) p bp Hr Hp) in N. apply Rabs_le_inv in N. assert (R1 := S1). assert (D0 : 0 <= d) by apply bpow_ge_0.
  assert (X : - ((4 * INR (length recipe) + 8) * d) <= INR (S r) * (B2R bp - B2R p)) by lra.
  destruct (Rle_lt_dec 0 (B2R bp - B2R p)) as [Y|Y].
  - assert (0 <= (4 * INR (length recipe) + 8) * d) by (apply Rmult_le_pos; [assert (P := pos_INR (length recipe)); lra|exact D0]). lra.
  - assert (0 <= (INR (S r) - 1) * (B2R p - B2R bp)) by (apply Rmult_le_pos; lra). lra.
Qed.
End Round.
