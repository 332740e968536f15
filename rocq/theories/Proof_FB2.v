(** * C104: the step that ends the auction *)

From Coq Require Import String ZArith Reals Qreals QArith Qpower Qabs List Lia Lra Sorted Permutation.
From Coq Require Import SpecFloat.
From Flocq Require Import Core BinarySingleNaN Plus_error Relative.
From Verif Require Import Base Model_Float Spec_Float Spec_FloatMcAfee Spec_FloatBudget Proof_Float Proof_Float2 Proof_FM1 Proof_FB1.
Import ListNotations.

Local Open Scope R_scope.
#[local] Existing Instance hprec.
#[local] Existing Instance hmax.
#[local] Existing Instance ve.

Lemma rpaid_set : forall ps recipe i r p x, nth_error recipe i = Some r -> nth_error ps i = Some p ->
  rpaid (set_nth i x ps) recipe = rpaid ps recipe - INR r * B2R p + INR r * B2R x.
Proof.
  intros ps. induction ps as [|q ps IH]; intros [|a recipe] [|i] r p x Hr Hp; try discriminate; cbn [set_nth rpaid nth_error] in *.
  - injection Hr as ->. injection Hp as ->. ring.
  - rewrite (IH recipe i r p x Hr Hp). ring.
Qed.

Lemma zero_minus : forall w : bf, is_finite w = true -> is_finite (Bminus mode_NE (bint 0) w) = true /\ B2R (Bminus mode_NE (bint 0) w) = - B2R w.
Proof.
  intros w Fw. rewrite bint0. destruct w as [s|s| |s m e B]; try discriminate.
  - simpl. destruct s; simpl; split; auto; lra.
  - simpl. split; [reflexivity|]. rewrite <- F2R_Zopp. f_equal. f_equal. destruct s; reflexivity.
Qed.

(** The relative error of one rounding. *)
Lemma rnd_rel : forall x, exists eps eta, Rabs eps <= bpow radix2 (-53) /\ Rabs eta <= bpow radix2 (-1075) /\ rnd x = x * (1 + eps) + eta.
Proof.
  intros x. destruct (error_N_FLT radix2 (SpecFloat.emin 53 1024) 53 eq_refl (fun x => negb (Z.even x)) x) as (eps & eta & H1 & H2 & _ & H3).
  exists eps, eta. split; [|split; [|exact H3]].
  - replace (bpow radix2 (-53)) with (/ 2 * bpow radix2 (- (53) + 1)); [exact H1|]. change (- (53) + 1)%Z with (1 + -53)%Z. rewrite bpow_plus. change (bpow radix2 1) with 2. lra.
  - replace (bpow radix2 (-1075)) with (/ 2 * bpow radix2 (SpecFloat.emin 53 1024)); [exact H2|]. change (SpecFloat.emin 53 1024) with (1 + -1075)%Z. rewrite bpow_plus. change (bpow radix2 1) with 2. lra.
Qed.

Lemma div_ok : forall k x y, (-1000 <= k < 1024)%Z -> is_finite x = true -> 1 <= B2R y -> Rabs (B2R x) <= bpow radix2 k ->
  is_finite (Bdiv mode_NE x y) = true /\ B2R (Bdiv mode_NE x y) = rnd (B2R x / B2R y).
Proof.
  intros k x y K Fx Y H. assert (NZ : B2R y <> 0) by lra.
  assert (L : Rabs (B2R x / B2R y) <= bpow radix2 k).
  { unfold Rdiv. rewrite Rabs_mult. rewrite (Rabs_pos_eq (/ B2R y)) by (left; apply Rinv_0_lt_compat; lra).
    apply Rle_trans with (Rabs (B2R x) * 1); [|lra]. apply Rmult_le_compat_l; [apply Rabs_pos|]. rewrite <- Rinv_1. apply Rinv_le_contravar; lra. }
  destruct (rnd_err k _ (proj1 K) L) as [_ E2].
  pose proof (Bdiv_correct 53 1024 hprec hmax mode_NE x y NZ) as C. change (round_mode mode_NE) with ZnearestE in C.
  rewrite (no_overflow k _ (proj2 K) E2) in C. destruct C as (C1 & C2 & _). rewrite Fx in C2. split; assumption.
Qed.

Lemma small_eta : forall r, INR r <= bpow radix2 53 -> INR r * bpow radix2 (-1075) <= bpow radix2 (-1022).
Proof.
  intros r H. replace (-1022)%Z with (53 + -1075)%Z by reflexivity. rewrite (bpow_plus radix2 53). apply Rmult_le_compat_r; [apply bpow_ge_0|exact H].
Qed.

Section Final.
Variables (k : Z) (B : R) (recipe : list nat) (ps : list bf) (i : nat) (r : nat) (p low : bf).
Hypothesis (K : (1 <= k <= 1000)%Z).
Hypothesis (PB : 0 <= B).
Hypothesis (HP : Forall (okp B) ps).
Hypothesis (HR : Forall (fun r => (Z.of_nat r <= 2 ^ 53)%Z) recipe).
Hypothesis (LP : length ps = length recipe).
Hypothesis (Hr : nth_error recipe i = Some (S r)).
Hypothesis (Hp : nth_error ps i = Some p).
Hypothesis (HB : 2 * (INR (nsum recipe) * B) <= bpow radix2 k).
Hypothesis (HN : (2 * Z.of_nat (length recipe) + 2 <= 2 ^ 53)%Z).
Hypothesis (Hlow : okp B low).

Let d := bpow radix2 (k - 54).
Let W := rpaid ps recipe - INR (S r) * B2R p.
Let w := fsub (f_dot (map B2SF ps) recipe) (fmul (fint (Z.of_nat (S r))) (B2SF p)).
Let np := fdiv (fsub (fint 0) w) (fint (Z.of_nat (S r))).

Lemma dA : bpow radix2 k = bpow radix2 54 * d.
Proof. unfold d. rewrite <- bpow_plus. f_equal. lia. Qed.

Lemma errA : (2 * INR (length recipe) + 2) * d + (2 * INR (length recipe) + 2) * d <= bpow radix2 k.
Proof.
  rewrite dA. apply IZR_le in HN. rewrite plus_IZR, mult_IZR, <- INR_IZR_INZ in HN.
  assert (E : bpow radix2 54 = 2 * IZR (2 ^ 53)). { change 54%Z with (1 + 53)%Z. rewrite bpow_plus. change (bpow radix2 1) with 2. f_equal. }
  rewrite E. assert (D0 : 0 <= d) by apply bpow_ge_0.
  replace ((2 * INR (length recipe) + 2) * d + (2 * INR (length recipe) + 2) * d) with (2 * (2 * INR (length recipe) + 2) * d) by ring.
  apply Rmult_le_compat_r; [exact D0|]. lra.
Qed.

Lemma okp_p : okp B p.
Proof. rewrite Forall_forall in HP. apply HP. eapply nth_error_In. exact Hp. Qed.

Lemma r_le : INR (S r) <= INR (nsum recipe).
Proof.
  apply le_INR. revert Hr. clear. revert i. induction recipe as [|a l IH]; intros [|i] H; try discriminate; cbn [nth_error] in H; cbn [nsum fold_right]; change (fold_right Nat.add 0%nat l) with (nsum l).
  - injection H as ->. lia.
  - specialize (IH _ H). lia.
Qed.

Lemma r_53 : (Z.of_nat (S r) <= 2 ^ 53)%Z.
Proof. rewrite Forall_forall in HR. apply HR. eapply nth_error_In. exact Hr. Qed.

Lemma r_rb : INR (S r) * B <= bpow radix2 k.
Proof.
  assert (H := r_le). assert (Q : INR (S r) * B <= INR (nsum recipe) * B) by (apply Rmult_le_compat_r; assumption).
  assert (0 <= INR (nsum recipe) * B) by (apply Rmult_le_pos; [apply pos_INR|exact PB]). lra.
Qed.

Lemma W_bound : Rabs W <= INR (nsum recipe) * B.
Proof.
  assert (E : W = rpaid (set_nth i (bint 0) ps) recipe).
  { rewrite (rpaid_set ps recipe i (S r) p (bint 0) Hr Hp). rewrite bint0. unfold W. simpl B2R. ring. }
  rewrite E. apply rpaid_bound; [exact PB|].
  assert (O : okp B (bint 0)) by (rewrite bint0; split; [reflexivity|simpl B2R; rewrite Rabs_R0; exact PB]).
  revert HP. clear - O. revert i. induction ps as [|q l IH]; intros [|i] H; cbn [set_nth]; inversion H; subst; constructor; auto.
Qed.

Lemma final_w : exists bw : bf, w = B2SF bw /\ near bw W (2 * INR (length recipe) * d + d + d).
Proof.
  assert (D0 : 0 <= d) by apply bpow_ge_0. assert (EA := errA). assert (WB := W_bound).
  assert (RB0 : 0 <= INR (nsum recipe) * B) by (apply Rmult_le_pos; [apply pos_INR|exact PB]).
  destruct (near_dot k B recipe ps (bint 0) 0 0 d ltac:(lia) PB ltac:(lra) eq_refl HP HR LP) as (z & Z1 & Z2).
  { rewrite bint0. split; [reflexivity|]. simpl B2R. rewrite Rminus_0_r, Rabs_R0. lra. }
  { rewrite Rabs_R0. lra. }
  assert (RB : rep (Z.of_nat (S r)) (bnat (S r))) by (apply rep_int; assert (R := r_53); lia).
  destruct RB as [Fr Er]. rewrite <- INR_IZR_INZ in Er.
  assert (TB := term_bound B p (S r) okp_p).
  assert (NM : near (Bmult mode_NE (bnat (S r)) p) (B2R (bnat (S r)) * B2R p) d).
  { apply near_mul; [lia|exact Fr|apply okp_p|]. rewrite Er, Rmult_comm. assert (R := r_rb). lra. }
  rewrite Er in NM.
  exists (Bminus mode_NE z (Bmult mode_NE (bnat (S r)) p)). split.
  - unfold w, f_dot. rewrite !int_B, Z1. change (bint (Z.of_nat (S r))) with (bnat (S r)). rewrite mul_B, sub_B. reflexivity.
  - unfold W. rewrite Rplus_0_l in Z2. replace (2 * INR (length recipe) * d + d + d) with (0 + 2 * INR (length recipe) * d + d + d) by ring.
    apply near_sub; [lia|exact Z2|exact NM|]. unfold W in WB. lra.
Qed.

Lemma w_abs : forall bw, near bw W (2 * INR (length recipe) * d + d + d) -> Rabs (B2R bw) <= bpow radix2 k.
Proof. intros bw [_ N]. assert (T := abs_tri _ _ _ _ N W_bound). assert (EA := errA). lra. Qed.

(** The price-sum after the step. *)
Lemma final_balance : exists bp : bf, np = B2SF bp /\ is_finite bp = true /\
  Rabs (rpaid (set_nth i bp ps) recipe) <= (2 * INR (length recipe) + 5) * d.
Proof.
  destruct final_w as (bw & E & N). assert (WA := w_abs bw N). destruct N as [Fw N].
  destruct (zero_minus bw Fw) as [F0 E0].
  assert (RB : rep (Z.of_nat (S r)) (bnat (S r))) by (apply rep_int; assert (R := r_53); lia).
  destruct RB as [Fr Er]. rewrite <- INR_IZR_INZ in Er.
  assert (R1 : 1 <= INR (S r)) by (rewrite S_INR; assert (P := pos_INR r); lra).
  destruct (div_ok k (Bminus mode_NE (bint 0) bw) (bnat (S r)) ltac:(lia) F0 ltac:(rewrite Er; exact R1)) as [FD ED].
  { rewrite E0, Rabs_Ropp. exact WA. }
  exists (Bdiv mode_NE (Bminus mode_NE (bint 0) bw) (bnat (S r))). split; [|split; [exact FD|]].
  - unfold np. rewrite E, !int_B, sub_B. change (bint (Z.of_nat (S r))) with (bnat (S r)). rewrite div_B. reflexivity.
  - rewrite (rpaid_set ps recipe i (S r) p _ Hr Hp). fold W. rewrite ED, E0, Er.
    destruct (rnd_rel (- B2R bw / INR (S r))) as (eps & eta & H1 & H2 & H3). rewrite H3.
    replace (W + INR (S r) * (- B2R bw / INR (S r) * (1 + eps) + eta)) with (- (B2R bw - W) + - (B2R bw * eps) + INR (S r) * eta) by (field; lra).
    assert (T1 : Rabs (B2R bw * eps) <= 2 * d).
    { rewrite Rabs_mult. replace (2 * d) with (bpow radix2 k * bpow radix2 (-53)).
      - apply Rmult_le_compat; auto using Rabs_pos.
      - unfold d. rewrite <- bpow_plus. replace (k + -53)%Z with (1 + (k - 54))%Z by lia. rewrite bpow_plus. reflexivity. }
    assert (T2 : Rabs (INR (S r) * eta) <= d).
    { rewrite Rabs_mult, (Rabs_pos_eq (INR (S r))) by apply pos_INR. apply Rle_trans with (INR (S r) * bpow radix2 (-1075)); [apply Rmult_le_compat_l; [apply pos_INR|exact H2]|].
      apply Rle_trans with (bpow radix2 (-1022)).
      - apply small_eta. rewrite INR_IZR_INZ. rewrite <- (IZR_Zpower radix2) by lia. apply IZR_le. exact r_53.
      - unfold d. apply bpow_le. lia. }
    eapply Rle_trans; [apply Rabs_triang|]. eapply Rle_trans; [apply Rplus_le_compat_r; apply Rabs_triang|]. rewrite !Rabs_Ropp. lra.
Qed.

(** The trader with the lowest value pays almost at most its value. *)
Lemma final_price : fle (fint 0) (fadd w (fmul (fint (Z.of_nat (S r))) (B2SF low))) = true -> 1 <= B ->
  forall bp : bf, np = B2SF bp -> B2R bp <= B2R low + 3 * bpow radix2 (-53) * B.
Proof.
  intros C B1 bp Ebp. destruct final_w as (bw & E & N). assert (WA := w_abs bw N). destruct N as [Fw N].
  destruct (zero_minus bw Fw) as [F0 E0].
  assert (RB : rep (Z.of_nat (S r)) (bnat (S r))) by (apply rep_int; assert (R := r_53); lia).
  destruct RB as [Fr Er]. rewrite <- INR_IZR_INZ in Er.
  assert (R1 : 1 <= INR (S r)) by (rewrite S_INR; assert (P := pos_INR r); lra).
  destruct (div_ok k (Bminus mode_NE (bint 0) bw) (bnat (S r)) ltac:(lia) F0 ltac:(rewrite Er; exact R1)) as [FD ED].
  { rewrite E0, Rabs_Ropp. exact WA. }
  assert (EP : bp = Bdiv mode_NE (Bminus mode_NE (bint 0) bw) (bnat (S r))).
  { apply B2SF_inj. rewrite <- Ebp. unfold np. rewrite E, !int_B, sub_B. change (bint (Z.of_nat (S r))) with (bnat (S r)). rewrite div_B. reflexivity. }
  rewrite EP, ED, E0, Er. destruct Hlow as [Fl Bl].
  assert (LR : Rabs (B2R (bnat (S r)) * B2R low) <= bpow radix2 k).
  { rewrite Er, Rabs_mult, (Rabs_pos_eq (INR (S r))) by apply pos_INR. eapply Rle_trans; [apply Rmult_le_compat_l; [apply pos_INR|exact Bl]|exact r_rb]. }
  destruct (rnd_err k _ ltac:(lia) LR) as [_ RL].
  pose proof (Bmult_correct 53 1024 hprec hmax mode_NE (bnat (S r)) low) as CM. change (round_mode mode_NE) with ZnearestE in CM.
  rewrite (no_overflow k _ ltac:(lia) RL) in CM. destruct CM as (CM1 & CM2 & _). rewrite Fr, Fl in CM2. cbn [andb] in CM2. rewrite Er in CM1.
  set (x := Bmult mode_NE (bnat (S r)) low) in *.
  assert (S0 : 0 <= B2R bw + B2R x).
  { destruct (Rlt_le_dec (B2R bw + B2R x) 0) as [L|L]; [|exact L]. exfalso. apply (sign_sum bw x Fw CM2) in L.
    rewrite E, int_B in C. change (bint (Z.of_nat (S r))) with (bnat (S r)) in C. rewrite int_B in C. change (bint (Z.of_nat (S r))) with (bnat (S r)) in C.
    rewrite mul_B in C. fold x in C. rewrite add_B in C.
    change (Bltb (Bplus mode_NE bw x) (bint 0)) with (flt (B2SF (Bplus mode_NE bw x)) (B2SF (bint 0))) in L.
    assert (FS : is_finite (Bplus mode_NE bw x) = true \/ is_finite (Bplus mode_NE bw x) = false) by (destruct (is_finite (Bplus mode_NE bw x)); [left|right]; reflexivity).
    change (fle (B2SF (bint 0)) (B2SF (Bplus mode_NE bw x))) with (Bleb (bint 0) (Bplus mode_NE bw x)) in C.
    change (flt (B2SF (Bplus mode_NE bw x)) (B2SF (bint 0))) with (Bltb (Bplus mode_NE bw x) (bint 0)) in L.
    destruct FS as [FS|FS].
    - rewrite Bltb_correct in L by (auto; reflexivity). rewrite Bleb_correct in C by (auto; reflexivity).
      destruct (Rlt_bool_spec (B2R (Bplus mode_NE bw x)) (B2R (bint 0))); [|discriminate]. destruct (Rle_bool_spec (B2R (bint 0)) (B2R (Bplus mode_NE bw x))); [lra|discriminate].
    - destruct (Bplus mode_NE bw x) as [s|[]| |s m e BB]; discriminate. }
  rewrite CM1 in S0.
  assert (M1 : rnd (- B2R bw / INR (S r)) <= rnd (rnd (INR (S r) * B2R low) / INR (S r))).
  { apply round_le; auto with typeclass_instances. unfold Rdiv. apply Rmult_le_compat_r; [left; apply Rinv_0_lt_compat; lra|lra]. }
  eapply Rle_trans; [exact M1|].
  destruct (rnd_rel (INR (S r) * B2R low)) as (e1 & h1 & A1 & A2 & A3). rewrite A3.
  destruct (rnd_rel ((INR (S r) * B2R low * (1 + e1) + h1) / INR (S r))) as (e2 & h2 & G1 & G2 & G3). rewrite G3.
  replace ((INR (S r) * B2R low * (1 + e1) + h1) / INR (S r)) with (B2R low * (1 + e1) + h1 * / INR (S r)) by (field; lra).
  set (u := bpow radix2 (-53)) in *. set (h := bpow radix2 (-1075)) in *.
  assert (U0 : 0 <= u) by apply bpow_ge_0. assert (H0 : 0 <= h) by apply bpow_ge_0.
  assert (U1 : u <= / 16). { unfold u. replace (/ 16) with (bpow radix2 (-4)) by (simpl; lra). apply bpow_le. lia. }
  assert (HU : h <= u * / 16). { unfold h, u. replace (/ 16) with (bpow radix2 (-4)) by (simpl; lra). rewrite <- bpow_plus. apply bpow_le. lia. }
  assert (I1 : 0 < / INR (S r) <= 1). { split; [apply Rinv_0_lt_compat; lra|]. rewrite <- Rinv_1. apply Rinv_le_contravar; lra. }
  assert (V : Rabs (h1 * / INR (S r)) <= h).
  { rewrite Rabs_mult, (Rabs_pos_eq (/ INR (S r))) by lra. apply Rle_trans with (h * 1); [|lra]. apply Rmult_le_compat; [apply Rabs_pos|lra|exact A2|lra]. }
  set (y := h1 * / INR (S r)) in *.
  replace ((B2R low * (1 + e1) + y) * (1 + e2) + h2) with (B2R low + (B2R low * e1 + B2R low * e2 + B2R low * e1 * e2 + (y + y * e2) + h2)) by ring.
  apply Rplus_le_compat_l.
  assert (T : forall a b c e, Rabs a <= b -> Rabs c <= e -> Rabs (a * c) <= b * e).
  { intros a b c e X Y. rewrite Rabs_mult. apply Rmult_le_compat; auto using Rabs_pos. }
  assert (T1 := T _ _ _ _ Bl A1). assert (T2 := T _ _ _ _ Bl G1). assert (T3 := T _ _ _ _ T1 G1). assert (T4 := T _ _ _ _ V G1).
  apply Rabs_le_inv in T1, T2, T3, T4, V, G2.
  assert (Q1 : B * u * u <= B * u * / 16) by (apply Rmult_le_compat_l; [apply Rmult_le_pos; lra|exact U1]).
  assert (Q2 : h * u <= h * 1) by (apply Rmult_le_compat_l; lra).
  assert (Q3 : u <= B * u) by (apply Rle_trans with (1 * u); [lra|apply Rmult_le_compat_r; lra]).
  lra.
Qed.
End Final.
