(** * C104: rounding errors of the ascending auction *)

From Coq Require Import String ZArith Reals Qreals QArith Qpower Qabs List Lia Lra Sorted Permutation.
From Coq Require Import SpecFloat.
From Flocq Require Import Core BinarySingleNaN Plus_error Relative.
From Verif Require Import Base Model_Float Spec_Float Spec_FloatMcAfee Spec_FloatBudget Proof_Float Proof_Float2 Proof_FM1.
Import ListNotations.

Local Open Scope R_scope.
#[local] Existing Instance hprec.
#[local] Existing Instance hmax.

Lemma ve : Valid_exp fexp64. Proof. apply fexp_correct. apply hprec. Qed.
#[local] Existing Instance ve.

(** One rounding of a number below 2^k. *)
Lemma rnd_err : forall k x, (-1000 <= k)%Z -> Rabs x <= bpow radix2 k ->
  Rabs (rnd x - x) <= bpow radix2 (k - 54) /\ Rabs (rnd x) <= bpow radix2 k.
Proof.
  intros k x K H.
  assert (FK : generic_format radix2 fexp64 (bpow radix2 k)).
  { apply generic_format_bpow. unfold SpecFloat.fexp, SpecFloat.emin. lia. }
  split.
  - destruct (Rle_lt_or_eq_dec _ _ H) as [L|E].
    + destruct (Req_dec x 0) as [->|NZ].
      { rewrite round_0 by auto with typeclass_instances. rewrite Rminus_0_r, Rabs_R0. apply bpow_ge_0. }
      apply Rle_trans with (/ 2 * ulp radix2 fexp64 x); [apply error_le_half_ulp; auto with typeclass_instances|].
      rewrite ulp_neq_0 by exact NZ. unfold cexp.
      assert (M : (mag radix2 x <= k)%Z) by (apply mag_le_bpow; assumption).
      assert (E : (fexp64 (mag radix2 x) <= k - 53)%Z) by (unfold SpecFloat.fexp, SpecFloat.emin; lia).
      apply Rle_trans with (/ 2 * bpow radix2 (k - 53)); [apply Rmult_le_compat_l; [lra|apply bpow_le; exact E]|].
      replace (k - 53)%Z with (1 + (k - 54))%Z by lia. rewrite bpow_plus. change (bpow radix2 1) with 2. lra.
    + rewrite round_generic; [|auto with typeclass_instances|].
      * unfold Rminus. rewrite Rplus_opp_r, Rabs_R0. apply bpow_ge_0.
      * apply generic_format_abs_inv. rewrite E. exact FK.
  - apply abs_round_le_generic; auto with typeclass_instances.
Qed.

(** [near x r e]: the double [x] is finite and differs from the number [r] by at most [e]. *)
Definition near (x : bf) (r e : R) : Prop := is_finite x = true /\ Rabs (B2R x - r) <= e.

Lemma near_exact : forall x : bf, is_finite x = true -> near x (B2R x) 0.
Proof. intros x F. split; [exact F|]. unfold Rminus. rewrite Rplus_opp_r, Rabs_R0. lra. Qed.

Lemma abs_tri : forall a b c d, Rabs (a - b) <= c -> Rabs (b) <= d -> Rabs a <= c + d.
Proof. intros a b c d H1 H2. replace a with ((a - b) + b) by ring. eapply Rle_trans; [apply Rabs_triang|]. lra. Qed.

Lemma no_overflow : forall k y, (k < 1024)%Z -> Rabs y <= bpow radix2 k -> Rlt_bool (Rabs y) (bpow radix2 1024) = true.
Proof. intros k y K H. apply Rlt_bool_true. eapply Rle_lt_trans; [exact H|]. apply bpow_lt. exact K. Qed.

Lemma near_add : forall k x y a b e d, (-1000 <= k < 1024)%Z -> near x a e -> near y b d ->
  Rabs (a + b) + (e + d) <= bpow radix2 k -> near (Bplus mode_NE x y) (a + b) (e + d + bpow radix2 (k - 54)).
Proof.
  intros k x y a b e d K [Fx Ex] [Fy Ey] H.
  assert (D : Rabs (B2R x + B2R y - (a + b)) <= e + d).
  { replace (B2R x + B2R y - (a + b)) with ((B2R x - a) + (B2R y - b)) by ring. eapply Rle_trans; [apply Rabs_triang|]. lra. }
  assert (L : Rabs (B2R x + B2R y) <= bpow radix2 k). { assert (T := abs_tri _ _ _ _ D (Rle_refl (Rabs (a + b)))). lra. }
  destruct (rnd_err k _ (proj1 K) L) as [E1 E2].
  pose proof (Bplus_correct 53 1024 hprec hmax mode_NE x y Fx Fy) as C. change (round_mode mode_NE) with ZnearestE in C. rewrite (no_overflow k _ (proj2 K) E2) in C.
  destruct C as (C1 & C2 & _). split; [exact C2|]. rewrite C1.
  replace (rnd (B2R x + B2R y) - (a + b)) with ((rnd (B2R x + B2R y) - (B2R x + B2R y)) + (B2R x + B2R y - (a + b))) by ring.
  eapply Rle_trans; [apply Rabs_triang|]. lra.
Qed.

Lemma near_sub : forall k x y a b e d, (-1000 <= k < 1024)%Z -> near x a e -> near y b d ->
  Rabs (a - b) + (e + d) <= bpow radix2 k -> near (Bminus mode_NE x y) (a - b) (e + d + bpow radix2 (k - 54)).
Proof.
  intros k x y a b e d K [Fx Ex] [Fy Ey] H.
  assert (D : Rabs (B2R x - B2R y - (a - b)) <= e + d).
  { replace (B2R x - B2R y - (a - b)) with ((B2R x - a) + - (B2R y - b)) by ring. eapply Rle_trans; [apply Rabs_triang|]. rewrite Rabs_Ropp. lra. }
  assert (L : Rabs (B2R x - B2R y) <= bpow radix2 k). { assert (T := abs_tri _ _ _ _ D (Rle_refl (Rabs (a - b)))). lra. }
  destruct (rnd_err k _ (proj1 K) L) as [E1 E2].
  pose proof (Bminus_correct 53 1024 hprec hmax mode_NE x y Fx Fy) as C. change (round_mode mode_NE) with ZnearestE in C. rewrite (no_overflow k _ (proj2 K) E2) in C.
  destruct C as (C1 & C2 & _). split; [exact C2|]. rewrite C1.
  replace (rnd (B2R x - B2R y) - (a - b)) with ((rnd (B2R x - B2R y) - (B2R x - B2R y)) + (B2R x - B2R y - (a - b))) by ring.
  eapply Rle_trans; [apply Rabs_triang|]. lra.
Qed.

Lemma near_mul : forall k x y, (-1000 <= k < 1024)%Z -> is_finite x = true -> is_finite y = true ->
  Rabs (B2R x * B2R y) <= bpow radix2 k -> near (Bmult mode_NE x y) (B2R x * B2R y) (bpow radix2 (k - 54)).
Proof.
  intros k x y K Fx Fy L. destruct (rnd_err k _ (proj1 K) L) as [E1 E2].
  pose proof (Bmult_correct 53 1024 hprec hmax mode_NE x y) as C. change (round_mode mode_NE) with ZnearestE in C. rewrite (no_overflow k _ (proj2 K) E2) in C.
  destruct C as (C1 & C2 & _). rewrite Fx, Fy in C2. split; [exact C2|]. rewrite C1. exact E1.
Qed.

(** ** The price-sum *)

Definition bnat (n : nat) : bf := bint (Z.of_nat n).

Lemma bnat_fin : forall n, (Z.of_nat n <= 2 ^ 53)%Z -> is_finite (bnat n) = true /\ B2R (bnat n) = INR n.
Proof. intros n H. destruct (rep_int (Z.of_nat n)) as [F E]; [lia|]. split; [exact F|]. unfold bnat. rewrite E. symmetry. apply INR_IZR_INZ. Qed.

Fixpoint rpaid (ps : list bf) (recipe : list nat) : R :=
  match ps, recipe with p :: ps', r :: recipe' => INR r * B2R p + rpaid ps' recipe' | _, _ => 0 end.

Definition okp (B : R) (p : bf) : Prop := is_finite p = true /\ Rabs (B2R p) <= B.

Lemma rpaid_bound : forall B ps recipe, 0 <= B -> Forall (okp B) ps -> Rabs (rpaid ps recipe) <= INR (nsum recipe) * B.
Proof.
  intros B ps. induction ps as [|p ps IH]; intros recipe PB H.
  - cbn. rewrite Rabs_R0. apply Rmult_le_pos; [apply pos_INR|exact PB].
  - destruct recipe as [|r recipe]; cbn [rpaid]; [rewrite Rabs_R0; apply Rmult_le_pos; [apply pos_INR|exact PB]|].
    inversion H as [|? ? [_ H1] H2]; subst. cbn [nsum fold_right]. change (fold_right Nat.add 0%nat recipe) with (nsum recipe). rewrite plus_INR, Rmult_plus_distr_r.
    eapply Rle_trans; [apply Rabs_triang|]. apply Rplus_le_compat; [|apply IH; assumption].
    rewrite Rabs_mult. rewrite (Rabs_pos_eq (INR r)) by apply pos_INR. apply Rmult_le_compat_l; [apply pos_INR|exact H1].
Qed.

Lemma term_bound : forall B p r, okp B p -> Rabs (B2R p * INR r) <= INR r * B.
Proof.
  intros B p r [_ H]. rewrite Rabs_mult, (Rabs_pos_eq (INR r)) by apply pos_INR. rewrite Rmult_comm. apply Rmult_le_compat_l; [apply pos_INR|exact H].
Qed.

(** The computed sum: two roundings for every category. *)
Lemma near_dot : forall k B recipe ps acc s e d, (-1000 <= k < 1024)%Z -> 0 <= B -> 0 <= e -> d = bpow radix2 (k - 54) ->
  Forall (okp B) ps -> Forall (fun r => (Z.of_nat r <= 2 ^ 53)%Z) recipe -> length ps = length recipe ->
  near acc s e -> Rabs s + INR (nsum recipe) * B + (e + 2 * INR (length recipe) * d) <= bpow radix2 k ->
  exists z : bf, f_dot_from (B2SF acc) (map B2SF ps) recipe = B2SF z /\ near z (s + rpaid ps recipe) (e + 2 * INR (length recipe) * d).
Proof.
  intros k B recipe. induction recipe as [|r recipe IH]; intros ps acc s e d K PB PE D HP HR L N M; destruct ps as [|p ps]; try discriminate L.
  - exists acc. split; [reflexivity|]. cbn [rpaid length INR]. replace (s + 0) with s by ring. replace (e + 2 * 0 * d) with e by ring. exact N.
  - inversion HP as [|? ? H1 H2]; subst. inversion HR as [|? ? R1 R2]; subst. cbn [map f_dot_from]. set (d := bpow radix2 (k - 54)) in *.
    assert (D0 : 0 <= d) by apply bpow_ge_0.
    assert (M' : Rabs s + (INR r * B + INR (nsum recipe) * B) + (e + 2 * (INR (length recipe) + 1) * d) <= bpow radix2 k).
    { cbn [length] in M. rewrite S_INR in M. cbn [nsum fold_right] in M. change (fold_right Nat.add 0%nat recipe) with (nsum recipe) in M. rewrite plus_INR in M. lra. }
    assert (Q1 : 0 <= INR (nsum recipe) * B) by (apply Rmult_le_pos; [apply pos_INR|exact PB]).
    assert (Q2 : 0 <= INR (length recipe) * d) by (apply Rmult_le_pos; [apply pos_INR|exact D0]).
    destruct (bnat_fin r R1) as [Fr Er]. assert (T := term_bound B p r H1). assert (Q3 := Rabs_pos s).
    assert (NM : near (Bmult mode_NE p (bnat r)) (B2R p * INR r) d).
    { rewrite <- Er. apply near_mul; [exact K|apply H1|exact Fr|]. rewrite Er. lra. }
    assert (NA : near (Bplus mode_NE acc (Bmult mode_NE p (bnat r))) (s + B2R p * INR r) (e + d + d)).
    { apply near_add; [exact K|exact N|exact NM|]. assert (TR := Rabs_triang s (B2R p * INR r)). lra. }
    assert (L' : length ps = length recipe) by (injection L; auto).
    destruct (IH ps _ _ (e + d + d) d K PB ltac:(lra) eq_refl H2 R2 L' NA) as (z & Z1 & Z2).
    { assert (TR := Rabs_triang s (B2R p * INR r)). lra. }
    exists z. unfold bnat in Z1. rewrite int_B, mul_B, add_B. split; [exact Z1|].
    cbn [rpaid length]. rewrite S_INR. replace (s + (INR r * B2R p + rpaid ps recipe)) with (s + B2R p * INR r + rpaid ps recipe) by ring.
    replace (e + 2 * (INR (length recipe) + 1) * d) with (e + d + d + 2 * INR (length recipe) * d) by ring. exact Z2.
Qed.
