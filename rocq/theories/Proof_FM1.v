(** * C100: doubles and exact numbers *)

From Coq Require Import String ZArith Reals Qreals QArith Qpower List Lia Lra Sorted Permutation.
From Coq Require Import SpecFloat.
From Flocq Require Import Core BinarySingleNaN Plus_error.
From Verif Require Import Base Model_Agents Model_Market Model_Float Model_FloatMcAfee Spec_Float Spec_FloatMcAfee Proof_Float Proof_Float2.
Import ListNotations.

Local Open Scope nat_scope.
#[local] Existing Instance hprec.
#[local] Existing Instance hmax.

Lemma Q2R_pow2 : forall e, Q2R (Qpower 2 e) = bpow radix2 e.
Proof.
  assert (P : forall p, Q2R (Qpower 2 (Zpos p)) = bpow radix2 (Zpos p)).
  { intros p. assert (W : Qpower 2 (Zpos p) == inject_Z (2 ^ Zpos p)) by (symmetry; apply (Zpower_Qpower 2); lia). rewrite (Qeq_eqR _ _ W). unfold Q2R, inject_Z. cbn [Qnum Qden]. rewrite Rinv_1, Rmult_1_r. 
    rewrite <- (IZR_Zpower radix2) by lia. reflexivity. }
  intros [|p|p].
  - unfold Q2R. cbn. lra.
  - apply P.
  - change (Zneg p) with (- Zpos p)%Z. rewrite (Qeq_eqR _ _ (Qpower_opp 2 (Zpos p))). rewrite Q2R_inv.
    + rewrite P. rewrite bpow_opp. reflexivity.
    + intros H. apply Qeq_eqR in H. rewrite P in H. assert (B := bpow_gt_0 radix2 (Zpos p)). replace (Q2R 0) with 0%R in H by (unfold Q2R; cbn; lra). lra.
Qed.

Lemma dval_B : forall b : bf, is_finite b = true -> Q2R (dval (B2SF b)) = B2R b.
Proof.
  intros [s|s| |s m e B] F; try discriminate.
  - unfold Q2R. cbn. lra.
  - cbn [B2SF dval B2R]. rewrite Q2R_mult, Q2R_pow2. unfold F2R. cbn [Fnum Fexp]. f_equal. unfold Q2R, inject_Z. cbn [Qnum Qden]. rewrite Rinv_1, Rmult_1_r.
    destruct s; reflexivity.
Qed.

Lemma Qle_R : forall a b, Qle_bool a b = true <-> (Q2R a <= Q2R b)%R.
Proof. intros a b. rewrite Qle_bool_iff. split; [apply Qle_Rle|apply Rle_Qle]. Qed.

Lemma bool_iff : forall a b : bool, (a = true <-> b = true) -> a = b.
Proof. intros [|] [|] H; auto; [symmetry; apply H; reflexivity|apply H; reflexivity]. Qed.

Lemma fle_dval : forall x y, finite_double x -> finite_double y -> fle x y = Qle_bool (dval x) (dval y).
Proof.
  intros x y Hx Hy. destruct (finite_B x Hx) as (a & Fa & ->). destruct (finite_B y Hy) as (b & Fb & ->).
  apply bool_iff. rewrite fle_B, Qle_R, !dval_B by assumption. apply Bleb_iff; assumption.
Qed.

Lemma flt_negb : forall x y, finite_double x -> finite_double y -> flt x y = negb (fle y x).
Proof.
  intros x y Hx Hy. destruct (finite_B x Hx) as (a & Fa & ->). destruct (finite_B y Hy) as (b & Fb & ->).
  change (flt (B2SF a) (B2SF b)) with (Bltb a b). rewrite fle_B, Bltb_correct, Bleb_correct by assumption.
  case Rlt_bool_spec; case Rle_bool_spec; intros; auto; lra.
Qed.

Lemma flt_dval : forall x y, finite_double x -> finite_double y -> flt x y = Qlt_bool (dval x) (dval y).
Proof. intros x y Hx Hy. rewrite flt_negb by assumption. rewrite fle_dval by assumption. reflexivity. Qed.

Lemma finite_SF : forall b : bf, is_finite b = true -> finite_double (B2SF b).
Proof. intros b F. split; [apply valid_binary_B2SF|]. destruct b; try discriminate; exact I. Qed.

Lemma fint_fin : forall z, (Z.abs z <= 2 ^ 53)%Z -> finite_double (fint z) /\ dval (fint z) == inject_Z z.
Proof.
  intros z H. rewrite int_B. destruct (rep_int z H) as [F E]. split; [apply finite_SF; exact F|].
  apply eqR_Qeq. rewrite dval_B by exact F. rewrite E. unfold Q2R, inject_Z. cbn. lra.
Qed.

(** Adding the int 0. *)
Lemma add0_B : forall a : bf, is_finite a = true -> is_finite (Bplus mode_NE (bint 0) a) = true /\ B2R (Bplus mode_NE (bint 0) a) = B2R a.
Proof.
  intros a Fa. rewrite bint0. pose proof (Bplus_correct 53 1024 hprec hmax mode_NE (B754_zero false) a eq_refl Fa) as K.
  simpl B2R in K. rewrite Rplus_0_l in K. change (round radix2 (SpecFloat.fexp 53 1024) (round_mode mode_NE) (B2R a)) with (rnd (B2R a)) in K.
  rewrite rnd_B, lt_emax_B in K. tauto.
Qed.

(** The sign of the sum of two doubles is computed correctly. *)
Lemma sign_sum : forall a b : bf, is_finite a = true -> is_finite b = true ->
  Bltb (Bplus mode_NE a b) (bint 0) = true <-> (B2R a + B2R b < 0)%R.
Proof.
  intros a b Fa Fb. pose proof (Bplus_correct 53 1024 hprec hmax mode_NE a b Fa Fb) as K.
  assert (VE : Valid_exp fexp64) by (apply fexp_correct; apply hprec).
  destruct (Rlt_bool _ _) in K.
  - destruct K as (K1 & K2 & _). rewrite Bltb_correct by (auto; reflexivity). rewrite K1, bint0. simpl (B2R (B754_zero false)).
    change (round radix2 (SpecFloat.fexp 53 1024) (round_mode mode_NE) (B2R a + B2R b)) with (rnd (B2R a + B2R b)).
    assert (Z : (B2R a + B2R b <> 0)%R -> rnd (B2R a + B2R b) <> 0%R).
    { intros N. apply round_plus_neq_0; auto with typeclass_instances; try apply fmt_B. intros e. unfold SpecFloat.fexp, SpecFloat.emin. lia. }
    assert (R0 : rnd 0 = 0%R) by (apply round_0; auto with typeclass_instances).
    case Rlt_bool_spec; intros H; split; intros H'; auto; try discriminate.
    + destruct (Rlt_le_dec (B2R a + B2R b) 0) as [|N]; [assumption|]. exfalso.
      assert (L : (rnd 0 <= rnd (B2R a + B2R b))%R) by (apply round_le; auto with typeclass_instances). lra.
    + exfalso. assert (L : (rnd (B2R a + B2R b) <= rnd 0)%R) by (apply round_le; auto with typeclass_instances; lra).
      apply Z; lra.
  - destruct K as (K1 & K2). change (Bltb (Bplus mode_NE a b) (bint 0)) with (SFltb (B2SF (Bplus mode_NE a b)) (B2SF (bint 0))). rewrite K1, bint0.
    assert (P : forall x : bf, Bsign x = false -> (0 <= B2R x)%R).
    { intros [s|s| |s m e B] Q; simpl in *; subst; simpl; try lra. apply F2R_ge_0. simpl. lia. }
    assert (P' : forall x : bf, Bsign x = true -> (B2R x <= 0)%R).
    { intros [s|s| |s m e B] Q; simpl in *; subst; simpl; try lra. apply F2R_le_0. simpl. lia. }
    destruct (Bsign a) eqn:SA.
    + cbn. split; [intros _|reflexivity]. assert (A := P' a SA). assert (B := P' b (eq_sym K2)).
      destruct (Rlt_le_dec (B2R a + B2R b) 0) as [|N]; [assumption|]. exfalso.
      pose proof (Bplus_correct 53 1024 hprec hmax mode_NE a b Fa Fb) as K.
      assert (E : (B2R a + B2R b = 0)%R) by lra. rewrite E in K. rewrite round_0, Rabs_R0 in K by auto with typeclass_instances.
      rewrite Rlt_bool_true in K by apply bpow_gt_0. destruct K as (_ & K3 & _). rewrite <- is_finite_SF_B2SF, K1 in K3. discriminate K3.
    + cbn. split; [discriminate|]. intros N. assert (A := P a SA). assert (B := P b (eq_sym K2)). lra.
Qed.

Lemma gft_sign : forall x y, finite_double x -> finite_double y ->
  flt (f_gft [x; y]) (fint 0) = Qlt_bool (Qsum [dval x; dval y]) 0.
Proof.
  intros x y Hx Hy. destruct (finite_B x Hx) as (a & Fa & ->). destruct (finite_B y Hy) as (b & Fb & ->).
  unfold f_gft. cbn [fold_left]. rewrite int_B, !add_B. destruct (add0_B a Fa) as [F0 E0].
  change (flt (B2SF (Bplus mode_NE (Bplus mode_NE (bint 0) a) b)) (B2SF (bint 0))) with (Bltb (Bplus mode_NE (Bplus mode_NE (bint 0) a) b) (bint 0)).
  apply bool_iff. rewrite sign_sum by assumption. rewrite E0, <- (dval_B a Fa), <- (dval_B b Fb), Qlt_bool_iff.
  assert (S : Qsum [dval (B2SF a); dval (B2SF b)] == dval (B2SF a) + dval (B2SF b)) by (cbn; ring).
  rewrite S. split; intros H.
  - apply Rlt_Qlt. rewrite Q2R_plus. unfold Q2R at 3. cbn. lra.
  - apply Qlt_Rlt in H. rewrite Q2R_plus in H. unfold Q2R at 3 in H. cbn in H. lra.
Qed.

(** ** Sorting commutes with the passage to exact numbers *)

Lemma insert_In : forall (A : Type) (le : A -> A -> bool) x l y, In y (insert le x l) -> y = x \/ In y l.
Proof.
  intros A le x l. induction l as [|z l IH]; intros y H; cbn in H; [destruct H as [<-|[]]; auto|].
  destruct (le x z); [destruct H as [<-|H]; auto|]. destruct H as [<-|H]; [right; left; reflexivity|]. destruct (IH y H) as [->|K]; [auto|right; right; exact K].
Qed.

Lemma isort_In : forall (A : Type) (le : A -> A -> bool) l y, In y (isort le l) -> In y l.
Proof.
  intros A le l. induction l as [|z l IH]; intros y H; cbn in H; [destruct H|]. apply insert_In in H. destruct H as [->|H]; [left; reflexivity|right; apply IH; exact H].
Qed.

Lemma isort_map : forall (A B : Type) (f : A -> B) (le : A -> A -> bool) (le' : B -> B -> bool) l,
  (forall x y, In x l -> In y l -> le x y = le' (f x) (f y)) -> map f (isort le l) = isort le' (map f l).
Proof.
  intros A B f le le' l. induction l as [|z l IH]; intros H; [reflexivity|]. cbn [isort map].
  rewrite <- IH by (intros x y Hx Hy; apply H; right; assumption).
  assert (K : forall y, In y (isort le l) -> le z y = le' (f z) (f y)).
  { intros y Hy. apply H; [left; reflexivity|right; apply (isort_In _ _ _ _ Hy)]. }
  revert K. generalize (isort le l). intros r. induction r as [|y r IHr]; intros K; [reflexivity|]. cbn [insert map].
  rewrite <- (K y) by (left; reflexivity). destruct (le z y); [reflexivity|]. cbn [map]. f_equal. apply IHr. intros w Hw. apply K. right. exact Hw.
Qed.

Lemma f_desc_map : forall l, Forall finite_double l -> map dval (f_desc l) = sort_desc (map dval l).
Proof.
  intros l H. unfold f_desc, sort_desc. apply isort_map. intros x y Hx Hy. rewrite Forall_forall in H. apply fle_dval; auto.
Qed.

Lemma f_desc_perm : forall l, Permutation (f_desc l) l.
Proof. intros. apply isort_perm. Qed.

Lemma f_desc_finite : forall l, Forall finite_double l -> Forall finite_double (f_desc l).
Proof. intros l H. rewrite Forall_forall in *. intros x Hx. apply H. apply (Permutation_in _ (f_desc_perm l)). exact Hx. Qed.
