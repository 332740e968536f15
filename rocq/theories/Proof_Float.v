(** * Facts about doubles, from Flocq *)

From Coq Require Import ZArith Reals List Lia Lra Sorted Permutation.
From Coq Require Import SpecFloat.
From Flocq Require Import Core BinarySingleNaN Plus_error.
From Verif Require Import Base Model_Float.
Import ListNotations.

Local Open Scope nat_scope.

Lemma hprec : Prec_gt_0 53. Proof. reflexivity. Qed.
Lemma hmax : Prec_lt_emax 53 1024. Proof. reflexivity. Qed.
#[local] Existing Instance hprec.
#[local] Existing Instance hmax.

Notation bf := (binary_float 53 1024).
Notation fexp64 := (SpecFloat.fexp 53 1024).
Notation rnd := (round radix2 fexp64 ZnearestE).

(** ** The operations of the standard library are those of Flocq *)

Lemma round_ne_equiv : forall s m l,
  SpecFloat.round_nearest_even m l = choice_mode mode_NE s m l.
Proof.
  intros s m l. unfold SpecFloat.round_nearest_even. simpl.
  case l; [reflexivity|]. intro c. case c; [|reflexivity..].
  unfold Round.cond_incr. now case Z.even.
Qed.

Lemma round_aux_equiv : forall sx mx ex lx,
  SpecFloat.binary_round_aux 53 1024 sx mx ex lx = binary_round_aux 53 1024 mode_NE sx mx ex lx.
Proof.
  intros. unfold SpecFloat.binary_round_aux, binary_round_aux.
  set (mrse' := shr_fexp _ _ _). case mrse'; intros mrs' e'. simpl.
  now rewrite (round_ne_equiv sx).
Qed.

Lemma round_equiv : forall s m e, SpecFloat.binary_round 53 1024 s m e = binary_round 53 1024 mode_NE s m e.
Proof.
  intros. unfold SpecFloat.binary_round, binary_round, shl_align_fexp.
  set (mez := shl_align _ _ _); case mez as [mz ez]. apply round_aux_equiv.
Qed.

Lemma normalize_equiv : forall m e sz,
  SpecFloat.binary_normalize 53 1024 m e sz = B2SF (binary_normalize 53 1024 hprec hmax mode_NE m e sz).
Proof.
  intros m e sz. case m as [|p|p].
  - now simpl.
  - simpl. rewrite B2SF_SF2B. apply round_equiv.
  - simpl. rewrite B2SF_SF2B. apply round_equiv.
Qed.

Lemma add_B : forall x y : bf, fadd (B2SF x) (B2SF y) = B2SF (Bplus mode_NE x y).
Proof.
  intros x y. unfold fadd.
  case x as [sx|sx| |sx mx ex Bx]; case y as [sy|sy| |sy my ey By];
    [now (trivial || simpl; case Bool.eqb)..|].
  apply normalize_equiv.
Qed.

Lemma sub_B : forall x y : bf, fsub (B2SF x) (B2SF y) = B2SF (Bminus mode_NE x y).
Proof.
  intros x y. unfold fsub.
  case x as [sx|sx| |sx mx ex Bx]; case y as [sy|sy| |sy my ey By];
    [now (trivial || simpl; case Bool.eqb)..|].
  simpl. unfold Zminus. rewrite <- cond_Zopp_negb. apply normalize_equiv.
Qed.

Lemma mul_B : forall x y : bf, fmul (B2SF x) (B2SF y) = B2SF (Bmult mode_NE x y).
Proof.
  intros x y. unfold fmul.
  case x as [sx|sx| |sx mx ex Bx]; case y as [sy|sy| |sy my ey By]; [now trivial..|].
  simpl. rewrite B2SF_SF2B. apply round_aux_equiv.
Qed.

Lemma div_B : forall x y : bf, fdiv (B2SF x) (B2SF y) = B2SF (Bdiv mode_NE x y).
Proof.
  intros x y. unfold fdiv.
  case x as [sx|sx| |sx mx ex Bx]; case y as [sy|sy| |sy my ey By];
    [now (trivial || simpl; case Bool.eqb)..|].
  simpl. rewrite B2SF_SF2B. set (melz := SFdiv_core_binary _ _ _ _ _ _).
  case melz as [[mz ez] lz]. apply round_aux_equiv.
Qed.

Definition bint (z : Z) : bf := binary_normalize 53 1024 hprec hmax mode_NE z 0 false.

Lemma int_B : forall z, fint z = B2SF (bint z).
Proof. intros. apply normalize_equiv. Qed.

Lemma fle_B : forall x y : bf, fle (B2SF x) (B2SF y) = Bleb x y.
Proof. reflexivity. Qed.

Lemma Bleb_iff : forall x y : bf, is_finite x = true -> is_finite y = true ->
  (Bleb x y = true <-> (B2R x <= B2R y)%R).
Proof.
  intros x y Fx Fy. rewrite Bleb_correct by assumption. case Rle_bool_spec; intros; split; intros; auto; try discriminate; lra.
Qed.

(** ** Exact operations *)

Lemma fmt_B : forall x : bf, generic_format radix2 fexp64 (B2R x).
Proof. intros. apply generic_format_B2R. Qed.

Lemma rnd_B : forall x : bf, rnd (B2R x) = B2R x.
Proof. intros. apply round_generic; [auto with typeclass_instances|]. apply fmt_B. Qed.

Lemma lt_emax_B : forall x : bf, Rlt_bool (Rabs (B2R x)) (bpow radix2 1024) = true.
Proof. intros. apply Rlt_bool_true. apply abs_B2R_lt_emax. Qed.

(** Integers up to 2^53 are doubles. *)
Lemma fmt_int : forall z, (Z.abs z <= 2 ^ 53)%Z -> generic_format radix2 fexp64 (IZR z).
Proof.
  intros z H. apply (generic_format_FLT radix2 (-1074) 53).
  destruct (Z.eq_dec (Z.abs z) (2 ^ 53)) as [E|E].
  - exists (Float radix2 (Z.sgn z) 53).
    + unfold F2R. cbn [Fnum Fexp]. rewrite <- (IZR_Zpower radix2) by lia. rewrite <- mult_IZR. f_equal.
      rewrite <- (Z.abs_sgn z) at 1. rewrite E. rewrite Z.mul_comm. reflexivity.
    + simpl. destruct z; simpl; lia.
    + simpl. lia.
  - exists (Float radix2 z 0).
    + unfold F2R. simpl. ring.
    + simpl Fnum. change (radix2 ^ 53)%Z with (2 ^ 53)%Z. lia.
    + simpl. lia.
Qed.

Lemma rnd_int : forall z, (Z.abs z <= 2 ^ 53)%Z -> rnd (IZR z) = IZR z.
Proof. intros. apply round_generic; [auto with typeclass_instances|]. apply fmt_int. assumption. Qed.

Lemma int_small : forall z, (Z.abs z <= 2 ^ 53)%Z -> Rlt_bool (Rabs (IZR z)) (bpow radix2 1024) = true.
Proof.
  intros z H. apply Rlt_bool_true. rewrite <- abs_IZR. rewrite <- (IZR_Zpower radix2) by lia. apply IZR_lt.
  apply Z.le_lt_trans with (2 ^ 53)%Z; [assumption|]. reflexivity.
Qed.

(** [rep z x]: the double [x] is the number z (possibly a zero with the other sign). *)
Definition rep (z : Z) (x : bf) : Prop := is_finite x = true /\ B2R x = IZR z.

Lemma rep_int : forall z, (Z.abs z <= 2 ^ 53)%Z -> rep z (bint z).
Proof.
  intros z H. unfold bint, rep.
  pose proof (binary_normalize_correct 53 1024 hprec hmax mode_NE z 0 false) as K. simpl in K.
  assert (E : F2R (Float radix2 z 0) = IZR z) by (unfold F2R; simpl; ring).
  rewrite E, rnd_int, int_small in K by assumption. tauto.
Qed.

Lemma rep_add : forall a b x y, rep a x -> rep b y -> (Z.abs (a + b) <= 2 ^ 53)%Z -> rep (a + b) (Bplus mode_NE x y).
Proof.
  intros a b x y [Fx Ex] [Fy Ey] H. pose proof (Bplus_correct 53 1024 hprec hmax mode_NE x y Fx Fy) as K. simpl in K.
  rewrite Ex, Ey, <- plus_IZR, rnd_int, int_small in K by assumption. split; tauto.
Qed.

Lemma rep_sub : forall a b x y, rep a x -> rep b y -> (Z.abs (a - b) <= 2 ^ 53)%Z -> rep (a - b) (Bminus mode_NE x y).
Proof.
  intros a b x y [Fx Ex] [Fy Ey] H. pose proof (Bminus_correct 53 1024 hprec hmax mode_NE x y Fx Fy) as K. simpl in K.
  rewrite Ex, Ey, <- minus_IZR, rnd_int, int_small in K by assumption. split; tauto.
Qed.

Lemma rep_mul : forall a b x y, rep a x -> rep b y -> (Z.abs (a * b) <= 2 ^ 53)%Z -> rep (a * b) (Bmult mode_NE x y).
Proof.
  intros a b x y [Fx Ex] [Fy Ey] H. pose proof (Bmult_correct 53 1024 hprec hmax mode_NE x y) as K. simpl in K.
  rewrite Ex, Ey, <- mult_IZR, rnd_int, int_small in K by assumption. rewrite Fx, Fy in K. split; tauto.
Qed.

Lemma rep_div1 : forall a x y, rep a x -> rep 1 y -> rep a (Bdiv mode_NE x y).
Proof.
  intros a x y [Fx Ex] [Fy Ey].
  assert (NZ : B2R y <> 0%R) by (rewrite Ey; lra).
  pose proof (Bdiv_correct 53 1024 hprec hmax mode_NE x y NZ) as K. simpl in K.
  assert (E : (B2R x / B2R y = B2R x)%R) by (rewrite Ey; field).
  rewrite E, rnd_B, lt_emax_B in K. rewrite Fx, Ex in K. split; tauto.
Qed.

Lemma rep_le : forall a b x y, rep a x -> rep b y -> fle (B2SF x) (B2SF y) = (a <=? b)%Z.
Proof.
  intros a b x y [Fx Ex] [Fy Ey]. rewrite fle_B, Bleb_correct by assumption. rewrite Ex, Ey.
  case Rle_bool_spec; intros H; symmetry.
  - apply Z.leb_le. now apply le_IZR.
  - apply Z.leb_gt. now apply lt_IZR.
Qed.

Lemma rep_lt : forall a b x y, rep a x -> rep b y -> flt (B2SF x) (B2SF y) = (a <? b)%Z.
Proof.
  intros a b x y [Fx Ex] [Fy Ey]. change (flt (B2SF x) (B2SF y)) with (Bltb x y). rewrite Bltb_correct by assumption.
  rewrite Ex, Ey. case Rlt_bool_spec; intros H; symmetry.
  - apply Z.ltb_lt. now apply lt_IZR.
  - apply Z.ltb_ge. now apply le_IZR.
Qed.

(** ** The price at which the auction stops (recipe count 1) *)

Lemma bint0 : bint 0 = B754_zero false. Proof. reflexivity. Qed.

Lemma div1_fin_y : forall x y : bf, rep 1 y -> is_finite x = true ->
  is_finite (Bdiv mode_NE x y) = true /\ B2R (Bdiv mode_NE x y) = B2R x.
Proof.
  intros x y [F1 E1] Fx.
  assert (NZ : B2R y <> 0%R) by (rewrite E1; lra).
  pose proof (Bdiv_correct 53 1024 hprec hmax mode_NE x y NZ) as K. simpl in K.
  assert (E : (B2R x / B2R y = B2R x)%R) by (rewrite E1; field).
  rewrite E, rnd_B, lt_emax_B in K. rewrite Fx in K. tauto.
Qed.

Lemma mul1_fin_y : forall x y : bf, rep 1 y -> is_finite x = true ->
  is_finite (Bmult mode_NE y x) = true /\ B2R (Bmult mode_NE y x) = B2R x.
Proof.
  intros x y [F1 E1] Fx.
  pose proof (Bmult_correct 53 1024 hprec hmax mode_NE y x) as K. simpl in K.
  assert (E : (B2R y * B2R x = B2R x)%R) by (rewrite E1; ring).
  rewrite E, rnd_B, lt_emax_B in K. rewrite F1, Fx in K. tauto.
Qed.

Lemma rep_1 : rep 1 (bint 1). Proof. apply rep_int. lia. Qed.

Lemma div1_fin : forall x : bf, is_finite x = true ->
  is_finite (Bdiv mode_NE x (bint 1)) = true /\ B2R (Bdiv mode_NE x (bint 1)) = B2R x.
Proof. intros. apply div1_fin_y; [apply rep_1|assumption]. Qed.

Lemma mul1_fin : forall x : bf, is_finite x = true ->
  is_finite (Bmult mode_NE (bint 1) x) = true /\ B2R (Bmult mode_NE (bint 1) x) = B2R x.
Proof. intros. apply mul1_fin_y; [apply rep_1|assumption]. Qed.

(** If the rounded sum w + v is at least 0, the price -w is at most v. *)
Lemma stop_price : forall (w v : bf), is_finite v = true ->
  fle (fint 0) (fadd (B2SF w) (fmul (fint 1) (B2SF v))) = true ->
  fle (fdiv (fsub (fint 0) (B2SF w)) (fint 1)) (B2SF v) = true.
Proof.
  intros w v Fv H. rewrite !int_B, ?mul_B, ?add_B, ?sub_B, ?div_B, !fle_B in *.
  destruct (mul1_fin v Fv) as [Fv' Ev']. set (v' := Bmult mode_NE (bint 1) v) in *.
  destruct (is_finite w) eqn:Fw.
  - (* a finite w *)
    assert (VE : Valid_exp fexp64) by (apply fexp_correct; apply hprec).
    assert (E0 : is_finite (Bminus mode_NE (bint 0) w) = true /\ (B2R (Bminus mode_NE (bint 0) w) = - B2R w)%R).
    { rewrite bint0. destruct w as [s|s| |s m e B]; try discriminate.
      - simpl. destruct s; simpl; split; auto; lra.
      - simpl. split; [reflexivity|]. rewrite <- F2R_Zopp. f_equal. f_equal. destruct s; reflexivity. }
    destruct E0 as [F0 E0]. destruct (div1_fin _ F0) as [F1 E1].
    apply Bleb_iff; [assumption..|]. rewrite E1, E0.
    pose proof (Bplus_correct 53 1024 hprec hmax mode_NE w v' Fw Fv') as K.
    destruct (Rlt_bool _ _) in K.
    + destruct K as (K1 & K2 & _).
      apply Bleb_iff in H; [|reflexivity|assumption]. rewrite K1 in H. rewrite bint0 in H. simpl in H. rewrite Ev' in H.
      destruct (Rlt_le_dec (B2R w + B2R v) 0) as [N|N]; [|lra].
      exfalso.
      assert (R : (round radix2 fexp64 ZnearestE (B2R w + B2R v) <= 0)%R).
      { replace 0%R with (round radix2 fexp64 ZnearestE 0) by (apply round_0; auto with typeclass_instances).
        apply round_le; auto with typeclass_instances. lra. }
      assert (Z : round radix2 fexp64 ZnearestE (B2R w + B2R v) = 0%R) by lra.
      revert Z. apply round_plus_neq_0; auto with typeclass_instances; try apply fmt_B. 2: lra. intros e. unfold SpecFloat.fexp, SpecFloat.emin. lia.
    + destruct K as (K1 & K2).
      unfold Bleb in H. rewrite K1 in H. rewrite bint0 in H. simpl in H.
      unfold binary_overflow, SFleb in H. simpl in H. destruct (Bsign w) eqn:SW; [discriminate|].
      assert (P : forall x : bf, Bsign x = false -> (0 <= B2R x)%R).
      { intros [s|s| |s m e B] Q; simpl in *; subst; simpl; try lra. apply F2R_ge_0. simpl. lia. }
      pose proof (P w SW). pose proof (P v' (eq_sym K2)). rewrite Ev' in H1. lra.
  - destruct w as [s|[]| |s m e B]; try discriminate.
    + destruct v' as [s'|[]| |s' m' e' B']; discriminate.
    + destruct v as [s'|[]| |s' m' e' B']; try discriminate; reflexivity.
Qed.
