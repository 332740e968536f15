(** * C105: the numbers of the trade-reduction protocol with doubles *)

From Coq Require Import String ZArith Reals Qreals QArith Qpower Qabs List Lia Lqa Lra Sorted Permutation.
From Coq Require Import SpecFloat.
From Flocq Require Import Core BinarySingleNaN Plus_error Relative.
From Verif Require Import Base Model_Agents Model_Market Model_Float Model_FloatMcAfee Model_FloatTradeReduction Spec_Float Spec_FloatMcAfee
  Proof_Float Proof_Float2 Proof_FM1 Proof_FM2 Proof_FM3 Proof_FM4 Proof_FB1 Proof_FB2 Proof_FB3.
Import ListNotations.

Local Open Scope nat_scope.
Ltac xlra := first [Lra.lra | Lqa.lra].
#[local] Existing Instance hprec.
#[local] Existing Instance hmax.
#[local] Existing Instance ve.

(** A buyer (or the dummy), and a seller (or the dummy). *)
Definition fbuyer (B : Q) (x : double) : Prop := finite_double x /\ (-100000000 <= dval x /\ dval x <= B)%Q.
Definition fseller (x : double) : Prop := finite_double x /\ (-100000000 <= dval x /\ dval x <= 0)%Q.

Lemma mul1 : forall x, finite_double x -> finite_double (fmul x (fint 1)) /\ (dval (fmul x (fint 1)) == dval x)%Q.
Proof. intros x H. destruct (mul_unit x 1 H (or_introl eq_refl)) as [F E]. split; [exact F|]. rewrite E. change (inject_Z 1) with 1%Q. ring. Qed.

Lemma B_of : forall x q, finite_double x -> (dval x == q)%Q -> exists b : bf, x = B2SF b /\ is_finite b = true /\ B2R b = Q2R q.
Proof. intros x q F E. destruct (finite_B x F) as (b & Fb & ->). exists b. split; [reflexivity|]. split; [exact Fb|]. rewrite <- dval_B by exact Fb. apply Qeq_eqR. exact E. Qed.

Lemma div1 : forall b : bf, is_finite b = true -> finite_double (fdiv (B2SF b) (fint 1)) /\ (dval (fdiv (B2SF b) (fint 1)) == dval (B2SF b))%Q.
Proof.
  intros b F. rewrite int_B, div_B. destruct (div1_fin b F) as [F1 E1]. split; [apply finite_SF; exact F1|]. apply eqR_Qeq. rewrite !dval_B by assumption. exact E1.
Qed.

(** The rounded sum of a buyer's and a seller's value. *)
Lemma dot2_B : forall B x y, fbuyer B x -> fseller y ->
  exists g : bf, f_dot [x; y] [1; 1] = B2SF g /\ is_finite g = true /\ B2R g = rnd (Q2R (dval x) + Q2R (dval y))
    /\ generic_format radix2 fexp64 (Q2R (dval x)) /\ generic_format radix2 fexp64 (Q2R (dval y)).
Proof.
  intros B x y (Fx & Lx & _) (Fy & Ly & Uy).
  destruct (mul1 x Fx) as [Fx1 Ex1]. destruct (mul1 y Fy) as [Fy1 Ey1].
  destruct (B_of _ _ Fx1 Ex1) as (a & Ea & Fa & Ra). destruct (B_of _ _ Fy1 Ey1) as (b & Eb & Fb & Rb).
  unfold f_dot. cbn [f_dot_from]. change (Z.of_nat 1) with 1%Z. rewrite Ea, Eb, int_B, !add_B. destruct (add0_B a Fa) as [F0 E0]. set (a' := Bplus mode_NE (bint 0) a) in *.
  exists (Bplus mode_NE a' b). split; [reflexivity|].
  apply Qle_Rle in Lx, Ly, Uy. change (-100000000)%Q with (inject_Z (-100000000)) in Lx, Ly. rewrite Q2R_Z in Lx, Ly. change 0%Q with (inject_Z 0) in Uy. rewrite Q2R_Z in Uy.
  rewrite <- Ra, <- Rb in *.
  pose proof (Bplus_correct 53 1024 hprec hmax mode_NE a' b F0 Fb) as K. rewrite E0 in K. change (round_mode mode_NE) with ZnearestE in K.
  assert (L1 : (rnd (B2R a + B2R b) <= B2R a)%R). { rewrite <- (rnd_B a) at 2. apply round_le; auto with typeclass_instances. Lra.lra. }
  assert (L2 : (IZR (-200000000) <= rnd (B2R a + B2R b))%R). { rewrite <- (rnd_int (-200000000)) by lia. apply round_le; auto with typeclass_instances. Lra.lra. }
  assert (M1 := lt_emax_B a). assert (M2 := int_small (-200000000) ltac:(lia)). rewrite Rlt_bool_true in K.
  - destruct K as (K1 & K2 & _). split; [exact K2|]. split; [exact K1|]. split; apply fmt_B.
  - destruct (Rlt_bool_spec (Rabs (B2R a)) (bpow radix2 1024)) as [M1'|]; [|discriminate]. destruct (Rlt_bool_spec (Rabs (IZR (-200000000))) (bpow radix2 1024)) as [M2'|]; [|discriminate].
    apply Rabs_lt. apply Rabs_lt_inv in M1'. apply Rabs_lt_inv in M2'. Lra.lra.
Qed.

Lemma rnd_sign : forall a b, generic_format radix2 fexp64 a -> generic_format radix2 fexp64 b ->
  ((0 < rnd (a + b) <-> 0 < a + b) /\ (rnd (a + b) = 0 <-> a + b = 0) /\ (0 <= rnd (a + b) <-> 0 <= a + b))%R.
Proof.
  intros a b Fa Fb. assert (R0 : rnd 0 = 0%R) by (apply round_0; auto with typeclass_instances).
  assert (NZ : (a + b <> 0)%R -> rnd (a + b) <> 0%R).
  { intros N. apply round_plus_neq_0; auto with typeclass_instances. intros e. unfold SpecFloat.fexp, SpecFloat.emin. lia. }
  assert (UP : (0 <= a + b)%R -> (0 <= rnd (a + b))%R) by (intros H; rewrite <- R0 at 1; apply round_le; auto with typeclass_instances).
  assert (DN : (a + b <= 0)%R -> (rnd (a + b) <= 0)%R) by (intros H; rewrite <- R0; apply round_le; auto with typeclass_instances).
  destruct (Rtotal_order (a + b) 0) as [L|[E|G]].
  - assert (N := NZ ltac:(Lra.lra)). assert (D := DN ltac:(Lra.lra)). repeat split; intros; Lra.lra.
  - rewrite E, R0. repeat split; intros; Lra.lra.
  - assert (N := NZ ltac:(Lra.lra)). assert (D := UP ltac:(Lra.lra)). repeat split; intros; Lra.lra.
Qed.

(** External competition: the test is exact. *)
Definition external (incl : bool) (g : double) : bool := (flt (fint 0) g || (incl && SFeqb g (fint 0)))%bool.

Lemma Qlt_R : forall a b, (a < b)%Q <-> (Q2R a < Q2R b)%R.
Proof. intros. split; [apply Qlt_Rlt|apply Rlt_Qlt]. Qed.

Lemma Q2R0 : Q2R 0 = 0%R. Proof. unfold Q2R. cbn. Lra.lra. Qed.

Lemma external_iff : forall incl B x y, fbuyer B x -> fseller y ->
  external incl (f_dot [x; y] [1; 1]) = true <-> (0 < dval x + dval y \/ (incl = true /\ dval x + dval y == 0))%Q.
Proof.
  intros incl B x y Hx Hy. destruct (dot2_B B x y Hx Hy) as (g & -> & Fg & Eg & G1 & G2). unfold external.
  destruct (rnd_sign _ _ G1 G2) as (S1 & S2 & _). rewrite <- Eg in S1, S2.
  assert (A : flt (fint 0) (B2SF g) = true <-> (0 < dval x + dval y)%Q).
  { rewrite int_B. change (flt (B2SF (bint 0)) (B2SF g)) with (Bltb (bint 0) g). rewrite Bltb_correct by (auto; reflexivity). rewrite bint0. simpl (B2R (B754_zero false)).
    rewrite Qlt_R, Q2R_plus, Q2R0, <- S1. case Rlt_bool_spec; intros; split; intros; auto; try discriminate; Lra.lra. }
  assert (C : SFeqb (B2SF g) (fint 0) = true <-> (dval x + dval y == 0)%Q).
  { rewrite int_B. change (SFeqb (B2SF g) (B2SF (bint 0))) with (Beqb g (bint 0)). rewrite Beqb_correct by (auto; reflexivity). rewrite bint0. simpl (B2R (B754_zero false)).
    assert (QE : (dval x + dval y == 0)%Q <-> (Q2R (dval x) + Q2R (dval y) = 0)%R).
    { rewrite <- Q2R0, <- Q2R_plus. split; [apply Qeq_eqR|apply eqR_Qeq]. }
    rewrite QE, <- S2. case Req_bool_spec; intros; split; intros; auto; try discriminate; Lra.lra. }
  rewrite Bool.orb_true_iff, Bool.andb_true_iff, A, C. reflexivity.
Qed.

Definition dot2 (x y : double) : double := f_dot [x; y] [1; 1].

(** The pivot's price: fl(v - fl(x + y)). *)
Definition pivot_price (v g : double) : double := fdiv (fsub (fmul v (fint 1)) g) (fint 1).

Lemma pivot_price_B : forall B x y v, fbuyer B x -> fseller y -> v = x \/ v = y -> (0 <= dval x + dval y)%Q -> (B <= Qpower 2 1000)%Q ->
  exists p : bf, pivot_price v (dot2 x y) = B2SF p /\ is_finite p = true
    /\ B2R p = rnd (Q2R (dval v) - rnd (Q2R (dval x) + Q2R (dval y))) /\ generic_format radix2 fexp64 (Q2R (dval v))
    /\ generic_format radix2 fexp64 (rnd (Q2R (dval x) + Q2R (dval y))) /\ (0 <= rnd (Q2R (dval x) + Q2R (dval y)) <= Q2R (dval x))%R.
Proof.
  intros B x y v Hx Hy V P HB. destruct (dot2_B B x y Hx Hy) as (g & DE & Fg & Eg & G1 & G2).
  assert (Fv : finite_double v) by (destruct V as [->| ->]; [apply Hx|apply Hy]). destruct (mul1 v Fv) as [Fv1 Ev1]. destruct (B_of _ _ Fv1 Ev1) as (c & Ec & Fc & Rc).
  unfold pivot_price, dot2. rewrite DE, Ec, sub_B.
  assert (NN : (0 <= Q2R (dval x) + Q2R (dval y))%R) by (rewrite <- Q2R_plus, <- Q2R0; apply Qle_Rle; exact P).
  assert (N : (0 <= B2R g)%R) by (rewrite Eg; apply rnd_sign; assumption).
  pose proof (Bminus_correct 53 1024 hprec hmax mode_NE c g Fc Fg) as K. change (round_mode mode_NE) with ZnearestE in K.
  destruct Hy as (_ & Ly & Uy). apply Qle_Rle in Ly, Uy. rewrite Q2R0 in Uy. change (-100000000)%Q with (inject_Z (-100000000)) in Ly. rewrite Q2R_Z in Ly.
  destruct Hx as (_ & _ & Ux). apply Qle_Rle in Ux, HB. rewrite Q2R_pow2 in HB.
  assert (GX : (B2R g <= Q2R (dval x))%R). { rewrite Eg. rewrite <- (round_generic radix2 fexp64 ZnearestE (Q2R (dval x))) at 2 by assumption. apply round_le; auto with typeclass_instances. Lra.lra. }
  assert (PW : (IZR 100000000 <= bpow radix2 1000)%R). { rewrite <- (IZR_Zpower radix2) by lia. apply IZR_le. vm_compute. discriminate. }
  assert (PW2 : (bpow radix2 1001 = 2 * bpow radix2 1000)%R). { change 1001%Z with (1 + 1000)%Z. rewrite bpow_plus. reflexivity. }
  assert (AB : (Rabs (B2R c - B2R g) <= bpow radix2 1001)%R). { apply Rabs_le. rewrite Rc, PW2. destruct V as [->| ->]; Lra.lra. }
  destruct (rnd_err 1001 _ ltac:(lia) AB) as [_ E2]. rewrite (no_overflow 1001 _ ltac:(lia) E2) in K. destruct K as (K1 & K2 & _).
  destruct (div1 _ K2) as [D1 D2]. destruct (B_of _ _ D1 D2) as (p & Ep & Fp & Rp). exists p. split; [exact Ep|]. split; [exact Fp|].
  rewrite <- Eg. split; [rewrite Rp, dval_B by exact K2; rewrite K1, Rc; reflexivity|]. split; [rewrite <- Rc; apply fmt_B|]. split; [apply fmt_B|]. split; assumption.
Qed.

(** The pivot pays at most its value, and the prices sum to almost 0. *)
Lemma pivot_price_le : forall B x y v, fbuyer B x -> fseller y -> v = x \/ v = y -> (0 <= dval x + dval y)%Q -> (B <= Qpower 2 1000)%Q ->
  finite_double (pivot_price v (dot2 x y)) /\ (dval (pivot_price v (dot2 x y)) <= dval v)%Q.
Proof.
  intros B x y v Hx Hy V P HB. destruct (pivot_price_B B x y v Hx Hy V P HB) as (p & -> & Fp & Ep & Gv & _ & N & _). split; [apply finite_SF; exact Fp|].
  apply Rle_Qle. rewrite dval_B, Ep by exact Fp. rewrite <- (round_generic radix2 fexp64 ZnearestE (Q2R (dval v))) at 2 by assumption. apply round_le; auto with typeclass_instances. Lra.lra.
Qed.

Definition other (v x y : double) : Q := (dval x + dval y - dval v)%Q.

Lemma pivot_balance : forall B x y v o, fbuyer B x -> fseller y -> (v = x /\ o = y) \/ (v = y /\ o = x) -> (0 <= dval x + dval y)%Q -> (B <= Qpower 2 1000)%Q ->
  (Qabs (dval (pivot_price v (dot2 x y)) + dval o) <= eps * B)%Q.
Proof.
  intros B x y v o Hx Hy V P HB. assert (V' : v = x \/ v = y) by tauto.
  destruct (pivot_price_B B x y v Hx Hy V' P HB) as (p & -> & Fp & Ep & Gv & Gg & N1 & N2).
  destruct (dot2_B B x y Hx Hy) as (g & _ & _ & _ & G1 & G2).
  apply Rle_Qle. rewrite Q2R_abs, Q2R_plus, Q2R_mult, dval_B, Ep, eps_R by exact Fp.
  assert (NN : (0 <= Q2R (dval x) + Q2R (dval y))%R) by (rewrite <- Q2R_plus, <- Q2R0; apply Qle_Rle; exact P).
  destruct Hx as (_ & _ & Ux). apply Qle_Rle in Ux. destruct Hy as (_ & _ & Uy). apply Qle_Rle in Uy. rewrite Q2R0 in Uy.
  destruct (FLT_plus_error_N_ex radix2 (SpecFloat.emin 53 1024) 53 (fun x => negb (Z.even x)) _ _ G1 G2) as (e1 & B1 & R1).
  assert (Gg' : generic_format radix2 fexp64 (- rnd (Q2R (dval x) + Q2R (dval y)))) by (apply generic_format_opp; exact Gg).
  destruct (FLT_plus_error_N_ex radix2 (SpecFloat.emin 53 1024) 53 (fun x => negb (Z.even x)) _ _ Gv Gg') as (e2 & B2 & R2).
  change (round radix2 (FLT_exp (SpecFloat.emin 53 1024) 53) (Znearest (fun x => negb (Z.even x))) (Q2R (dval x) + Q2R (dval y))) with (rnd (Q2R (dval x) + Q2R (dval y))) in R1.
  set (G := rnd (Q2R (dval x) + Q2R (dval y))) in *.
  change (round radix2 (FLT_exp (SpecFloat.emin 53 1024) 53) (Znearest (fun x => negb (Z.even x))) (Q2R (dval v) + - G)) with (rnd (Q2R (dval v) - G)) in R2.
  rewrite R2. clear R2. set (u := u_ro radix2 53) in *.
  assert (U2 : (/ 2 ^ 52 = 2 * u)%R).
  { unfold u, u_ro. change (- (53) + 1)%Z with (-52)%Z. cbn [bpow]. rewrite <- Rmult_assoc, Rinv_r, Rmult_1_l by Lra.lra. f_equal. rewrite pow_IZR. reflexivity. }
  assert (U0 : (0 < u)%R). { unfold u, u_ro. apply Rmult_lt_0_compat; [Lra.lra|apply bpow_gt_0]. }
  rewrite U2. set (w := (u / (1 + u))%R) in *. assert (W0 : (0 < w)%R) by (apply Rdiv_lt_0_compat; Lra.lra).
  assert (W : (w * (1 + u) = u)%R) by (unfold w; field; Lra.lra).
  set (X := Q2R (dval x)) in *. set (Y := Q2R (dval y)) in *. set (b := Q2R B) in *.
  assert (NB : (0 <= b)%R) by Lra.lra.
  assert (S1 : (Rabs ((X + Y) * e1) <= b * w)%R).
  { rewrite Rabs_mult. apply Rmult_le_compat; [apply Rabs_pos|apply Rabs_pos| |exact B1]. rewrite Rabs_pos_eq by Lra.lra. Lra.lra. }
  assert (S2 : (Rabs ((Q2R (dval v) + - G) * e2) <= b * (1 + u) * w)%R).
  { rewrite Rabs_mult. apply Rmult_le_compat; [apply Rabs_pos|apply Rabs_pos| |exact B2].
    assert (BU : (0 <= b * u)%R) by (apply Rmult_le_pos; Lra.lra).
    destruct V as [[-> ->]|[-> ->]]; fold X Y.
    - rewrite Rabs_pos_eq by Lra.lra. Lra.lra.
    - rewrite Rabs_left1 by Lra.lra.
      (* G = (X+Y)(1+e1) <= X + Y + b u *)
      assert (GE : (G <= X + Y + b * u)%R).
      { rewrite R1, Rmult_plus_distr_l, Rmult_1_r. apply Rabs_le_inv in S1. assert (b * w <= b * u)%R; [|Lra.lra]. apply Rmult_le_compat_l; [exact NB|].
        rewrite <- W. assert (0 <= w * u)%R by (apply Rmult_le_pos; Lra.lra). Lra.lra. }
      Lra.lra. }
  assert (BW : (b * (1 + u) * w = b * u)%R) by (rewrite Rmult_assoc, (Rmult_comm (1 + u)), W; reflexivity). rewrite BW in S2.
  assert (WU : (b * w <= b * u)%R). { apply Rmult_le_compat_l; [exact NB|]. rewrite <- W. assert (0 <= w * u)%R by (apply Rmult_le_pos; Lra.lra). Lra.lra. }
  assert (E : ((Q2R (dval v) + - G) * (1 + e2) + Q2R (dval o) = - ((X + Y) * e1) + (Q2R (dval v) + - G) * e2)%R).
  { rewrite Rmult_plus_distr_l, Rmult_1_r. assert (GE : (G = (X + Y) + (X + Y) * e1)%R) by (rewrite R1; ring). destruct V as [[-> ->]|[-> ->]]; fold X Y; Lra.lra. }
  rewrite E. eapply Rle_trans; [apply Rabs_triang|]. rewrite Rabs_Ropp. Lra.lra.
Qed.
