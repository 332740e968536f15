(** * C100: how far rounding can break individual rationality *)

From Coq Require Import String ZArith Reals Qreals QArith Qpower List Lia Lqa Lra Sorted Permutation.
From Coq Require Import SpecFloat.
From Flocq Require Import Core BinarySingleNaN Plus_error Relative.
From Verif Require Import Base Model_Agents Model_Market Model_Float Model_FloatMcAfee Spec_Float Spec_FloatMcAfee Proof_Float Proof_Float2 Proof_FM1 Proof_FM2 Proof_FM3.
Import ListNotations.

Local Open Scope nat_scope.
Ltac xlra := first [Lra.lra | Lqa.lra].
#[local] Existing Instance hprec.
#[local] Existing Instance hmax.

(** The rounded gain of a deal between a non-negative and a non-positive value. *)
Lemma gain_B : forall x y, finite_double x -> finite_double y -> (0 <= dval x)%Q -> (dval y <= 0)%Q ->
  exists g : bf, f_gft [x; y] = B2SF g /\ is_finite g = true /\ B2R g = rnd (Q2R (dval x) + Q2R (dval y))
    /\ generic_format radix2 fexp64 (Q2R (dval x)) /\ generic_format radix2 fexp64 (Q2R (dval y)).
Proof.
  intros x y Hx Hy Px Py. destruct (finite_B x Hx) as (a & Fa & ->). destruct (finite_B y Hy) as (b & Fb & ->).
  unfold f_gft. cbn [fold_left]. rewrite int_B, !add_B. destruct (add0_B a Fa) as [F0 E0]. set (a' := Bplus mode_NE (bint 0) a) in *.
  apply Qle_Rle in Px. apply Qle_Rle in Py. rewrite dval_B in Px, Py by assumption. replace (Q2R 0) with 0%R in Px, Py by (unfold Q2R; cbn; Lra.lra).
  rewrite !dval_B by assumption. exists (Bplus mode_NE a' b). split; [reflexivity|].
  assert (VE : Valid_exp fexp64) by (apply fexp_correct; apply hprec).
  pose proof (Bplus_correct 53 1024 hprec hmax mode_NE a' b F0 Fb) as K. rewrite E0 in K.
  change (round radix2 (SpecFloat.fexp 53 1024) (round_mode mode_NE) (B2R a + B2R b)) with (rnd (B2R a + B2R b)) in K.
  assert (L1 : (rnd (B2R a + B2R b) <= B2R a)%R). { rewrite <- (rnd_B a) at 2. apply round_le; auto with typeclass_instances. Lra.lra. }
  assert (L2 : (B2R b <= rnd (B2R a + B2R b))%R). { rewrite <- (rnd_B b) at 1. apply round_le; auto with typeclass_instances. Lra.lra. }
  assert (M1 := lt_emax_B a). assert (M2 := lt_emax_B b). rewrite Rlt_bool_true in K.
  - destruct K as (K1 & K2 & _). split; [exact K2|]. split; [exact K1|]. split; apply fmt_B.
  - destruct (Rlt_bool_spec (Rabs (B2R a)) (bpow radix2 1024)); [|discriminate]. destruct (Rlt_bool_spec (Rabs (B2R b)) (bpow radix2 1024)); [|discriminate].
    apply Rabs_lt. rewrite Rabs_pos_eq in H by exact Px. rewrite Rabs_left1 in H0 by exact Py. split; Lra.lra.
Qed.

(** Two sums with the same rounding differ by a tiny fraction. *)
Lemma same_rounding : forall a b c d : R, generic_format radix2 fexp64 a -> generic_format radix2 fexp64 b -> generic_format radix2 fexp64 c -> generic_format radix2 fexp64 d ->
  (0 <= a + b)%R -> (rnd (a + b) = rnd (c + d))%R -> (a + b - (c + d) <= / 2 ^ 52 * (a + b))%R.
Proof.
  intros a b c d Fa Fb Fc Fd P E.
  destruct (FLT_plus_error_N_ex radix2 (SpecFloat.emin 53 1024) 53 (fun x => negb (Z.even x)) a b Fa Fb) as (e1 & B1 & R1).
  destruct (FLT_plus_error_N_ex radix2 (SpecFloat.emin 53 1024) 53 (fun x => negb (Z.even x)) c d Fc Fd) as (e2 & B2 & R2).
  change (round radix2 (FLT_exp (SpecFloat.emin 53 1024) 53) (Znearest (fun x => negb (Z.even x))) (a + b)) with (rnd (a + b)) in R1.
  change (round radix2 (FLT_exp (SpecFloat.emin 53 1024) 53) (Znearest (fun x => negb (Z.even x))) (c + d)) with (rnd (c + d)) in R2.
  rewrite R1, R2 in E. set (u := u_ro radix2 53) in *.
  assert (U : (u = / 2 ^ 53)%R). { unfold u, u_ro. change (- (53) + 1)%Z with (-52)%Z. cbn [bpow]. rewrite <- Rinv_mult. f_equal. replace (2 ^ 53)%R with (IZR (2 ^ 53)) by (rewrite pow_IZR; reflexivity). rewrite <- mult_IZR. reflexivity. }
  assert (U0 : (0 < u)%R) by (rewrite U; apply Rinv_0_lt_compat; apply pow_lt; Lra.lra).
  assert (U2 : (/ 2 ^ 52 = 2 * u)%R). { rewrite U. replace (2 ^ 53)%R with (2 * 2 ^ 52)%R by (cbn [pow]; ring). rewrite Rinv_mult. field. }
  rewrite U2. set (v := (u / (1 + u))%R) in *. assert (V0 : (0 < v)%R) by (apply Rdiv_lt_0_compat; Lra.lra).
  assert (V : (v * (1 + u) = u)%R) by (unfold v; field; Lra.lra). apply Rabs_le_inv in B1. apply Rabs_le_inv in B2.
  assert (V1 : (v < 1)%R) by (unfold v; apply Rmult_lt_reg_r with (1 + u)%R; [Lra.lra|]; unfold Rdiv; rewrite Rmult_assoc, Rinv_l by Lra.lra; Lra.lra).
  (* (c+d)(1+e2) = (a+b)(1+e1), so (a+b-(c+d))(1+e2) = (a+b)(e2-e1) <= 2v(a+b) *)
  set (g := (a + b)%R) in *. set (k := (c + d)%R) in *.
  assert (E' : ((g - k) * (1 + e2) = g * (e2 - e1))%R) by nra.
  assert (K1 : (g * (e2 - e1) <= g * (2 * v))%R) by (apply Rmult_le_compat_l; Lra.lra).
  destruct (Rle_lt_dec (g - k) 0) as [N|N]; [assert (0 <= 2 * u * g)%R by (apply Rmult_le_pos; Lra.lra); Lra.lra|].
  assert (K2 : ((g - k) * (1 - v) <= g * (2 * v))%R). { apply Rle_trans with ((g - k) * (1 + e2))%R; [apply Rmult_le_compat_l; Lra.lra|Lra.lra]. }
  assert (K3 : ((g - k) * (1 - v) * (1 + u) <= g * (2 * v) * (1 + u))%R) by (apply Rmult_le_compat_r; Lra.lra).
  assert (K4 : ((g - k) * (1 - v) * (1 + u) = g - k)%R) by (replace ((g - k) * (1 - v) * (1 + u))%R with ((g - k) * (1 + u - v * (1 + u)))%R by ring; rewrite V; ring).
  assert (K5 : (g * (2 * v) * (1 + u) = 2 * u * g)%R) by (replace (g * (2 * v) * (1 + u))%R with (2 * g * (v * (1 + u)))%R by ring; rewrite V; ring). Lra.lra.
Qed.

Definition eps : Q := 1 # 4503599627370496.

Lemma eps_R : Q2R eps = (/ 2 ^ 52)%R.
Proof. unfold Q2R, eps. cbn [Qnum Qden]. rewrite Rmult_1_l. f_equal. change 2%R with (IZR 2). rewrite pow_IZR. reflexivity. Qed.

Lemma tie_bound : forall x y x0 y0, finite_double x -> finite_double y -> finite_double x0 -> finite_double y0 ->
  (0 <= dval x -> dval y <= 0 -> 0 <= dval x0 -> dval y0 <= 0 -> 0 <= dval x0 + dval y0 -> dval x <= dval x0 -> dval y <= dval y0 ->
  fle (f_gft [x0; y0]) (f_gft [x; y]) = true -> (dval x0 + dval y0) - (dval x + dval y) <= eps * (dval x0 + dval y0))%Q.
Proof.
  intros x y x0 y0 Hx Hy Hx0 Hy0 Px Py Px0 Py0 G L1 L2 H.
  destruct (gain_B x y Hx Hy Px Py) as (g & E & Fg & Eg & A1 & A2). destruct (gain_B x0 y0 Hx0 Hy0 Px0 Py0) as (g0 & E0 & Fg0 & Eg0 & B1 & B2).
  rewrite E, E0, fle_B in H. apply Bleb_iff in H; [|assumption|assumption]. rewrite Eg, Eg0 in H.
  apply Rle_Qle. unfold Qminus. rewrite Q2R_mult, !Q2R_plus, Q2R_opp, Q2R_plus, eps_R. apply Qle_Rle in L1. apply Qle_Rle in L2. apply Qle_Rle in G. rewrite Q2R_plus in G.
  replace (Q2R 0) with 0%R in G by (unfold Q2R; cbn; Lra.lra).
  assert (VE : Valid_exp fexp64) by (apply fexp_correct; apply hprec).
  apply same_rounding; auto. apply Rle_antisym; [exact H|]. apply round_le; auto with typeclass_instances. Lra.lra.
Qed.

(** ** The price is at most the value, but for the rounding *)

Lemma near_rational : forall it bs ss h tb ts p1 p2 B, Forall finite_double bs -> Forall finite_double ss ->
  Forall (fun b => 0 <= dval b <= B)%Q bs -> Forall (fun s => dval s <= 0)%Q ss ->
  f_mcafee it [bs; ss] h = Ok ([tb; ts], [p1; p2]) ->
  (forall v, In v tb -> (dval p1 <= dval v + eps * B)%Q) /\ (forall v, In v ts -> (dval p2 <= dval v + eps * B)%Q).
Proof.
  intros it bs ss h tb ts p1 p2 B Hb Hs Pb Ps H.
  destruct (result2 it bs ss h Hb Hs) as (tb' & ts' & q1 & q2 & kept & dropped & E & _ & _ & _ & PK & _ & PB & PS & _ & LP).
  rewrite H in E. injection E as <- <- <- <-.
  rewrite Forall_forall in Pb, Ps.
  assert (DT := fun d => deal_two it bs ss d Hb Hs).
  assert (HM : forall h t, f_by_gft (the_deals it bs ss) = h :: t -> forall d, In d (the_deals it bs ss) -> fle (f_gft h) (f_gft d) = true).
  { intros h0 t0 E0 d D. apply (isort_head_min _ (fun a b => fle (f_gft a) (f_gft b)) (fun d => In d (the_deals it bs ss))) with (l := the_deals it bs ss) (t := t0); auto.
    - intros d1 d2 D1 D2. destruct (DT d1 D1) as (x1 & y1 & -> & X1 & Y1 & I1 & J1 & _). destruct (DT d2 D2) as (x2 & y2 & -> & X2 & Y2 & I2 & J2 & _).
      destruct (gain_B x1 y1 X1 Y1 (proj1 (Pb _ I1)) (Ps _ J1)) as (g1 & -> & F1 & _). destruct (gain_B x2 y2 X2 Y2 (proj1 (Pb _ I2)) (Ps _ J2)) as (g2 & -> & F2 & _).
      rewrite !fle_B. destruct (Bleb g1 g2) eqn:L; [left; reflexivity|right]. apply Bleb_iff; auto. rewrite Bleb_correct in L by assumption. destruct (Rle_bool_spec (B2R g1) (B2R g2)); [discriminate|Lra.lra].
    - intros d1 d2 d3 D1 D2 D3. destruct (DT d1 D1) as (x1 & y1 & -> & X1 & Y1 & I1 & J1 & _). destruct (DT d2 D2) as (x2 & y2 & -> & X2 & Y2 & I2 & J2 & _).
      destruct (DT d3 D3) as (x3 & y3 & -> & X3 & Y3 & I3 & J3 & _).
      destruct (gain_B x1 y1 X1 Y1 (proj1 (Pb _ I1)) (Ps _ J1)) as (g1 & -> & F1 & _). destruct (gain_B x2 y2 X2 Y2 (proj1 (Pb _ I2)) (Ps _ J2)) as (g2 & -> & F2 & _).
      destruct (gain_B x3 y3 X3 Y3 (proj1 (Pb _ I3)) (Ps _ J3)) as (g3 & -> & F3 & _).
      rewrite !fle_B. intros L1 L2. apply Bleb_iff in L1; auto. apply Bleb_iff in L2; auto. apply Bleb_iff; auto. Lra.lra.
    - apply Forall_forall. auto. }
  assert (CH : forall d e, In d (the_deals it bs ss) -> In e (the_deals it bs ss) -> d = e \/
      (exists x y x' y', d = [x; y] /\ e = [x'; y'] /\ fle x' x = true /\ fle y' y = true) \/ (exists x y x' y', e = [x; y] /\ d = [x'; y'] /\ fle x' x = true /\ fle y' y = true)).
  { intros d e D E. destruct (loop_pairs it (f_desc bs) (f_desc ss)) as (k & _ & _ & K3 & _). unfold the_deals in *. rewrite K3 in *.
    exact (chain_In _ _ _ d e (pairs_chain k _ _ (f_desc_sorted bs Hb) (f_desc_sorted ss Hs)) D E). }
  (* every deal is at least as good as the prices, but for the rounding *)
  assert (B0 : the_deals it bs ss <> [] -> (0 <= B)%Q).
  { intros NE. destruct (the_deals it bs ss) as [|d l] eqn:E; [congruence|]. destruct (DT d (or_introl eq_refl)) as (x & y & _ & _ & _ & I & _). destruct (Pb _ I). xlra. }
  assert (MAIN : forall x y, In [x; y] (the_deals it bs ss) -> (dval p1 <= dval x + eps * B)%Q /\ (dval p2 <= dval y + eps * B)%Q).
  { intros x y D. destruct (f_by_gft (the_deals it bs ss)) as [|lp others] eqn:E.
    { exfalso. assert (PM : Permutation (f_by_gft (the_deals it bs ss)) (the_deals it bs ss)) by apply isort_perm. rewrite E in PM. apply Permutation_nil in PM. rewrite PM in D. exact D. }
    destruct (LP lp others eq_refl) as (x0 & y0 & -> & Q1 & Q2). assert (M := HM _ _ eq_refl _ D).
    assert (D0 : In [x0; y0] (the_deals it bs ss)). { apply (Permutation_in _ (isort_perm (fun a b => fle (f_gft a) (f_gft b)) _)). fold (f_by_gft (the_deals it bs ss)). rewrite E. left. reflexivity. }
    destruct (DT _ D) as (x' & y' & EQ & X & Y & I & J & _). injection EQ as <- <-. destruct (DT _ D0) as (x' & y' & EQ & X0 & Y0 & I0 & J0 & G0). injection EQ as <- <-.
    assert (NB : (0 <= B)%Q) by (apply B0; intros N; rewrite N in D; exact D). assert (EP : (0 <= eps * B)%Q) by (apply Qmult_le_0_compat; [discriminate|exact NB]).
    destruct (CH _ _ D D0) as [EQ|[(a & b & a' & b' & E1 & E2 & L1 & L2)|(a & b & a' & b' & E1 & E2 & L1 & L2)]].
    - injection EQ as -> ->. split; xlra.
    - injection E1 as <- <-. injection E2 as <- <-. rewrite fle_dval in L1, L2 by assumption. apply Qle_bool_iff in L1. apply Qle_bool_iff in L2. split; xlra.
    - injection E1 as <- <-. injection E2 as <- <-. rewrite fle_dval in L1, L2 by assumption. apply Qle_bool_iff in L1. apply Qle_bool_iff in L2.
      assert (G0' : (0 <= dval x0 + dval y0)%Q) by (cbn in G0; xlra).
      assert (T := tie_bound x y x0 y0 X Y X0 Y0 (proj1 (Pb _ I)) (Ps _ J) (proj1 (Pb _ I0)) (Ps _ J0) G0' L1 L2 M).
      assert (BD : (eps * (dval x0 + dval y0) <= eps * B)%Q). { apply Qmult_le_l; [reflexivity|]. assert (A1 := proj2 (Pb _ I0)). assert (A2 := Ps _ J0). xlra. }
      split; xlra. }
  assert (IN : forall d, In d kept -> In d (the_deals it bs ss)). { intros d D. apply (Permutation_in _ PK). apply in_or_app. left. exact D. }
  split; intros v V.
  - apply (Permutation_in _ PB) in V. apply in_map_iff in V. destruct V as (d & <- & D). apply IN in D. destruct (DT _ D) as (x & y & -> & _). cbn [nth]. apply (MAIN x y D).
  - apply (Permutation_in _ PS) in V. apply in_map_iff in V. destruct V as (d & <- & D). apply IN in D. destruct (DT _ D) as (x & y & -> & _). cbn [nth]. apply (MAIN x y D).
Qed.
