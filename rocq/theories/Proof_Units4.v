(** * Proofs for C93, continued: the code's own MAX_VALUE *)

From Coq Require Import String List Arith QArith Lqa.
From Verif Require Import Base Model_Agents Model_Trade Model_Prices Model_Market Model_Ascending Model_TradeReduction Model_McAfee.
From Verif Require Import Spec_Market Spec_Trade Spec_Ascending Spec_Units Spec_MaxValue Proof_Units Proof_MaxValue Props_Ascending.
Import ListNotations.
Open Scope Q_scope.

Section Conv.
Variable c : Q.
Hypothesis CP : 0 < c.

Lemma conv_back : forall M, conv c (M / c) M.
Proof. intros M. unfold conv. field. lra. Qed.

Lemma conv_bounds : forall v v' M, conv c v v' -> (v' <= M <-> v <= M / c) /\ (- M <= v' <-> - (M / c) <= v).
Proof.
  unfold conv. intros v v' M E. assert (F : M == c * (M / c)) by (field; lra). set (N := M / c) in *. rewrite E. split; split; intros H; nra.
Qed.

Lemma below_back : forall M recipe m m', conv_market c m m' -> well_below M recipe m' -> well_below (M / c) recipe m.
Proof.
  intros M recipe m m' H (B & B0 & B1 & B2 & HB). exists (B / c). assert (F : M == c * (M / c)) by (field; lra). assert (G : B == c * (B / c)) by (field; lra).
  set (N := M / c) in *. set (D := B / c) in *. assert (D0 : 0 <= D) by nra. split; [exact D0|]. split; [nra|]. split.
  - assert (GK : B * Qn (nsum recipe) == c * (D * Qn (nsum recipe))) by (transitivity ((c * D) * Qn (nsum recipe)); [apply Qmult_comp; [exact G|reflexivity]|ring]).
    set (k := D * Qn (nsum recipe)) in *. assert (X : c * k < c * N) by lra. nra.
  - clear -H HB CP. subst D. induction H as [|a a' m m' HA H IH]; intros b v Hb Hv; [destruct Hb|]. destruct Hb as [->|Hb].
    + destruct HA as [_ HA]. assert (HB' : forall v', In v' (cvalues a') -> - B <= v' /\ v' <= B) by (intros v' Hv'; apply (HB a' v' (or_introl eq_refl) Hv')).
      clear HB IH. induction HA as [|x x' l l' HX HA IHA]; [destruct Hv|]. destruct Hv as [->|Hv].
      * destruct (HB' x' (or_introl eq_refl)) as [L1 L2]. destruct (conv_bounds _ _ B HX) as [K1 K2]. split; [apply K2; exact L1|apply K1; exact L2].
      * apply IHA; [exact Hv|]. intros v' Hv'. apply HB'. right. exact Hv'.
    + apply (IH (fun b0 v0 X Y => HB b0 v0 (or_intror X) Y) b v Hb Hv).
Qed.

Lemma small_back : forall M recipe m m', conv_market c m m' -> values_small M recipe m' -> values_small (M / c) recipe m.
Proof.
  intros M recipe m m' H [HL (U & HU & HD)]. assert (F : M == c * (M / c)) by (field; lra). split.
  - clear HU HD. induction H as [|a a' m m' HA H IH]; intros b v Hb Hv; [destruct Hb|]. destruct Hb as [->|Hb].
    + destruct HA as [_ HA]. assert (HB' : forall v', In v' (cvalues a') -> - M <= v') by (intros v' Hv'; apply (HL a' v' (or_introl eq_refl) Hv')).
      clear HL IH. induction HA as [|x x' l l' HX HA IHA]; [destruct Hv|]. destruct Hv as [->|Hv].
      * apply (conv_bounds _ _ M HX). apply HB'. left. reflexivity.
      * apply IHA; [exact Hv|]. intros v' Hv'. apply HB'. right. exact Hv'.
    + apply (IH (fun b0 v0 X Y => HL b0 v0 (or_intror X) Y) b v Hb Hv).
  - exists (map (fun u => u / c) U). split.
    + clear HL HD. revert U HU. induction H as [|a a' m m' HA H IH]; intros U HU; inversion HU as [|x u k U' HX HK]; subst; cbn [map]; constructor; [|apply IH; exact HK].
      destruct HX as [X1 X2]. split.
      * assert (G : u == c * (u / c)) by (field; lra). set (w := u / c) in *. set (N := M / c) in *. nra.
      * intros v Hv. destruct HA as [_ HA]. clear -HA X2 Hv CP. induction HA as [|x x' l l' HX HA IHA]; [destruct Hv|]. destruct Hv as [->|Hv].
        -- apply (conv_bounds _ _ u HX). apply X2. left. reflexivity.
        -- apply IHA; [intros v' Hv'; apply X2; right; exact Hv'|exact Hv].
    + intros l r u Hr Hp Hu. rewrite nth_error_map in Hu. destruct (nth_error U l) as [w|] eqn:EW; cbn [option_map] in Hu; [|discriminate]. inversion Hu; subst u.
      assert (X := HD l r w Hr Hp EW).
      assert (ED : dot U recipe == c * dot (map (fun u => u / c) U) recipe).
      { assert (CL : conv_list c (map (fun u => u / c) U) U).
        { clear -CP. induction U; cbn [map]; constructor; [apply conv_back|assumption]. }
        apply (conv_dot c _ _ recipe CL). }
      assert (G : w == c * (w / c)) by (field; lra). set (y := w / c) in *. set (N := M / c) in *. set (q := Qn r) in *.
      assert (S1 : q * w == c * (q * y)) by (transitivity (q * (c * y)); [apply Qmult_comp; [reflexivity|exact G]|ring]). assert (S2 : q * - M == c * (q * - N)) by (transitivity (q * - (c * N)); [apply Qmult_comp; [reflexivity|apply Qopp_comp; exact F]|ring]).
      set (d := dot (map (fun u => u / c) U) recipe) in *. assert (Z : c * (d - q * y + q * - N) < 0) by lra. nra.
Qed.

Theorem conv_ascending_code : forall m m' recipe t t', conv_market c m m' -> values_small MAX_VALUE recipe m -> values_small MAX_VALUE recipe m' ->
  ascending_auction m recipe = Ok t -> ascending_auction m' recipe = Ok t' ->
  conv_market c (tcats t) (tcats t') /\ num_of_deals t' = num_of_deals t
  /\ ((0 < num_of_deals t)%nat -> forall i r P P' p p', nth_error recipe i = Some r -> (0 < r)%nat ->
        tprices t = Some P -> tprices t' = Some P' -> nth_error P i = Some p -> nth_error P' i = Some p' -> conv c p p').
Proof.
  intros m m' recipe t t' H S S' E E'. unfold ascending_auction in E, E'.
  assert (T : total_agents m' = total_agents m) by (unfold total_agents; rewrite (conv_sizes c _ _ H); reflexivity). rewrite T in E'.
  assert (A := conv_ascending c CP _ _ (total_agents m + 1) _ _ recipe (conv_back MAX_VALUE) H). rewrite E' in A.
  destruct (ascending_auction_M (MAX_VALUE / c) (total_agents m + 1) m recipe) as [t1|e|] eqn:E1; cbn [alike] in A; try contradiction.
  assert (MP : 0 < MAX_VALUE) by reflexivity.
  assert (MQ : 0 < MAX_VALUE / c) by (apply Qlt_shift_div_l; [exact CP|rewrite Qmult_0_l; exact MP]).
  destruct (C49_max_value_independent MAX_VALUE (MAX_VALUE / c) _ _ _ _ _ MP MQ S (small_back _ _ _ _ H S') E E1) as (X1 & X2 & X3).
  destruct A as (A1 & A2 & A3 & A4). rewrite X1. split; [exact A1|]. split; [congruence|]. intros D i r P P' p p' Hr Hp HP HP' Hi Hi'.
  unfold conv_prices in A4. rewrite HP' in A4. destruct (tprices t1) as [P1|] eqn:EP; [|contradiction].
  destruct (nth_error P1 i) as [p1|] eqn:EI.
  - assert (X := X3 D i r P P1 p p1 Hr Hp HP eq_refl Hi EI).
    assert (Y : forall l l' j a b, conv_list c l l' -> nth_error l j = Some a -> nth_error l' j = Some b -> conv c a b).
    { clear. intros l l' j a b HL. revert j. induction HL as [|x y l l' HX HL IH]; intros [|j] Ha Hb; cbn [nth_error] in *; try discriminate; [congruence|eapply IH; eassumption]. }
    assert (Z := Y _ _ _ _ _ A4 EI Hi'). unfold conv in *. rewrite X. exact Z.
  - exfalso. apply nth_error_None in EI. rewrite <- (F2_len _ _ _ _ _ A4) in EI. apply nth_error_None in EI. congruence.
Qed.

Theorem conv_trade_reduction_code : forall m m' recipe z, conv_market c m m' -> well_below MAX_VALUE recipe m -> well_below MAX_VALUE recipe m' ->
  alike (conv_used c recipe) (trade_reduction m recipe z) (trade_reduction m' recipe z).
Proof.
  intros m m' recipe z H S S'. unfold trade_reduction. generalize default_max_iterations as it. intros it.
  assert (A := conv_trade_reduction c CP _ _ it _ _ recipe z (conv_back MAX_VALUE) H).
  assert (B := trade_reduction_max_value MAX_VALUE (MAX_VALUE / c) it m recipe z S (below_back _ _ _ _ H S')).
  destruct (trade_reduction_M MAX_VALUE it m recipe z) as [t| |], (trade_reduction_M (MAX_VALUE / c) it m recipe z) as [t1| |], (trade_reduction_M MAX_VALUE it m' recipe z) as [t'| |];
    cbn [alike] in A, B |- *; try contradiction; try exact I; [|congruence].
  destruct A as (A1 & A2 & A3 & A4), B as (B1 & B2 & B3). split; [rewrite <- B1; exact A1|]. split; [congruence|].
  unfold conv_prices in A4. destruct (tprices t) as [p|], (tprices t1) as [p1|], (tprices t') as [p'|]; try contradiction; [|exact I].
  destruct B3 as [L B3]. split; [rewrite (F2_len _ _ _ _ _ A4); exact L|]. intros i r q q' Hr Hp Hq Hq'.
  destruct (nth_error p1 i) as [q1|] eqn:EI.
  - assert (X := B3 i r q q1 Hr Hp Hq EI).
    assert (Y : forall l l' j a b, conv_list c l l' -> nth_error l j = Some a -> nth_error l' j = Some b -> conv c a b).
    { clear. intros l l' j a b HL. revert j. induction HL as [|x y l l' HX HL IH]; intros [|j] Ha Hb; cbn [nth_error] in *; try discriminate; [congruence|eapply IH; eassumption]. }
    assert (Z := Y _ _ _ _ _ A4 EI Hq'). unfold conv in *. rewrite <- X. exact Z.
  - exfalso. apply nth_error_None in EI. rewrite <- (F2_len _ _ _ _ _ A4) in EI. apply nth_error_None in EI. congruence.
Qed.

Theorem conv_mcafee_code : forall m m' recipe h, conv_market c m m' -> well_below MAX_VALUE recipe m -> well_below MAX_VALUE recipe m' ->
  alike (conv_trade c) (mcafee m recipe h) (mcafee m' recipe h).
Proof.
  intros m m' recipe h H S S'. unfold mcafee. generalize default_max_iterations as it. intros it.
  rewrite (mcafee_max_value_independent MAX_VALUE (MAX_VALUE / c) it m recipe h S (below_back _ _ _ _ H S')).
  apply (conv_mcafee c CP); [apply conv_back|exact H].
Qed.
End Conv.
