(** * The rows of experiment.py (C66) *)

From Coq Require Import String List Arith Lia ZArith QArith Qround Lqa Bool Permutation.
From Verif Require Import Base Model_Agents Model_Trade Model_Prices Model_Market Model_Experiment Spec_Market Spec_Trade Spec_Experiment
  Proof_Exp1 Proof_Market.
Import ListNotations.
Open Scope Q_scope.

(** One iteration, with the calls it makes. *)
Definition raw (auction : market -> list nat -> result trade) (recipe : list nat) (m : market) (o : iteration_outcome) : Prop :=
  exists deals rem t, optimal_trade default_max_iterations m recipe true = Ok (deals, rem)
    /\ mt_num_of_deals deals = out_k o /\ mt_gain_from_trade deals = out_opt o
    /\ auction m recipe = Ok t /\ num_of_deals t = out_deals o
    /\ gain_from_trade t true = Ok (out_total o) /\ gain_from_trade t false = Ok (out_market o).

Lemma Qn_plus : forall a b, Qn (a + b) == Qn a + Qn b.
Proof. intros a b. unfold Qn. rewrite Nat2Z.inj_add, inject_Z_plus. reflexivity. Qed.

Lemma Qn_nsum : forall l, Qn (nsum l) == Qsum (map Qn l).
Proof. induction l as [|x l IH]; [reflexivity|]. simpl. rewrite Qn_plus, IH. reflexivity. Qed.

Lemma loop_ok : forall auction recipe ms os, Forall2 (raw auction recipe) ms os -> forall s,
  exists s', experiment_loop auction recipe s ms = Ok s'
    /\ s_optimal_count s' = (s_optimal_count s + nsum (map out_k os))%nat
    /\ s_auction_count s' = (s_auction_count s + nsum (map out_deals os))%nat
    /\ s_optimal_gft s' == s_optimal_gft s + Qsum (map out_opt os)
    /\ s_total_gft s' == s_total_gft s + Qsum (map out_total os)
    /\ s_market_gft s' == s_market_gft s + Qsum (map out_market os).
Proof.
  intros auction recipe ms os H. induction H as [|m o ms os R H IH]; intros s.
  - exists s. simpl. repeat split; try lia; lra.
  - destruct R as (deals & rem & t & A & B & C & D & E & F & G). cbn [experiment_loop]. unfold experiment_iteration.
    rewrite A. cbn [bind]. rewrite D. cbn [bind]. rewrite F. cbn [bind]. rewrite G. cbn [bind fst].
    match goal with |- context [experiment_loop _ _ ?x ms] => destruct (IH x) as (s' & I & J1 & J2 & J3 & J4 & J5) end.
    exists s'. split; [exact I|]. cbn [s_optimal_count s_auction_count s_optimal_gft s_total_gft s_market_gft] in *.
    cbn [map nsum fold_right Qsum]. fold (nsum (map out_k os)). fold (nsum (map out_deals os)).
    fold (Qsum (map out_opt os)). fold (Qsum (map out_total os)). fold (Qsum (map out_market os)).
    rewrite <- B, <- C, <- E. repeat split; try lia; lra.
Qed.

(** The facts about each iteration that the bounds need. *)
Definition fine (o : iteration_outcome) : Prop :=
  (out_deals o <= out_k o <= out_deals o + 1)%nat /\ 0 <= out_market o /\ out_market o <= out_total o /\ out_total o <= out_opt o
  /\ (Qn (out_k o) - 1) * out_opt o <= Qn (out_k o) * out_total o.

Lemma Qsum_map_le : forall A (f g : A -> Q) l, Forall (fun x => f x <= g x) l -> Qsum (map f l) <= Qsum (map g l).
Proof. intros A f g l H. induction H; simpl; lra. Qed.

Lemma Qsum_map_nonneg : forall A (f : A -> Q) l, Forall (fun x => 0 <= f x) l -> 0 <= Qsum (map f l).
Proof. intros A f l H. induction H; simpl; lra. Qed.

Lemma Qsum_scale : forall A (f : A -> Q) c l, Qsum (map (fun x => c * f x) l) == c * Qsum (map f l).
Proof. intros A f c l. induction l as [|x l IH]; simpl; [lra|rewrite IH; lra]. Qed.

Lemma nsum_le : forall A (f g : A -> nat) l, Forall (fun x => (f x <= g x)%nat) l -> (nsum (map f l) <= nsum (map g l))%nat.
Proof. intros A f g l H. induction H; simpl; lia. Qed.

Lemma nsum_pred : forall (os : list iteration_outcome), Forall (fun o => (out_k o <= out_deals o + 1)%nat) os ->
  (nsum (map out_k os) <= nsum (map out_deals os) + length os)%nat.
Proof. intros os H. induction H; simpl; lia. Qed.

Lemma div_le : forall a b n, 0 < n -> a <= b -> a / n <= b / n.
Proof. intros a b n N H. unfold Qdiv. apply Qmult_le_compat_r; [assumption|]. apply Qlt_le_weak, Qinv_lt_0_compat; assumption. Qed.

Lemma div_nonneg : forall a n, 0 < n -> 0 <= a -> 0 <= a / n.
Proof. intros a n N H. unfold Qdiv. apply Qmult_le_0_compat; [assumption|]. apply Qlt_le_weak, Qinv_lt_0_compat; assumption. Qed.

Lemma div_le_1 : forall a n, 0 < n -> a <= n -> a / n <= 1.
Proof. intros a n N H. apply Qle_shift_div_r; lra. Qed.

Lemma Qn_le : forall a b, (a <= b)%nat -> Qn a <= Qn b.
Proof. intros a b H. unfold Qn. rewrite <- Zle_Qle. lia. Qed.

Lemma Qeq_bool_false : forall a b, Qeq_bool a b = false -> ~ a == b.
Proof. intros a b H E. apply Qeq_bool_iff in E. congruence. Qed.

Lemma average_sum : forall A (f : A -> Q) (l : list A), average (map f l) == Qsum (map f l) / Qn (length l).
Proof. intros A f l. unfold average. rewrite map_length. reflexivity. Qed.

Lemma rounded_intro : forall x y, y == x -> rounded x (py_round2 y).
Proof. intros x y E. unfold rounded. pose proof (round2_near y). lra. Qed.

Lemma row_ok : forall n os s, os <> [] ->
  s_optimal_count s = nsum (map out_k os) -> s_auction_count s = nsum (map out_deals os) ->
  s_optimal_gft s == Qsum (map out_opt os) -> s_total_gft s == Qsum (map out_total os) ->
  s_market_gft s == Qsum (map out_market os) -> Forall fine os ->
  exists r, experiment_row n (length os) s = Ok r /\ num_of_agents r = n /\ row_averages os r /\ row_bounds r /\ row_ratio os r
    /\ (Forall (fun o => out_market o == out_total o) os ->
        mean_auction_market_gft r == mean_auction_total_gft r /\ market_gft_ratio r == total_gft_ratio r).
Proof.
  intros n os s NE E1 E2 E3 E4 E5 F. unfold experiment_row.
  assert (L : (0 < length os)%nat) by (destruct os; [congruence|simpl; lia]).
  assert (N : 0 < Qn (length os)) by (apply Qn_pos; assumption).
  destruct (length os =? 0)%nat eqn:Z0; [apply Nat.eqb_eq in Z0; lia|].
  eexists. split; [reflexivity|]. split; [reflexivity|].
  assert (K1 : (nsum (map out_deals os) <= nsum (map out_k os))%nat).
  { apply nsum_le. eapply Forall_impl; [|exact F]. intros o H. unfold fine in H. lia. }
  assert (K2 : (nsum (map out_k os) <= nsum (map out_deals os) + length os)%nat).
  { apply nsum_pred. eapply Forall_impl; [|exact F]. intros o H. unfold fine in H. lia. }
  assert (G1 : 0 <= Qsum (map out_market os)).
  { apply Qsum_map_nonneg. eapply Forall_impl; [|exact F]. intros o H. unfold fine in H. tauto. }
  assert (G2 : Qsum (map out_market os) <= Qsum (map out_total os)).
  { apply Qsum_map_le. eapply Forall_impl; [|exact F]. intros o H. unfold fine in H. tauto. }
  assert (G3 : Qsum (map out_total os) <= Qsum (map out_opt os)).
  { apply Qsum_map_le. eapply Forall_impl; [|exact F]. intros o H. unfold fine in H. tauto. }
  split; [|split; [|split]].
  - unfold row_averages. cbn [iterations mean_optimal_count mean_auction_count mean_optimal_gft mean_auction_total_gft mean_auction_market_gft].
    split; [reflexivity|].
    split; [apply rounded_intro; rewrite average_sum, E1, Qn_nsum, map_map; reflexivity|].
    split; [apply rounded_intro; rewrite average_sum, E2, Qn_nsum, map_map; reflexivity|].
    split; [apply rounded_intro; rewrite average_sum, E3; reflexivity|].
    split; [apply rounded_intro; rewrite average_sum, E4; reflexivity|].
    apply rounded_intro; rewrite average_sum, E5; reflexivity.
  - unfold row_bounds.
    cbn [count_ratio total_gft_ratio market_gft_ratio mean_optimal_count mean_auction_count mean_optimal_gft mean_auction_total_gft mean_auction_market_gft].
    split; [split|split; [|split; [|split; [split|split; [|split]]]]].
    + rewrite <- round2_pred. apply round2_mono.
      assert (X : Qn (s_optimal_count s) / Qn (length os) - 1 == (Qn (s_optimal_count s) - Qn (length os)) / Qn (length os)).
      { field. lra. }
      rewrite X. apply div_le; [assumption|]. rewrite E1, E2. apply Qn_le in K2. rewrite Qn_plus in K2. lra.
    + apply round2_mono, div_le; [assumption|]. rewrite E1, E2. apply Qn_le. assumption.
    + destruct (s_optimal_count s =? 0)%nat eqn:Z1; [split; lra|]. apply Nat.eqb_neq in Z1.
      assert (P : 0 < Qn (s_optimal_count s)) by (apply Qn_pos; lia).
      set (q := Qn (s_auction_count s) / Qn (s_optimal_count s)).
      assert (Q0 : 0 <= q) by (apply div_nonneg; [assumption|apply Qn_nonneg]).
      assert (Q1 : q <= 1) by (apply div_le_1; [assumption|apply Qn_le; lia]).
      rewrite py_int_floor by lra. rewrite d100.
      assert (A : (0 <= Qfloor (q * 10000))%Z). { change 0%Z with (Qfloor 0). apply Qfloor_resp_le. lra. }
      assert (B : (Qfloor (q * 10000) <= 10000)%Z).
      { apply Z.le_trans with (Qfloor 10000); [apply Qfloor_resp_le; lra|apply Z.le_refl]. }
      rewrite Zle_Qle in A, B. change (inject_Z 0) with 0 in A. change (inject_Z 10000) with 10000 in B. lra.
    + destruct (Qeq_bool (s_optimal_gft s) 0) eqn:Z1; [split; lra|]. apply Qeq_bool_false in Z1.
      assert (P : 0 < s_optimal_gft s) by (destruct (Qlt_le_dec 0 (s_optimal_gft s)); [assumption|exfalso; apply Z1; lra]).
      assert (A : 0 <= s_total_gft s / s_optimal_gft s) by (apply div_nonneg; [assumption|rewrite E4; lra]).
      assert (B : s_total_gft s / s_optimal_gft s <= 1) by (apply div_le_1; [assumption|rewrite E4, E3; lra]).
      split.
      * rewrite <- round2_0. apply round2_mono. lra.
      * assert (X : py_round2 100 == 100) by apply (round2_int 100). apply Qle_trans with (py_round2 100); [apply round2_mono; lra|]. apply Qle_lteq; right; exact X.
    + rewrite <- round2_0. apply round2_mono, div_nonneg; [assumption|rewrite E4; lra].
    + apply round2_mono, div_le; [assumption|]. rewrite E3, E4. assumption.
    + destruct (Qeq_bool (s_optimal_gft s) 0) eqn:Z1; [split; lra|]. apply Qeq_bool_false in Z1.
      assert (P : 0 < s_optimal_gft s) by (destruct (Qlt_le_dec 0 (s_optimal_gft s)); [assumption|exfalso; apply Z1; lra]). split.
      * rewrite <- round2_0. apply round2_mono.
        assert (A : 0 <= s_market_gft s / s_optimal_gft s) by (apply div_nonneg; [assumption|rewrite E5; lra]). lra.
      * apply round2_mono. assert (A : s_market_gft s / s_optimal_gft s <= s_total_gft s / s_optimal_gft s).
        { apply div_le; [assumption|]. rewrite E4, E5. assumption. }
        lra.
    + rewrite <- round2_0. apply round2_mono, div_nonneg; [assumption|rewrite E5; lra].
    + apply round2_mono, div_le; [assumption|]. rewrite E4, E5. assumption.
  - intros K HK FK EX. cbn [total_gft_ratio].
    assert (P : 0 < Qsum (map out_opt os)).
    { clear - EX F. induction EX as [o os H|o os EX IH]; simpl.
      - inversion F as [|? ? Fo Fos]; subst. assert (0 <= Qsum (map out_opt os)); [|lra].
        apply Qsum_map_nonneg. eapply Forall_impl; [|exact Fos]. intros o' H'. unfold fine in H'. lra.
      - inversion F as [|? ? Fo Fos]; subst. specialize (IH Fos). unfold fine in Fo. lra. }
    destruct (Qeq_bool (s_optimal_gft s) 0) eqn:Z1; [apply Qeq_bool_iff in Z1; lra|].
    assert (KP : 0 < Qn K) by (apply Qn_pos; assumption).
    assert (A : (1 - 1 / Qn K) * Qsum (map out_opt os) <= Qsum (map out_total os)).
    { rewrite <- Qsum_scale. apply Qsum_map_le. rewrite Forall_forall in *. intros o Ho. specialize (F o Ho). specialize (FK o Ho).
      destruct F as (_ & F1 & F2 & F3 & F4). assert (KK : Qn K <= Qn (out_k o)) by (apply Qn_le; assumption).
      assert (I : 1 / Qn (out_k o) <= 1 / Qn K).
      { apply Qle_shift_div_l; [assumption|]. assert (X : 1 / Qn (out_k o) * Qn K == Qn K / Qn (out_k o)) by (field; lra).
        rewrite X. apply div_le_1; lra. }
      assert (J : (1 - 1 / Qn (out_k o)) * out_opt o <= out_total o).
      { assert (X : (1 - 1 / Qn (out_k o)) * out_opt o == (Qn (out_k o) - 1) * out_opt o / Qn (out_k o)) by (field; lra).
        rewrite X. apply Qle_shift_div_r; lra. }
      assert (0 <= out_opt o) by lra. nra. }
    set (q := s_total_gft s / s_optimal_gft s).
    assert (B : 1 - 1 / Qn K <= q).
    { unfold q. apply Qle_shift_div_l; [lra|]. rewrite E3, E4. assumption. }
    pose proof (round2_near (q * 100)). lra.
  - intros EQ. cbn [mean_auction_market_gft mean_auction_total_gft market_gft_ratio total_gft_ratio].
    assert (X : s_market_gft s == s_total_gft s).
    { rewrite E4, E5. clear - EQ. induction EQ; simpl; [reflexivity|]. rewrite H, IHEQ. reflexivity. }
    split; [apply round2_eq; rewrite X; reflexivity|]. destruct (Qeq_bool _ _); [reflexivity|]. apply round2_eq. rewrite X. reflexivity.
Qed.

Lemma experiment_ok : forall auction recipe samples,
  Forall (fun s => snd s <> [] /\ exists os, Forall2 (raw auction recipe) (snd s) os /\ Forall fine os) samples ->
  exists rows, experiment auction recipe samples = Ok rows
  /\ Forall2 (fun s r => num_of_agents r = fst s /\ exists os, Forall2 (raw auction recipe) (snd s) os /\ Forall fine os
        /\ row_averages os r /\ row_bounds r /\ row_ratio os r
        /\ (Forall (fun o => out_market o == out_total o) os ->
            mean_auction_market_gft r == mean_auction_total_gft r /\ market_gft_ratio r == total_gft_ratio r)) samples rows.
Proof.
  intros auction recipe samples H. induction H as [|[n ms] samples (NE & os & R & F) H IH].
  - exists []. split; [reflexivity|constructor].
  - destruct IH as (rows & E & IH). cbn [fst snd] in *.
    destruct (loop_ok _ _ _ _ R (mkSums 0 0 0 0 0)) as (s & A & B1 & B2 & B3 & B4 & B5).
    cbn [s_optimal_count s_auction_count s_optimal_gft s_total_gft s_market_gft] in *. rewrite Nat.add_0_l in B1, B2.
    rewrite Qplus_0_l in B3, B4, B5.
    assert (LO : length ms = length os) by (eapply Forall2_length; exact R).
    destruct (row_ok n os s) as (r & C & C1 & C2 & C3 & C4 & C5); auto.
    { intros ->. destruct ms; [congruence|discriminate]. }
    exists (r :: rows). cbn [experiment]. rewrite A. cbn [bind]. rewrite LO, C. cbn [bind]. rewrite E. split; [reflexivity|].
    constructor; [|assumption]. cbn [fst snd]. split; [assumption|]. exists os. repeat (split; [assumption|]). assumption.
Qed.

(** No iterations: division by zero. *)
Lemma experiment_no_iterations : forall auction recipe n samples, experiment auction recipe ((n, []) :: samples) = Raise ZeroDivisionError.
Proof. reflexivity. Qed.
