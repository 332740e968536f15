(** * The experiment with recipe trees (C68) *)

From Coq Require Import String List Arith NArith Lia ZArith QArith Qround Qminmax Lqa.
From Verif Require Import Base Model_Agents Model_Trade Model_Market Model_RecipeTree Model_TreeAuction
  Model_Experiment Spec_Market Spec_Trade Spec_RecipeTree Spec_TreeAuction Spec_Experiment
  Proof_Market Proof_Tree Proof_Tree2 Proof_Tree3 Proof_TA4 Proof_TA13 Proof_Exp1 Proof_Exp2.
Import ListNotations.
Open Scope Q_scope.

(** The outcome of one iteration, as the model computes it. *)
Definition tree_raw (auction : market -> result tree_trade) (struct : pystruct) (m : market) (o : tree_outcome) : Prop :=
  exists t opt gft r, new_tree m struct = Ok t
    /\ optimal_trade_with_counters m t = (opt, (N.of_nat (to_k o), gft, to_kmin o, to_kmax o)) /\ gft == to_opt o
    /\ auction m = Ok r /\ tt_deals r = to_deals o /\ tt_gft r = to_gft o.

Definition tree_fine (o : tree_outcome) : Prop :=
  (to_deals o <= to_k o)%nat /\ 0 <= to_gft o /\ to_gft o <= to_opt o.

(** The competitive ratio of one iteration. *)
Definition tree_ratio_ok (o : tree_outcome) : Prop :=
  forall K, 0 < K -> K <= inject_Z (Z.of_N (to_kmin o)) -> (K - 1) * to_opt o <= K * to_gft o.

Lemma tree_loop_ok : forall auction struct ms os, Forall2 (tree_raw auction struct) ms os -> forall s,
  exists s', tree_iterations auction struct s ms = Ok s'
    /\ ts_optimal_count s' = (ts_optimal_count s + N.of_nat (nsum (map to_k os)))%N
    /\ ts_auction_count s' = (ts_auction_count s + nsum (map to_deals os))%nat
    /\ QN (ts_kmin s') == QN (ts_kmin s) + Qsum (map (fun o => inject_Z (Z.of_N (to_kmin o))) os)
    /\ QN (ts_kmax s') == QN (ts_kmax s) + Qsum (map (fun o => inject_Z (Z.of_N (to_kmax o))) os)
    /\ ts_optimal_gft s' == ts_optimal_gft s + Qsum (map to_opt os)
    /\ ts_total_gft s' == ts_total_gft s + Qsum (map to_gft os).
Proof.
  intros auction struct ms os H. induction H as [|m o ms os R H IH]; intros s.
  - exists s. split; [reflexivity|]. cbn [map nsum Qsum fold_right]. rewrite N.add_0_r, Nat.add_0_r. repeat split; lra.
  - destruct R as (t & opt & gft & r & E1 & E2 & E3 & E4 & E5 & E6).
    cbn [tree_iterations]. unfold tree_iteration. rewrite E1. cbn [bind]. rewrite E2, E4. cbn [bind].
    match goal with |- context [tree_iterations _ _ ?x _] => destruct (IH x) as (s' & A & B1 & B2 & B3 & B4 & B5 & B6) end.
    exists s'. split; [exact A|]. cbn [ts_optimal_count ts_auction_count ts_kmin ts_kmax ts_optimal_gft ts_total_gft] in *.
    assert (QP : forall a b, QN (a + b) == QN a + QN b) by (intros a b; unfold QN; rewrite N2Z.inj_add, inject_Z_plus; reflexivity).
    rewrite QP in B3, B4. cbn [map]. change (nsum (?x :: ?l)) with (x + nsum l)%nat.
    cbn [nsum Qsum fold_right]. fold (nsum (map to_k os)) (nsum (map to_deals os)).
    fold (Qsum (map (fun o => inject_Z (Z.of_N (to_kmin o))) os)) (Qsum (map (fun o => inject_Z (Z.of_N (to_kmax o))) os)) (Qsum (map to_opt os)) (Qsum (map to_gft os)).
    unfold QN in *. rewrite B1, B2, B3, B4, B5, B6, E3, E5, E6. repeat split; try lia; lra.
Qed.

Lemma QN_nat : forall n, QN (N.of_nat n) = Qn n.
Proof. intros n. unfold QN, Qn. rewrite nat_N_Z. reflexivity. Qed.

Lemma div_eq : forall a b c, a == b -> a / c == b / c.
Proof. intros a b c E. rewrite E. reflexivity. Qed.

Lemma ratio_cancel : forall a b n, 0 < n -> 0 < b -> a / b == a / n / (b / n).
Proof. intros a b n N B. field. split; lra. Qed.

Lemma tree_row_ok : forall n os s, os <> [] ->
  ts_optimal_count s = N.of_nat (nsum (map to_k os)) -> ts_auction_count s = nsum (map to_deals os) ->
  QN (ts_kmin s) == Qsum (map (fun o => inject_Z (Z.of_N (to_kmin o))) os) ->
  QN (ts_kmax s) == Qsum (map (fun o => inject_Z (Z.of_N (to_kmax o))) os) ->
  ts_optimal_gft s == Qsum (map to_opt os) -> ts_total_gft s == Qsum (map to_gft os) -> Forall tree_fine os ->
  exists r, tree_experiment_row n (length os) s = Ok r /\ tr_numofagents r = n /\ tree_row_averages os r /\ tree_row_bounds r
    /\ gftformula r == Qmax 0 ((meanoptimalkmin r - 1) / (meanoptimalkmin r + 1) * 100).
Proof.
  intros n os s NE E1 E2 E3 E4 E5 E6 F. unfold tree_experiment_row.
  assert (L : (0 < length os)%nat) by (destruct os; [congruence|simpl; lia]).
  destruct (Nat.eqb_spec (length os) 0) as [Z|_]; [lia|]. assert (NP := Qn_pos _ L). rewrite E1, E2, !QN_nat.
  eexists. split; [reflexivity|]. split; [reflexivity|].
  assert (K0 : 0 <= QN (ts_kmin s) / Qn (length os)) by (apply div_nonneg; [assumption|unfold QN; change 0 with (inject_Z 0); rewrite <- Zle_Qle; lia]).
  set (k := QN (ts_kmin s) / Qn (length os)) in *.
  assert (DK : (nsum (map to_deals os) <= nsum (map to_k os))%nat).
  { apply nsum_le. eapply Forall_impl; [|exact F]. intros o (A & _). exact A. }
  assert (G0 : 0 <= Qsum (map to_gft os)). { apply Qsum_map_nonneg. eapply Forall_impl; [|exact F]. intros o (_ & A & _). exact A. }
  assert (G1 : Qsum (map to_gft os) <= Qsum (map to_opt os)). { apply Qsum_map_le. eapply Forall_impl; [|exact F]. intros o (_ & _ & A). exact A. }
  assert (FM : (if Qlt_bool 0 ((k - 1) / (k + 1)) then (k - 1) / (k + 1) * 100 else 0) == Qmax 0 ((k - 1) / (k + 1) * 100)).
  { destruct (Qlt_bool 0 ((k - 1) / (k + 1))) eqn:X.
    - apply Qlt_bool_iff in X. symmetry. apply Q.max_r. lra.
    - apply Qlt_bool_false in X. symmetry. apply Q.max_l. lra. }
  split; [|split; [|exact FM]].
  - unfold tree_row_averages. cbn [tr_iterations meanoptimalcount meanoptimalkmin meanoptimalkmax meanauctioncount meanoptimalgft meanauctiontotalgft].
    rewrite !average_sum. unfold k. rewrite E3, E4, E5, E6. 
    rewrite <- (map_map to_k Qn), <- (map_map to_deals Qn), !Qn_nsum. repeat split; reflexivity.
  - unfold tree_row_bounds. cbn [meanoptimalcount meanauctioncount countratio meanoptimalgft meanauctiontotalgft totalgftratio gftformula].
    assert (QD := Qn_le _ _ DK). assert (QD0 := Qn_nonneg (nsum (map to_deals os))).
    split; [split; [apply div_nonneg; assumption|apply div_le; assumption]|].
    split. { destruct (N.eqb_spec (N.of_nat (nsum (map to_k os))) 0) as [Z|Z]; [lra|].
      assert (P : 0 < Qn (nsum (map to_k os))) by (apply Qn_pos; lia).
      assert (A := div_nonneg _ _ P QD0). assert (B := div_le_1 _ _ P QD). lra. }
    split; [split; [rewrite E6; apply div_nonneg; assumption|apply div_le; [assumption|lra]]|].
    split. { destruct (Qeq_bool (ts_optimal_gft s) 0) eqn:Z; [lra|]. apply Qeq_bool_false in Z. rewrite E5 in Z.
      assert (P : 0 < Qsum (map to_opt os)) by lra.
      assert (A := div_nonneg _ _ P G0). assert (B := div_le_1 _ _ P G1).
      assert (EQ : ts_total_gft s / ts_optimal_gft s == Qsum (map to_gft os) / Qsum (map to_opt os)) by (rewrite E5, E6; reflexivity). lra. }
    split. { destruct (Qlt_bool 0 ((k - 1) / (k + 1))) eqn:X; [|lra]. apply Qlt_bool_iff in X. split; [lra|].
      assert (Y : (k - 1) / (k + 1) < 1) by (apply Qlt_shift_div_r; lra). lra. }
    split.
    + intros P. destruct (N.eqb_spec (N.of_nat (nsum (map to_k os))) 0) as [Z|Z].
      * exfalso. assert (Z' : nsum (map to_k os) = 0%nat) by lia. rewrite Z' in P. change (Qn 0) with 0 in P. unfold Qdiv in P. lra.
      * assert (P' : 0 < Qn (nsum (map to_k os))) by (apply Qn_pos; lia). rewrite (ratio_cancel _ _ _ NP P'). reflexivity.
    + intros P. destruct (Qeq_bool (ts_optimal_gft s) 0) eqn:Z.
      * exfalso. apply Qeq_bool_iff in Z. assert (Y : ts_optimal_gft s / Qn (length os) == 0) by (rewrite Z; unfold Qdiv; lra). lra.
      * apply Qeq_bool_false in Z. rewrite E5 in Z. assert (P' : 0 < ts_optimal_gft s) by lra. rewrite (ratio_cancel _ _ _ NP P'). reflexivity.
Qed.

(** The ratio of a row. *)
Lemma tree_row_ratio : forall n os s r K, tree_experiment_row n (length os) s = Ok r ->
  ts_optimal_gft s == Qsum (map to_opt os) -> ts_total_gft s == Qsum (map to_gft os) -> Forall tree_fine os ->
  Forall tree_ratio_ok os -> 0 < K -> Forall (fun o => K <= inject_Z (Z.of_N (to_kmin o))) os -> Exists (fun o => 0 < to_opt o) os ->
  100 * (1 - 1 / K) <= totalgftratio r.
Proof.
  intros n os s r K H E5 E6 F RT KP FK EX. unfold tree_experiment_row in H. destruct (length os =? 0)%nat; [discriminate|]. injection H as <-.
  cbn [totalgftratio].
  assert (P : 0 < Qsum (map to_opt os)).
  { clear - F EX. induction EX as [o os P|o os EX IH]; inversion F as [|? ? (A & B & C) F']; subst; cbn [map Qsum fold_right]; fold (Qsum (map to_opt os)).
    - assert (X : 0 <= Qsum (map to_opt os)). { apply Qsum_map_nonneg. eapply Forall_impl; [|exact F']. intros a (_ & A1 & A2). lra. } lra.
    - specialize (IH F'). lra. }
  destruct (Qeq_bool (ts_optimal_gft s) 0) eqn:Z; [apply Qeq_bool_iff in Z; exfalso; lra|]. rewrite E5, E6.
  assert (X : (K - 1) * Qsum (map to_opt os) <= K * Qsum (map to_gft os)).
  { rewrite <- !Qsum_scale. apply Qsum_map_le. rewrite Forall_forall in *. intros o Ho. apply (RT o Ho); [assumption|apply FK; assumption]. }
  assert (Y : 1 - 1 / K <= Qsum (map to_gft os) / Qsum (map to_opt os)).
  { apply Qle_shift_div_l; [assumption|]. apply Qmult_le_l with (z := K); [assumption|].
    setoid_replace (K * ((1 - 1 / K) * Qsum (map to_opt os))) with ((K - 1) * Qsum (map to_opt os)) by (field; lra). exact X. }
  lra.
Qed.

(** ** From the auction *)
Lemma tree_outcome_exists : forall M p0 fuel struct m r, 0 < M -> tree_input M p0 struct m ->
  tree_auction M (p0 m) fuel m struct = Ok r ->
  exists o, tree_raw (fun m => tree_auction M (p0 m) fuel m struct) struct m o /\ tree_fine o
    /\ tree_outcome_of (fun m => tree_auction M (p0 m) fuel m struct) struct m o
    /\ (tree_input_competitive M struct m -> tree_ratio_ok o).
Proof.
  intros M p0 fuel struct m r HM (HS & HV & HI) H. pose proof H as H0. unfold tree_auction in H0. rewrite (clone_id m HS) in H0.
  apply bind_Ok in H0. destruct H0 as (t & Ht & H0). apply bind_Ok in H0. destruct H0 as (rs & Hrs & H0).
  apply bind_Ok in H0. destruct H0 as ([[opt k] g] & HO & H0). apply bind_Ok in H0. destruct H0 as (sp & _ & H0).
  apply bind_Ok in H0. destruct H0 as (st & _ & H0). unfold new_tree_trade in H0. apply bind_Ok in H0. destruct H0 as (x & _ & H0).
  assert (T : tt_tree r = t) by (injection H0 as <-; reflexivity). clear H0.
  destruct (HI t rs Ht Hrs) as [HD HP].
  destruct (optimal_trade_with_counters m t) as [opt' [[[count gft] kmin] kmax]] eqn:EC.
  assert (EC' : optimal_trade_with_counters (clone_market m) (tt_tree r) = (opt', (count, gft, kmin, kmax))) by (rewrite (clone_id m HS), T; exact EC).
  destruct (with_counters_spec _ _ _ _ _ _ _ HS HD EC) as (_ & CN & EG & K1 & K2).
  destruct (tree_optimal_trade_spec _ _ _ _ _ HO) as (A & B & C).
  set (D := map to_deal (opt_master m t)) in *.
  assert (LD : k = length D) by (unfold D; rewrite map_length; exact B).
  assert (GD : tree_gain D == gft) by (rewrite EG; symmetry; apply gft_master).
  assert (OPT : tree_optimal m t D) by (split; [apply opt_feasible; exact HD|intros D' HD'; unfold D; rewrite <- gft_master; apply gft_upper; assumption]).
  destruct (tree_at_most_optimal M (p0 m) fuel m struct r rs opt k g HM H) as (X1 & X2 & X3 & _);
    [rewrite T; exact Hrs|rewrite T; exact HD|exact HP|exact HV|rewrite (clone_id m HS), T; exact HO|].
  assert (EGF : gft == g) by (rewrite EG, C; reflexivity).
  exists (mkTO k gft kmin kmax (tt_deals r) (tt_gft r)). split; [|split; [|split]].
  - exists t, opt', gft, r. cbn. rewrite LD, <- CN. repeat split; try assumption; reflexivity.
  - unfold tree_fine. cbn. split; [exact X1|]. split; [exact X2|]. lra.
  - split; cbn.
    + exists t, D. split; [exact Ht|]. split; [exact OPT|]. split; [|split; [symmetry; exact LD|split; [exact GD|split; assumption]]].
      intros D' HD'. unfold D. rewrite map_length. apply optimal_count_max; assumption.
    + exists r. auto.
  - intros (NT & CI) K KP KM. cbn in *. destruct (CI t Ht) as ((Bd & VW & HB) & NE).
    assert (RC : (1 - 1 / inject_Z (Z.of_N kmin)) * gft <= tt_gft r).
    { apply (tree_competitive M Bd (p0 m) fuel m struct r rs opt' count gft kmin kmax); try assumption; rewrite T; assumption. }
    assert (G0 : 0 <= gft) by lra.
    assert (I : 1 / inject_Z (Z.of_N kmin) <= 1 / K).
    { apply Qle_shift_div_l; [assumption|]. set (N := inject_Z (Z.of_N kmin)) in *.
      setoid_replace (1 / N * K) with (K / N) by (field; lra). apply div_le_1; lra. }
    assert (J : (1 - 1 / K) * gft <= tt_gft r).
    { eapply Qle_trans; [|exact RC]. apply Qmult_le_compat_r; [lra|assumption]. }
    apply Qmult_le_l with (z := K) in J; [|assumption].
    setoid_replace (K * ((1 - 1 / K) * gft)) with ((K - 1) * gft) in J by (field; lra). exact J.
Qed.

Lemma tree_outcomes : forall M p0 fuel struct ms, 0 < M -> Forall (tree_input M p0 struct) ms ->
  Forall (fun m => exists r, tree_auction M (p0 m) fuel m struct = Ok r) ms ->
  exists os, Forall2 (tree_raw (fun m => tree_auction M (p0 m) fuel m struct) struct) ms os /\ Forall tree_fine os
    /\ Forall2 (tree_outcome_of (fun m => tree_auction M (p0 m) fuel m struct) struct) ms os
    /\ (Forall (tree_input_competitive M struct) ms -> Forall tree_ratio_ok os).
Proof.
  intros M p0 fuel struct ms HM FI. induction FI as [|m ms I FI IH]; intros FR.
  - exists []. auto.
  - inversion FR as [|? ? (r & Hr) FR']; subst. destruct (IH FR') as (os & A & B & C & D).
    destruct (tree_outcome_exists _ _ _ _ _ _ HM I Hr) as (o & A' & B' & C' & D'). exists (o :: os).
    repeat split; try (constructor; assumption). intros F. inversion F; subst. constructor; auto.
Qed.

Theorem tree_experiment_ok : forall M p0 fuel struct samples, 0 < M ->
  Forall (fun s => snd s <> [] /\ Forall (tree_input M p0 struct) (snd s)
    /\ Forall (fun m => exists r, tree_auction M (p0 m) fuel m struct = Ok r) (snd s)) samples ->
  exists rows, tree_experiment (fun m => tree_auction M (p0 m) fuel m struct) struct samples = Ok rows
  /\ Forall2 (fun s r => tr_numofagents r = fst s /\ tree_row_bounds r
       /\ gftformula r == Qmax 0 ((meanoptimalkmin r - 1) / (meanoptimalkmin r + 1) * 100)
       /\ exists os, Forall2 (tree_outcome_of (fun m => tree_auction M (p0 m) fuel m struct) struct) (snd s) os
          /\ tree_row_averages os r
          /\ (Forall (tree_input_competitive M struct) (snd s) -> forall K, 0 < K ->
              Forall (fun o => K <= inject_Z (Z.of_N (to_kmin o))) os -> Exists (fun o => 0 < to_opt o) os ->
              100 * (1 - 1 / K) <= totalgftratio r)) samples rows.
Proof.
  intros M p0 fuel struct samples HM H. induction H as [|[n ms] samples (NE & FI & FR) H (rows & IE & IH)]; [exists []; split; [reflexivity|constructor]|].
  cbn [fst snd] in *. destruct (tree_outcomes M p0 fuel struct ms HM FI FR) as (os & A & B & C & D).
  destruct (tree_loop_ok _ _ _ _ A (mkTS 0 0 0 0 0 0)) as (s & L & E1 & E2 & E3 & E4 & E5 & E6).
  cbn [ts_optimal_count ts_auction_count ts_kmin ts_kmax ts_optimal_gft ts_total_gft] in *.
  change (QN 0) with 0 in *. rewrite Qplus_0_l in *.
  assert (LEN : length ms = length os) by (clear - A; induction A; cbn; congruence).
  assert (NO : os <> []) by (destruct os; [destruct ms; [congruence|discriminate]|discriminate]).
  destruct (tree_row_ok n os s NO E1 E2 E3 E4 E5 E6 B) as (r & R & RN & RA & RB & RF).
  exists (r :: rows). split.
  - cbn [tree_experiment]. rewrite L. cbn [bind]. rewrite LEN, R. cbn [bind]. rewrite IE. reflexivity.
  - constructor; [|exact IH]. cbn [fst snd]. split; [exact RN|]. split; [exact RB|]. split; [exact RF|].
    exists os. split; [exact C|]. split; [exact RA|]. intros FC K KP FK EX. eapply tree_row_ratio; try eassumption. apply D. exact FC.
Qed.

(** With one iteration the column "gftformula" is a lower bound for "totalgftratio". *)
Theorem tree_experiment_single : forall M p0 fuel struct n m r row, 0 < M -> tree_input M p0 struct m ->
  tree_input_competitive M struct m -> tree_auction M (p0 m) fuel m struct = Ok r ->
  tree_experiment (fun m => tree_auction M (p0 m) fuel m struct) struct [(n, [m])] = Ok [row] ->
  0 < meanoptimalgft row -> gftformula row <= totalgftratio row.
Proof.
  intros M p0 fuel struct n m r row HM HI HC HR HE HG.
  destruct (tree_experiment_ok M p0 fuel struct [(n, [m])] HM) as (rows & E & F).
  { constructor; [|constructor]. cbn. repeat split; [discriminate|auto|]. constructor; [eauto|constructor]. }
  rewrite HE in E. injection E as <-. inversion F as [|? ? ? ? (_ & RB & RF & os & O & RA & RR) _]; subst. cbn [snd] in *.
  inversion O as [|? o ? os' _ O']; subst. inversion O'; subst.
  destruct RA as (_ & _ & RK & _ & _ & RG & _). unfold average in RK, RG. cbn in RK, RG. change (Qn 1) with 1 in RK, RG.
  set (k := inject_Z (Z.of_N (to_kmin o))) in *. assert (EK : meanoptimalkmin row == k) by (rewrite RK; field).
  assert (EG : meanoptimalgft row == to_opt o) by (rewrite RG; field).
  assert (K0 : 0 <= k) by (unfold k; change 0 with (inject_Z 0); rewrite <- Zle_Qle; lia).
  rewrite RF. destruct RB as (_ & _ & _ & (RB & _) & _).
  destruct (Qlt_le_dec 0 k) as [KP|KZ].
  - assert (X : 100 * (1 - 1 / k) <= totalgftratio row).
    { apply RR; [constructor; [exact HC|constructor]|exact KP|constructor; [apply Qle_refl|constructor]|constructor; lra]. }
    apply Q.max_lub; [exact RB|]. eapply Qle_trans; [|exact X]. rewrite EK.
    assert (Y : (k - 1) / (k + 1) <= 1 - 1 / k).
    { apply Qle_shift_div_r; [lra|]. setoid_replace ((1 - 1 / k) * (k + 1)) with ((k - 1) * ((k + 1) / k)) by (field; lra).
      setoid_replace ((k + 1) / k) with (1 + 1 / k) by (field; lra).
      assert (Z : 0 < 1 / k) by (apply Qlt_shift_div_l; lra).
      destruct (Qlt_le_dec k 1) as [L|G].
      - exfalso. unfold k in KP, L. change 0 with (inject_Z 0) in KP. change 1 with (inject_Z 1) in L. rewrite <- Zlt_Qlt in KP, L. lia.
      - nra. }
    lra.
  - assert (k == 0) by lra. apply Q.max_lub; [exact RB|]. rewrite EK, H. unfold Qdiv. setoid_replace ((0 - 1) * / (0 + 1) * 100) with (- (100)) by reflexivity. lra.
Qed.
