(** * Agents left out: the recipe-tree auction (C82) *)

From Coq Require Import String List Arith Lia QArith Lqa Permutation Sorted.
From Verif Require Import Base Model_Agents Model_Trade Model_Prices Model_Market Model_Ascending Model_RecipeTree Model_TreeAuction
  Spec_Market Spec_TradeReduction Spec_RecipeTree Spec_TreeAuction Spec_Stable Proof_Market Proof_Ascending Proof_Ascending4 Proof_Deals
  Proof_Stable Proof_Stable2 Proof_TA1 Proof_TA2 Proof_TA3.
Import ListNotations.
Open Scope Q_scope.

Lemma tree_best_kept : forall M p0 fuel m st r rs, 0 < M ->
  tree_auction M p0 fuel m st = Ok r -> recipes (length m) (tt_tree r) = Ok rs ->
  initial_prices_ok (length m) rs (- M) p0 -> values_above (- M) m -> best_kept m (tt_cats r).
Proof.
  intros M p0 fuel m st r rs HM H Hrs HP HV.
  destruct (tree_weakest M p0 fuel m st r rs HM H Hrs HP HV) as [L1 [L2 W]]. split; [assumption|].
  intros i c0 c H0 Hc. assert (Hi : (i < length m)%nat) by (apply nth_error_Some; congruence).
  destruct (nth_error (tt_prices r) i) as [p|] eqn:Ep; [|apply nth_error_None in Ep; lia].
  destruct (W _ _ _ _ H0 Hc Ep) as [_ [Hd [gone [G1 [G2 _]]]]]. split; [assumption|].
  exists gone. split; [apply perm_same; assumption|assumption].
Qed.

(** The final sums are not positive. *)
Lemma tree_final_sums : forall M p0 fuel m st r rs, 0 < M ->
  tree_auction M p0 fuel m st = Ok r -> recipes (length m) (tt_tree r) = Ok rs ->
  initial_prices_ok (length m) rs (- M) p0 -> values_above (- M) m ->
  exists S, equal_sums rs (tt_prices r) S /\ S <= 0.
Proof.
  intros M p0 fuel m st r rs HM H Hrs HP HV.
  destruct (auction_final _ _ _ _ _ _ _ HM H Hrs HP HV) as (sp & s & s' & R & V & I0 & EP & I & HR).
  assert (SU := rt_setup _ _ _ _ _ _ _ _ _ R).
  rewrite (rt_prices _ _ _ _ _ _ _ _ _ R).
  destruct (ia_good _ _ _ _ I) as [S [G NS]].
  destruct (round_inv _ _ _ _ _ _ _ _ SU G HR) as [(_ & -> & Z)|[d [MV [G' [[_ [Hd E]]|[X _]]]]]]; [| |discriminate].
  - exists S. split; [apply (g_sums _ _ _ _ G)|lra].
  - eexists. split; [apply (g_sums _ _ _ _ G')|]. lra.
Qed.

Theorem tree_stable : forall M p0 fuel m st r rs, 0 < M ->
  tree_auction M p0 fuel m st = Ok r -> recipes (length m) (tt_tree r) = Ok rs ->
  initial_prices_ok (length m) rs (- M) p0 -> values_above (- M) m -> values_below M m ->
  no_envy m (tt_cats r) (tt_prices r) /\ forall recipe, In recipe rs -> nothing_left m recipe (tt_cats r).
Proof.
  intros M p0 fuel m st r rs HM H Hrs HP HV HB.
  assert (Hb := tree_best_kept _ _ _ _ _ _ _ HM H Hrs HP HV).
  destruct (tree_final_sums _ _ _ _ _ _ _ HM H Hrs HP HV) as [S [HS HS0]].
  destruct (tree_weakest M p0 fuel m st r rs HM H Hrs HP HV) as [L1 [L2 W]].
  destruct (auction_final _ _ _ _ _ _ _ HM H Hrs HP HV) as (sp & s & s' & R & V & I0 & EP & I & HR).
  assert (SU := rt_setup _ _ _ _ _ _ _ _ _ R).
  assert (G : forall j y, (j < length m)%nat -> In y (skipn (csize (nth j (tt_cats r) dcat)) (vals (clone_market m) j)) -> y <= nth j (tt_prices r) 0).
  { intros j y Hj Hy.
    destruct (nth_error m j) as [c0|] eqn:E0; [|apply nth_error_None in E0; lia].
    destruct (nth_error (tt_cats r) j) as [c|] eqn:Ec; [|apply nth_error_None in Ec; lia].
    destruct (nth_error (tt_prices r) j) as [p|] eqn:Ep; [|apply nth_error_None in Ep; lia].
    destruct (W _ _ _ _ E0 Ec Ep) as [_ [Hd [gone [G1 [G2 G3]]]]]. specialize (G3 HB).
    rewrite (nth_error_nth _ _ dcat Ec) in Hy. rewrite (nth_error_nth _ _ 0 Ep).
    unfold vals in Hy. rewrite (nth_error_nth _ _ dcat (clone_nth' _ _ _ E0)) in Hy. cbn [cvalues] in Hy.
    assert (X := rest_sorted (cvalues c) gone gone (cvalues c0) Hd (perm_same _ _ G1) G2 (perm_same _ _ G1)).
    apply qeq_sym in X. destruct (qeq_In _ _ _ X Hy) as [y' [Hy1 Ey]]. rewrite Ey. apply G3.
    eapply Permutation_in; [apply sort_desc_perm|exact Hy1]. }
  split.
  - apply no_envy_of; [assumption|]. intros j p y Hp Hj Hy. rewrite <- (nth_error_nth _ _ 0 Hp). apply G; assumption.
  - intros recipe Hin.
    assert (Hl : length recipe = length m).
    { destruct SU as [_ SU]. clear - SU Hin. induction SU as [|a b l l' Hab _ IH]; [destruct Hin|].
      destruct Hin as [->|Hin]; [|auto]. apply Hab. }
    apply stable_prices with (p := fun j => nth j (tt_prices r) 0); try assumption.
    + rewrite <- dot_wdot by lia. rewrite (HS _ Hin). assumption.
    + intros j y Hj _ Hy. apply G; assumption.
Qed.
