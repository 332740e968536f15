(** * The integer auction with unit counts and ties (C58) *)

From Coq Require Import String List Arith Lia QArith Lqa.
From Verif Require Import Base Model_Agents Model_Market Model_RecipeTree Model_TreeAuction Model_IntTree Model_IntAuction
  Spec_Market Spec_RecipeTree Spec_TreeAuction Spec_Int Spec_Ties Proof_TA14 Proof_Int5 Proof_Int7.
Import ListNotations.
Open Scope Q_scope.

Theorem int_unit_ties_terminates : forall M B fuel m st counts t, 0 < M -> new_int_tree (clone_market m) counts st = Ok t ->
  unit_counts counts t -> distinct_categories t -> leaf_last t -> tchildren t <> [] ->
  values_within B m -> 2 * B * Qn (height t) <= M -> (forall i, deep_inner t i -> distinct_values (cat_at m i)) ->
  (forall i, In i (node_indices t) -> (0 < csize (cat_at m i))%nat) -> (agents_number m < fuel)%nat ->
  exists r, int_auction M fuel m st counts = Ok r.
Proof.
  intros M B fuel m st counts t HM HT HU HD HL HC HV HB NT NE HF.
  destruct (int_unit_start M m st counts t ltac:(lra) HT HU HD HL) as (rs & p0 & E1 & E2 & E3).
  assert (X := int_unit_same M fuel m st counts t rs p0 HT HU HD HC E1 E2).
  destruct (ties_terminates M B p0 fuel m st t rs) as [r' R]; try assumption; [eapply int_tree_binary; eassumption|].
  rewrite R in X. destruct (int_auction M fuel m st counts) as [r|e|]; try contradiction. eauto.
Qed.
