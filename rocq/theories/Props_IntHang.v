(** * C58: with counts above one a fork can run forever *)

From Coq Require Import String List Arith Lia QArith Lqa.
From Verif Require Import Base Model_Agents Model_Trade Model_Prices Model_Market Model_RecipeTree Model_TreeAuction Model_IntTree Model_IntPrices Model_IntAuction
  Spec_Market Spec_RecipeTree Spec_TreeAuction Spec_Int.
From Verif Require Import Proof_IntHang Proof_Int7 Props_TreeAuction.
Import ListNotations.
Open Scope Q_scope.
Open Scope string_scope.

(** Root with two leaves, agent counts 1, 1 and c >= 3 ("a buyer trades with one agent of the first kind, or with c of the second"): the
    auction never ends, whatever the values between -M and M, if the root has an agent and the first leaf has at least as many. *)
Theorem C58_fork_never_ends : forall M c c0 c1 c2 fuel, 0 < M -> (3 <= c)%nat ->
  (forall v, In v (cvalues c0) -> - M < v) -> (forall v, In v (cvalues c1) -> - M < v) -> (forall v, In v (cvalues c2) -> - M <= v <= M) ->
  (0 < csize c0 <= csize c1)%nat ->
  int_auction M fuel [c0; c1; c2] (SList [SInt 0; SList [SInt 1; SNone; SInt 2; SNone]]) [1%nat; 1%nat; c] = Timeout.
Proof. exact fork_hangs. Qed.
Print Assumptions C58_fork_never_ends.

(** So the conditions under which the binary auction ends (C38: agents in every category, small values, no ties, two levels) are not enough
    for counts above one. *)
Theorem C58_conditions_refuted : exists m counts t B,
  new_int_tree (clone_market m) counts (SList [SInt 0; SList [SInt 1; SNone; SInt 2; SNone]]) = Ok t
  /\ distinct_categories t /\ leaf_last t /\ positive_counts counts t /\ values_within B m /\ 2 * B * Qn (height t) <= MAX_VALUE /\ no_ties m
  /\ (forall i, In i (node_indices t) -> (0 < csize (cat_at m i))%nat) /\ (height t = 2)%nat
  /\ forall fuel, int_auction MAX_VALUE fuel m (SList [SInt 0; SList [SInt 1; SNone; SInt 2; SNone]]) counts = Timeout.
Proof.
  exists [mkCat "buyer" [100]; mkCat "seller" [-(1); -(2)]; mkCat "part" [-(3); -(4); -(5)]], [1; 1; 3]%nat, fork_tree, 100.
  split; [reflexivity|]. split; [unfold distinct_categories; simpl; repeat constructor; simpl; intuition discriminate|].
  split; [apply leaf_last_check; reflexivity|]. split; [intros i Hi; simpl in Hi; intuition subst; vm_compute; lia|].
  split; [unfold values_within; apply in_values; repeat constructor; unfold Qle; simpl; lia|]. split; [unfold Qle; simpl; lia|].
  split; [apply no_ties_intro; repeat constructor; simpl; intros F; discriminate F|].
  split; [intros i Hi; simpl in Hi; intuition subst; vm_compute; lia|]. split; [reflexivity|].
  intros fuel. apply fork_hangs; try reflexivity; try (vm_compute; lia).
  - intros v [<-|[]]; reflexivity.
  - intros v [<-|[<-|[]]]; reflexivity.
  - intros v [<-|[<-|[<-|[]]]]; split; vm_compute; discriminate.
Qed.
Print Assumptions C58_conditions_refuted.
