(** * C110: numbers of the categories and order of the children of a recipe tree *)

From Coq Require Import String List Arith Lia ZArith QArith Lqa Permutation.
From Verif Require Import Base Model_Agents Model_Trade Model_Prices Model_Market Model_RecipeTree Model_TreeAuction
  Model_IntTree Model_IntPrices Model_IntAuction Spec_RecipeTree Spec_TreeAuction Spec_Reorder Spec_Renumber Proof_Renumber Props_TreeAuction Props_Int.
Import ListNotations.
Open Scope Q_scope.

(** The binary tree auction: the market listed in the order [o], the tree renumbered accordingly and with the children of any
    node listed in any order.  If the linear program returns the same prices, with equal sums for all recipes, then the
    outcome is the same: the same remaining agents, prices, numbers of deals and gain. *)
Theorem C110_same_outcome : forall M p0 p0' fuel m o st st' r r' rs, is_order (length m) o ->
  tree_auction M p0 fuel m st = Ok r -> tree_auction M p0' fuel (reorder no_category o m) st' = Ok r' ->
  renumbered o (tt_tree r) (tt_tree r') ->
  recipes (length m) (tt_tree r) = Ok rs -> length p0 = length m -> Forall2 Qeq p0' (reorder 0 o p0) -> (exists S, equal_sums rs p0 S) ->
  tt_cats r' = reorder no_category o (tt_cats r) /\ Forall2 Qeq (tt_prices r') (reorder 0 o (tt_prices r))
  /\ tt_deals r' = tt_deals r /\ tt_kmin r' = tt_kmin r /\ tt_kmax r' = tt_kmax r /\ tt_gft r' == tt_gft r.
Proof. exact tree_renumber. Qed.
Print Assumptions C110_same_outcome.

(** And it does return, in the same number of rounds, if no category occurs twice in the tree. *)
Theorem C110_returns : forall M p0 p0' fuel m o st st' r t' rs, is_order (length m) o ->
  tree_auction M p0 fuel m st = Ok r -> new_tree (reorder no_category o m) st' = Ok t' ->
  renumbered o (tt_tree r) t' -> distinct_categories (tt_tree r) ->
  recipes (length m) (tt_tree r) = Ok rs -> length p0 = length m -> Forall2 Qeq p0' (reorder 0 o p0) -> (exists S, equal_sums rs p0 S) ->
  exists r', tree_auction M p0' fuel (reorder no_category o m) st' = Ok r' /\ tt_tree r' = t'.
Proof. exact tree_renumber_returns. Qed.
Print Assumptions C110_returns.

(** The market of the doctest, with the buyers listed last and the producers before the sellers. *)
Definition ren_order : list nat := [2; 3; 1; 0]%nat.
Definition ren_struct : pystruct := SList [SInt 3; SList [SInt 0; SList [SInt 1; SNone]; SInt 2; SNone]].
Definition ren_tree : rtree := Node 3 [Node 0 [Node 1 []]; Node 2 []].

Example C110_witness : is_order 4 ren_order /\ renumbered ren_order ex_tree ren_tree /\ (exists S, equal_sums ex_recipes ex_p0 S)
  /\ exists r r', tree_auction MAX_VALUE ex_p0 20 ex_market ex_struct = Ok r /\ tt_tree r = ex_tree /\ tt_deals r = 2%nat
     /\ tree_auction MAX_VALUE (reorder 0 ren_order ex_p0) 20 (reorder no_category ren_order ex_market) ren_struct = Ok r' /\ tt_tree r' = ren_tree
     /\ Forall2 Qeq (tt_prices r') [-(3); -(2); -(5); 5] /\ map cvalues (tt_cats r') = [[-(2)]; [-(1)]; [-(4)]; [27; 21; 17; 11]].
Proof.
  split; [|split; [|split]].
  - unfold is_order, ren_order. cbn [seq]. symmetry.
    apply (Permutation_trans (l' := [1; 2; 3; 0]%nat)); [apply (Permutation_cons_append [1; 2; 3]%nat)|].
    apply (Permutation_trans (l' := [2; 1; 3; 0]%nat)); [apply perm_swap|apply perm_skip; apply perm_swap].
  - apply (renumbered_node ren_order 3 [Node 1 []; Node 2 [Node 3 []]] [Node 2 [Node 3 []]; Node 1 []] [Node 0 [Node 1 []]; Node 2 []]);
      [cbn; lia|apply perm_swap|]. constructor; [|constructor; [|constructor]].
    + apply (renumbered_node ren_order 0 [Node 3 []] [Node 3 []] [Node 1 []]); [cbn; lia|apply Permutation_refl|]. constructor; [|constructor].
      apply (renumbered_node ren_order 1 [] [] []); [cbn; lia|constructor|constructor].
    + apply (renumbered_node ren_order 2 [] [] []); [cbn; lia|constructor|constructor].
  - apply ex_p0_ok.
  - eexists. eexists. split; [vm_compute; reflexivity|]. split; [reflexivity|]. split; [reflexivity|].
    split; [vm_compute; reflexivity|]. split; [reflexivity|]. split; [repeat constructor|reflexivity].
Qed.

(** The auction with agent counts is not invariant.  The market of its doctest, where a deal takes two sellers: with
    the producers listed before the sellers, other buyers remain and all prices differ. *)
Definition shuffled_struct : pystruct := SList [SInt 0; SList [SInt 2; SList [SInt 3; SNone]; SInt 1; SNone]].
Theorem C110_integer_children_refuted : exists r r',
  int_auction MAX_VALUE 20 ex_market ex_struct ex_counts = Ok r /\ int_auction MAX_VALUE 20 ex_market shuffled_struct ex_counts = Ok r'
  /\ tt_tree r = Node 0 [Node 1 []; Node 2 [Node 3 []]] /\ tt_tree r' = Node 0 [Node 2 [Node 3 []]; Node 1 []]
  /\ Forall2 Qeq (tt_prices r) [8; -(4); -(99999996); -(8)] /\ Forall2 Qeq (tt_prices r') [17; 99999983; -(11); -(6)]
  /\ map csize (tt_cats r) = [4; 0; 3; 2]%nat /\ map csize (tt_cats r') = [2; 0; 2; 2]%nat.
Proof.
  eexists. eexists. split; [vm_compute; reflexivity|]. split; [vm_compute; reflexivity|].
  split; [reflexivity|]. split; [reflexivity|]. split; [repeat constructor|]. split; [repeat constructor|]. split; reflexivity.
Qed.
Print Assumptions C110_integer_children_refuted.

(** Even with unit counts it depends on the numbers of the categories: with the buyers listed last it raises ValueError. *)
Theorem C110_integer_numbers_refuted : exists r, int_auction MAX_VALUE 20 ex_market ex_struct [] = Ok r /\ tt_deals r = 2%nat
  /\ forall fuel, int_auction MAX_VALUE fuel (reorder no_category [1; 2; 3; 0]%nat ex_market)
       (SList [SInt 3; SList [SInt 0; SNone; SInt 1; SList [SInt 2; SNone]]]) [] = Raise ValueError.
Proof. eexists. split; [vm_compute; reflexivity|]. split; [reflexivity|]. intros fuel. reflexivity. Qed.
Print Assumptions C110_integer_numbers_refuted.
