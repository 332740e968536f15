(** * Property C48: the order in which agents are listed does not matter *)

From Coq Require Import String List Arith QArith Permutation.
From Verif Require Import Base Model_Agents Model_Trade Model_Prices Model_Market Model_Ascending Model_TradeReduction Model_McAfee
  Model_RecipeTree Model_TreeAuction Model_IntPrices Model_IntTree Model_IntAuction Spec_Order Props_TreeAuction.
Import ListNotations.
Open Scope Q_scope.
Open Scope string_scope.

(** A category built from a list of values does not depend on their order. *)
Theorem C48_category : forall name l l', canonical l -> Permutation l l' -> new_category name l = new_category name l'.
Proof. intros name l l' C P. unfold new_category. f_equal. apply sort_desc_canonical; assumption. Qed.
Print Assumptions C48_category.

Lemma same_clone : forall m m', lowest_terms m -> same_agents m m' -> clone_market m = clone_market m'.
Proof.
  intros m m' C H. induction H as [|c c' m m' [H1 H2] H IH]; [reflexivity|]. inversion C; subst.
  unfold clone_market in *. cbn [map]. rewrite IH by assumption. f_equal. unfold clone. rewrite H1.
  apply C48_category; assumption.
Qed.

Lemma same_empty : forall m m', same_agents m m' -> empty_agent_categories m = empty_agent_categories m'.
Proof.
  intros m m' H. induction H as [|c c' m m' [H1 H2] H IH]; [reflexivity|]. unfold empty_agent_categories in *.
  cbn [map]. rewrite IH, H1. reflexivity.
Qed.

Lemma same_length : forall m m', same_agents m m' -> length m = length m'.
Proof. intros m m' H. induction H; simpl; congruence. Qed.

(** Every computation on markets gives the same result for both orders: the optimal trade, and the five auctions. *)
Theorem C48_optimal_trade : forall iterations m m' recipe z, lowest_terms m -> same_agents m m' ->
  optimal_trade iterations m recipe z = optimal_trade iterations m' recipe z.
Proof.
  intros iterations m m' recipe z C H. unfold optimal_trade. rewrite (same_clone m m' C H), (same_length m m' H). reflexivity.
Qed.
Print Assumptions C48_optimal_trade.

Theorem C48_ascending_auction : forall M fuel m m' recipe, lowest_terms m -> same_agents m m' ->
  ascending_auction_M M fuel m recipe = ascending_auction_M M fuel m' recipe.
Proof.
  intros M fuel m m' recipe C H. unfold ascending_auction_M, ascending_start.
  rewrite ?(same_clone m m' C H), ?(same_length m m' H), ?(same_empty m m' H), ?(C48_optimal_trade default_max_iterations m m' recipe true C H). reflexivity.
Qed.
Print Assumptions C48_ascending_auction.

Theorem C48_trade_reduction : forall M iterations m m' recipe z, lowest_terms m -> same_agents m m' ->
  trade_reduction_M M iterations m recipe z = trade_reduction_M M iterations m' recipe z.
Proof.
  intros M iterations m m' recipe z C H. unfold trade_reduction_M.
  rewrite (same_length m m' H), (same_empty m m' H), (C48_optimal_trade iterations m m' recipe true C H). reflexivity.
Qed.
Print Assumptions C48_trade_reduction.

Theorem C48_mcafee : forall M iterations m m' recipe h, lowest_terms m -> same_agents m m' ->
  mcafee_M M iterations m recipe h = mcafee_M M iterations m' recipe h.
Proof.
  intros M iterations m m' recipe h C H. unfold mcafee_M.
  rewrite ?(same_length m m' H), ?(same_empty m m' H), ?(C48_optimal_trade iterations m m' recipe _ C H). reflexivity.
Qed.
Print Assumptions C48_mcafee.

Theorem C48_tree_auction : forall M p0 fuel m m' st, lowest_terms m -> same_agents m m' ->
  tree_auction M p0 fuel m st = tree_auction M p0 fuel m' st.
Proof. intros M p0 fuel m m' st C H. unfold tree_auction. rewrite (same_clone m m' C H), ?(same_length m m' H). reflexivity. Qed.
Print Assumptions C48_tree_auction.

Theorem C48_integer_auction : forall M fuel m m' st counts, lowest_terms m -> same_agents m m' ->
  int_auction M fuel m st counts = int_auction M fuel m' st counts.
Proof. intros M fuel m m' st counts C H. unfold int_auction. rewrite (same_clone m m' C H), ?(same_length m m' H). reflexivity. Qed.
Print Assumptions C48_integer_auction.

Example C48_witness :
  let m' := [mkCat "buyer" [3; 27; 11; 17; 21]; mkCat "seller" [-(11); -(5); -(4)];
             mkCat "producerA" [-(2); -(11); -(3)]; mkCat "producerB" [-(8); -(2); -(1)]] in
  lowest_terms ex_market /\ same_agents ex_market m' /\ m' <> ex_market
  /\ exists r, tree_auction MAX_VALUE ex_p0 20 m' ex_struct = Ok r /\ tt_deals r = 2%nat.
Proof.
  cbv zeta. split; [repeat constructor|]. split.
  - unfold same_agents, ex_market. constructor; [|constructor; [|constructor; [|constructor; [|constructor]]]]; (split; [reflexivity|simpl]).
    + apply (Permutation_trans (l' := [3; 27; 21; 17; 11])).
      * apply Permutation_sym. apply (Permutation_cons_append [27; 21; 17; 11] 3).
      * apply perm_skip. apply perm_skip. apply (Permutation_trans (l' := [11; 21; 17])).
        -- apply Permutation_sym. apply (Permutation_cons_append [21; 17] 11).
        -- apply perm_skip. apply perm_swap.
    + apply (Permutation_rev [-(4); -(5); -(11)]).
    + apply perm_skip. apply perm_swap.
    + apply (Permutation_rev [-(1); -(2); -(8)]).
  - split; [discriminate|]. eexists. split; [vm_compute; reflexivity|reflexivity].
Qed.
