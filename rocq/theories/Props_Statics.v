(** * C96: a better market has a better optimal trade; the auctions do not always follow *)

From Coq Require Import String List Arith QArith Permutation Lia Lqa.
From Verif Require Import Base Model_Agents Model_Trade Model_Prices Model_Market Model_RecipeTree Model_IntTree Model_Ascending
  Model_TradeReduction Model_McAfee Spec_Market Spec_RecipeTree Spec_Int Spec_Statics Proof_Statics Proof_Statics2 Proof_Statics3.
From Verif Require Props_Ascending Props_RecipeTree.
Import ListNotations.
Open Scope Q_scope.

(** ** Market.optimal_trade *)

(** If values go up and agents are added, neither the number of deals nor the gain of the optimal trade goes down. *)
Theorem C96_optimal_monotone : forall cap m m' recipe z D R D' R', improves m m' ->
  optimal_trade cap m recipe z = Ok (D, R) -> optimal_trade cap m' recipe z = Ok (D', R') ->
  (length D <= length D')%nat /\ mt_gain_from_trade D <= mt_gain_from_trade D'.
Proof. exact optimal_improves. Qed.
Print Assumptions C96_optimal_monotone.

(** If only values go up, the gain does not grow by more than the values. *)
Theorem C96_optimal_lipschitz : forall cap m m' recipe z D R D' R', raised m m' ->
  optimal_trade cap m recipe z = Ok (D, R) -> optimal_trade cap m' recipe z = Ok (D', R') ->
  mt_gain_from_trade D' <= mt_gain_from_trade D + (total_value m' - total_value m).
Proof. exact optimal_raised. Qed.
Print Assumptions C96_optimal_lipschitz.

(** ** RecipeTree.optimal_trade and RecipeTree.optimal_trade_GFT *)

Theorem C96_tree_monotone : forall cats cats' t opt n g opt' n' g', improves cats cats' -> sorted_cats cats -> sorted_cats cats' ->
  tree_optimal_trade cats t = Ok (opt, n, g) -> tree_optimal_trade cats' t = Ok (opt', n', g') ->
  (n <= n')%nat /\ g <= g'.
Proof. exact tree_trade_improves. Qed.
Print Assumptions C96_tree_monotone.

Theorem C96_tree_lipschitz : forall cats cats' t, raised cats cats' -> sorted_cats cats -> sorted_cats cats' -> distinct_categories t ->
  optimal_trade_GFT cats t <= optimal_trade_GFT cats' t
  /\ optimal_trade_GFT cats' t <= optimal_trade_GFT cats t + (total_value cats' - total_value cats).
Proof.
  intros cats cats' t H S S' HD. split; [|apply tree_raised; assumption].
  apply tree_improves; try assumption. apply raised_market_improves. assumption.
Qed.
Print Assumptions C96_tree_lipschitz.

(** ** The integer recipe tree *)

Theorem C96_int_monotone : forall cats cats' counts t opt n g opt' n' g', improves cats cats' -> positive_counts counts t ->
  int_optimal_trade cats counts t = (opt, n, g) -> int_optimal_trade cats' counts t = (opt', n', g') ->
  (n <= n')%nat /\ g <= g' /\ int_optimal_trade_GFT cats counts t <= int_optimal_trade_GFT cats' counts t.
Proof. exact int_improves. Qed.
Print Assumptions C96_int_monotone.

Theorem C96_int_lipschitz : forall cats cats' counts t, raised cats cats' -> positive_counts counts t -> distinct_categories t ->
  int_optimal_trade_GFT cats' counts t <= int_optimal_trade_GFT cats counts t + (total_value cats' - total_value cats).
Proof. exact int_raised. Qed.
Print Assumptions C96_int_lipschitz.

(** ** McAfee's protocol without the heuristic gives up exactly one optimal deal, so it is monotone too. *)
Theorem C96_mcafee_monotone : forall M cap m m' recipe t t' g g', improves m m' ->
  mcafee_M M cap m recipe false = Ok t -> mcafee_M M cap m' recipe false = Ok t' ->
  gain_from_trade t true = Ok g -> gain_from_trade t' true = Ok g' ->
  (num_of_deals t <= num_of_deals t')%nat /\ g <= g'.
Proof. exact mcafee_improves. Qed.
Print Assumptions C96_mcafee_monotone.

(** ** Witnesses *)

Definition ex_small : market := [new_category "buyer" [5; 1]; new_category "seller" [-(2); -(4)]].
(** The second buyer raises his value from 1 to 5. *)
Definition ex_large : market := [new_category "buyer" [5; 5]; new_category "seller" [-(2); -(4)]].

Lemma ex_raised : raised ex_small ex_large.
Proof.
  constructor; [|constructor; [|constructor]].
  - exists [5; 5]. split; [apply Permutation_refl|]. constructor; [lra|]. constructor; [lra|]. constructor.
  - exists [-(2); -(4)]. split; [apply Permutation_refl|]. constructor; [lra|]. constructor; [lra|]. constructor.
Qed.

Example C96_optimal_witness : improves ex_small ex_large /\ exists D R D' R',
  optimal_trade 100 ex_small [1; 1]%nat true = Ok (D, R) /\ optimal_trade 100 ex_large [1; 1]%nat true = Ok (D', R')
  /\ length D = 1%nat /\ length D' = 2%nat /\ mt_gain_from_trade D == 3 /\ mt_gain_from_trade D' == 4
  /\ total_value ex_large - total_value ex_small == 4.
Proof.
  split; [apply raised_market_improves, ex_raised|].
  do 4 eexists. split; [vm_compute; reflexivity|]. split; [vm_compute; reflexivity|].
  split; [reflexivity|]. split; [reflexivity|]. split; [vm_compute; reflexivity|]. split; vm_compute; reflexivity.
Qed.

Example C96_tree_witness : raised ex_small ex_large /\ sorted_cats ex_small /\ sorted_cats ex_large
  /\ distinct_categories (Node 0 [Node 1 []])
  /\ optimal_trade_GFT ex_small (Node 0 [Node 1 []]) == 3 /\ optimal_trade_GFT ex_large (Node 0 [Node 1 []]) == 4
  /\ int_optimal_trade_GFT ex_small [1; 2]%nat (Node 0 [Node 1 []]) == 0
  /\ int_optimal_trade_GFT (set_nth 0 (new_category "buyer" [7]) ex_small) [1; 2]%nat (Node 0 [Node 1 []]) == 1.
Proof.
  split; [exact ex_raised|].
  assert (S : forall a b c d, b <= a -> d <= c -> sorted_cats [mkCat "buyer" [a; b]; mkCat "seller" [c; d]]).
  { intros a b c d H1 H2. unfold sorted_cats, desc. repeat (constructor; try assumption). }
  split; [apply S; lra|]. split; [apply S; lra|].
  split; [repeat constructor; simpl; intuition congruence|]. split; [vm_compute; reflexivity|]. split; [vm_compute; reflexivity|].
  split; vm_compute; reflexivity.
Qed.

Example C96_mcafee_witness : exists t t' g g',
  mcafee_M 100 100 ex_small [1; 1]%nat false = Ok t /\ mcafee_M 100 100 ex_large [1; 1]%nat false = Ok t'
  /\ gain_from_trade t true = Ok g /\ gain_from_trade t' true = Ok g' /\ g == 0 /\ g' == 3.
Proof.
  do 4 eexists. split; [vm_compute; reflexivity|]. split; [vm_compute; reflexivity|]. split; [vm_compute; reflexivity|].
  split; [vm_compute; reflexivity|]. split; reflexivity.
Qed.

(** ** The auctions are not monotone: a buyer raises his value, the optimal gain goes up from 3 to 4, and the gain of the outcome of
    the ascending auction and of trade reduction goes down; so it does with the heuristic of McAfee's protocol. *)

Theorem C96_auctions_refuted :
  (exists t t' g g', raised ex_small ex_large
    /\ ascending_auction_M 100 60 ex_small [1; 1]%nat = Ok t /\ ascending_auction_M 100 60 ex_large [1; 1]%nat = Ok t'
    /\ gain_from_trade t true = Ok g /\ gain_from_trade t' true = Ok g' /\ g' < g)
  /\ (exists t t' g g', raised ex_small ex_large
    /\ trade_reduction_M 100 60 ex_small [1; 1]%nat true = Ok t /\ trade_reduction_M 100 60 ex_large [1; 1]%nat true = Ok t'
    /\ gain_from_trade t true = Ok g /\ gain_from_trade t' true = Ok g' /\ g' < g)
  /\ (exists m m' t t' g g', raised m m'
    /\ mcafee_M 100 60 m [1; 1]%nat true = Ok t /\ mcafee_M 100 60 m' [1; 1]%nat true = Ok t'
    /\ gain_from_trade t true = Ok g /\ gain_from_trade t' true = Ok g' /\ g' < g).
Proof.
  split; [|split].
  - do 4 eexists. split; [exact ex_raised|]. split; [vm_compute; reflexivity|]. split; [vm_compute; reflexivity|].
    split; [vm_compute; reflexivity|]. split; [vm_compute; reflexivity|]. vm_compute. reflexivity.
  - do 4 eexists. split; [exact ex_raised|]. split; [vm_compute; reflexivity|]. split; [vm_compute; reflexivity|].
    split; [vm_compute; reflexivity|]. split; [vm_compute; reflexivity|]. vm_compute. reflexivity.
  - exists [new_category "buyer" [10; 0]; new_category "seller" [-(1); -(12)]],
      [new_category "buyer" [10; 9]; new_category "seller" [-(1); -(12)]].
    do 4 eexists. split.
    { constructor; [|constructor; [|constructor]].
      - exists [10; 9]. split; [apply Permutation_refl|]. constructor; [lra|]. constructor; [lra|]. constructor.
      - exists [-(1); -(12)]. split; [apply Permutation_refl|]. constructor; [lra|]. constructor; [lra|]. constructor. }
    split; [vm_compute; reflexivity|]. split; [vm_compute; reflexivity|].
    split; [vm_compute; reflexivity|]. split; [vm_compute; reflexivity|]. vm_compute. reflexivity.
Qed.
Print Assumptions C96_auctions_refuted.
