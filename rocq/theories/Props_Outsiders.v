(** * C114: agents whose values are below the price of their category do not matter *)

From Coq Require Import String List Arith QArith Permutation Lia Lqa.
From Verif Require Import Base Model_Agents Model_Trade Model_Prices Model_Market Model_Ascending Model_TradeReduction Model_McAfee
  Spec_Market Spec_Trade Spec_Ascending Spec_TradeReduction Spec_Statics Spec_Outsiders Spec_Reorder Spec_RecipeTree Spec_TreeAuction
  Model_RecipeTree Model_TreeAuction Proof_Outsiders Proof_Outsiders2 Proof_Outsiders3 Props_Better.
From Verif Require Props_TreeAuction Props_Initial.
Import ListNotations.
Open Scope Q_scope.

(** Add, remove and change any number of agents, in all categories at once; their values, before and after, are below the prices that the
    first auction ended with. The second auction ends with the same prices, the same remaining agents and the same number of deals. *)

Theorem C114_ascending : forall M rounds rounds' m m' recipe t t' P P', 0 < M -> values_at_least (- M) m -> values_at_least (- M) m' ->
  ascending_auction_M M rounds m recipe = Ok t -> ascending_auction_M M rounds' m' recipe = Ok t' ->
  tprices t = Some P -> tprices t' = Some P' -> differ_below P m m' ->
  Forall2 Qeq P P' /\ Forall2 same_agents (tcats t) (tcats t') /\ num_of_deals t' = num_of_deals t.
Proof. exact ascending_outsiders. Qed.
Print Assumptions C114_ascending.

(** Trade reduction, when there was a deal, with the zero-GFT deals included. *)
Theorem C114_trade_reduction : forall M cap m m' recipe t t' P, 0 < M -> ones_but_last recipe -> no_spare m recipe -> no_spare m' recipe ->
  values_small M recipe m -> values_small M recipe m' -> cap_suffices cap m recipe -> cap_suffices cap m' recipe ->
  trade_reduction_M M cap m recipe true = Ok t -> trade_reduction_M M cap m' recipe true = Ok t' ->
  tprices t = Some P -> (0 < num_of_deals t)%nat -> differ_below P m m' ->
  (exists P', tprices t' = Some P' /\ Forall2 Qeq P P') /\ Forall2 same_agents (tcats t) (tcats t') /\ num_of_deals t' = num_of_deals t.
Proof. exact reduction_outsiders. Qed.
Print Assumptions C114_trade_reduction.

Theorem C114_trade_reduction_ones : forall M cap m m' recipe t t' P, 0 < M -> all_ones recipe ->
  values_small M recipe m -> values_small M recipe m' -> cap_suffices cap m recipe -> cap_suffices cap m' recipe ->
  trade_reduction_M M cap m recipe true = Ok t -> trade_reduction_M M cap m' recipe true = Ok t' ->
  tprices t = Some P -> (0 < num_of_deals t)%nat -> differ_below P m m' ->
  (exists P', tprices t' = Some P' /\ Forall2 Qeq P P') /\ Forall2 same_agents (tcats t) (tcats t') /\ num_of_deals t' = num_of_deals t.
Proof. exact reduction_outsiders_ones. Qed.
Print Assumptions C114_trade_reduction_ones.

(** The tree auction. The changes are below the prices in all categories of the tree; there, the prices and the remaining agents are the same. *)
Theorem C114_tree : forall M B p p' fuel fuel' m m' st r r' rs, 0 < M -> length m' = length m ->
  tree_auction M p fuel m st = Ok r -> tree_auction M p' fuel' m' st = Ok r' -> recipes (length m) (tt_tree r) = Ok rs ->
  distinct_categories (tt_tree r) ->
  initial_prices_ok (length m) rs (- M) p -> initial_prices_ok (length m) rs (- M) p' ->
  values_within B m -> values_within B m' -> 2 * B * Qn (height (tt_tree r)) <= M -> no_ties m -> no_ties m' ->
  (forall i, In i (node_indices (tt_tree r)) -> (0 < csize (nth i m no_category))%nat /\ (0 < csize (nth i m' no_category))%nat) ->
  (forall i, In i (node_indices (tt_tree r)) -> category_differs_below (nth i (tt_prices r) 0) (nth i m no_category) (nth i m' no_category)) ->
  (0 < csize (nth (tindex (tt_tree r)) (tt_cats r) no_category))%nat ->
  forall i, In i (node_indices (tt_tree r)) ->
    nth i (tt_prices r') 0 == nth i (tt_prices r) 0 /\ same_agents (nth i (tt_cats r) no_category) (nth i (tt_cats r') no_category).
Proof. exact tree_outsiders. Qed.
Print Assumptions C114_tree.

(** ** Witnesses *)

Lemma differ_sides : forall p q b b' s s',
  category_differs_below p (new_category "buyer" b) (new_category "buyer" b') ->
  category_differs_below q (new_category "seller" s) (new_category "seller" s') -> differ_below [p; q] (two_sides b s) (two_sides b' s').
Proof. intros p q b b' s s' H1 H2. split; [reflexivity|]. intros [|[|j]] Hj; [exact H1|exact H2|cbn in Hj; lia]. Qed.

Ltac differ_with common low low' :=
  split; [reflexivity|]; exists common, low, low';
  split; [vm_compute; apply Permutation_refl|]; split; [vm_compute; apply Permutation_refl|]; split; repeat constructor.

(** Prices 10 and -10; the buyers 8 and 3 are replaced by 2, the sellers -12 and -30 by -11, -13 and -25. *)
Definition old_market : market := two_sides [20; 15; 10; 8; 3] [-(1); -(4); -(9); -(12); -(30)].
Definition new_market : market := two_sides [20; 15; 10; 2] [-(1); -(4); -(9); -(25); -(11); -(13)].

Lemma old_new : differ_below [10; -(10)] old_market new_market.
Proof. apply differ_sides; [differ_with [20; 15; 10] [8; 3] [2]|differ_with [-(1); -(4); -(9)] [-(12); -(30)] [-(11); -(13); -(25)]]. Qed.

Example C114_ascending_witness : exists t t' P P', 0 < 1000 /\ values_at_least (- 1000) old_market /\ values_at_least (- 1000) new_market
  /\ ascending_auction_M 1000 60 old_market [1; 1]%nat = Ok t /\ ascending_auction_M 1000 70 new_market [1; 1]%nat = Ok t'
  /\ tprices t = Some P /\ tprices t' = Some P' /\ differ_below P old_market new_market
  /\ P = [10; -(10)] /\ num_of_deals t = 2%nat /\ map csize (tcats t) = [2; 3]%nat.
Proof.
  do 4 eexists. split; [reflexivity|]. split; [concrete_values|]. split; [concrete_values|].
  split; [vm_compute; reflexivity|]. split; [vm_compute; reflexivity|]. split; [reflexivity|]. split; [reflexivity|].
  split; [exact old_new|]. split; [reflexivity|]. split; reflexivity.
Qed.

(** A buyer and two sellers per procurement-set, prices 18 and -9. *)
Example C114_ascending_two_witness : let m' := two_sides [20; 17; 17; 1] [-(1); -(4); -(9); -(10)] in
  exists t t' P P', values_at_least (- 1000) old_market /\ values_at_least (- 1000) m'
  /\ ascending_auction_M 1000 60 old_market [1; 2]%nat = Ok t /\ ascending_auction_M 1000 60 m' [1; 2]%nat = Ok t'
  /\ tprices t = Some P /\ tprices t' = Some P' /\ differ_below P old_market m'
  /\ P = [18; -(9)] /\ num_of_deals t = 1%nat.
Proof.
  cbv zeta. do 4 eexists. split; [concrete_values|]. split; [concrete_values|].
  split; [vm_compute; reflexivity|]. split; [vm_compute; reflexivity|]. split; [reflexivity|]. split; [reflexivity|].
  split; [apply differ_sides; [differ_with [20] [15; 10; 8; 3] [17; 17; 1]|differ_with [-(1); -(4); -(9)] [-(12); -(30)] [-(10)]]|].
  split; reflexivity.
Qed.

Ltac small_by_computation :=
  split; [concrete_values|]; exists [20; 0]; split;
  [constructor; [|constructor; [|constructor]]; (split; [discriminate|]); intros v Hv; vm_compute in Hv;
     repeat (destruct Hv as [<-|Hv]); try contradiction; vm_compute; discriminate
  |intros [|[|l]] r u Hr Hp Hu; cbn in Hr, Hu; [| |destruct l; discriminate]; injection Hr; injection Hu; intros <- <-; vm_compute; reflexivity].

Example C114_trade_reduction_witness : exists t t' P, all_ones [1; 1]%nat /\ values_small 1000 [1; 1]%nat old_market /\ values_small 1000 [1; 1]%nat new_market
  /\ cap_suffices 60 old_market [1; 1]%nat /\ cap_suffices 60 new_market [1; 1]%nat
  /\ trade_reduction_M 1000 60 old_market [1; 1]%nat true = Ok t /\ trade_reduction_M 1000 60 new_market [1; 1]%nat true = Ok t'
  /\ tprices t = Some P /\ (0 < num_of_deals t)%nat /\ differ_below P old_market new_market.
Proof.
  do 3 eexists. split; [repeat constructor|]. split; [small_by_computation|]. split; [small_by_computation|].
  split; [exists 0%nat; do 2 eexists; split; [reflexivity|]; split; [reflexivity|]; split; [lia|vm_compute; lia]|].
  split; [exists 0%nat; do 2 eexists; split; [reflexivity|]; split; [reflexivity|]; split; [lia|vm_compute; lia]|].
  split; [vm_compute; reflexivity|]. split; [vm_compute; reflexivity|]. split; [reflexivity|]. split; [vm_compute; lia|]. exact old_new.
Qed.

(** Categories 0 - 1 - 2 - 3 and 0 - 4 - 5, prices 18, -4, -9, -5, -9 and -9; five of the six categories change. *)
Definition changed_branches : market :=
  [mkCat "a" [23; 22; 21; 20; 17; 3]; mkCat "b" [-(2); -(4); -(5); -(7)]; mkCat "c" [-(4); -(9); -(10)]; mkCat "d" [-(5)];
   mkCat "e" [-(4); -(7); -(9); -(11)]; mkCat "f" [-(4); -(8); -(9)]].

Ltac differ_nodes common low low' :=
  split; [reflexivity|]; exists common, low, low';
  split; [apply Permutation_refl|]; split; [apply Permutation_refl|]; split; repeat constructor.

Example C114_tree_witness : let m := branch_market [-(4); -(9)] in
  no_ties m /\ no_ties changed_branches /\ values_within 30 m /\ values_within 30 changed_branches /\ 2 * 30 * Qn (height Props_Initial.two_tree) <= MAX_VALUE
  /\ initial_prices_ok 6 Props_Initial.two_recipes (- MAX_VALUE) Props_Initial.two_p
  /\ distinct_categories Props_Initial.two_tree
  /\ (forall i, In i (node_indices Props_Initial.two_tree) -> (0 < csize (nth i m no_category))%nat /\ (0 < csize (nth i changed_branches no_category))%nat)
  /\ exists r r', tree_auction MAX_VALUE Props_Initial.two_p 30 m Props_Initial.two_struct = Ok r
     /\ tree_auction MAX_VALUE Props_Initial.two_p 30 changed_branches Props_Initial.two_struct = Ok r'
     /\ tt_tree r = Props_Initial.two_tree /\ recipes 6 (tt_tree r) = Ok Props_Initial.two_recipes
     /\ (0 < csize (nth 0 (tt_cats r) no_category))%nat
     /\ (forall i, In i (node_indices (tt_tree r)) -> category_differs_below (nth i (tt_prices r) 0) (nth i m no_category) (nth i changed_branches no_category)).
Proof.
  cbv zeta. split; [|split; [|split; [|split; [|split; [|split; [|split; [|split]]]]]]].
  - apply Props_TreeAuction.no_ties_intro. unfold branch_market. repeat constructor; simpl; intros F; discriminate F.
  - apply Props_TreeAuction.no_ties_intro. unfold changed_branches. repeat constructor; simpl; intros F; discriminate F.
  - unfold values_within. apply Props_TreeAuction.in_values. repeat constructor; unfold Qle; simpl; lia.
  - unfold values_within. apply Props_TreeAuction.in_values. repeat constructor; unfold Qle; simpl; lia.
  - unfold Qle; simpl; lia.
  - apply Props_Initial.two_optimal.
  - exact Props_Initial.two_distinct.
  - intros i Hi. cbn in Hi. repeat destruct Hi as [<-|Hi]; try (split; vm_compute; lia); destruct Hi.
  - eexists. eexists. split; [vm_compute; reflexivity|]. split; [vm_compute; reflexivity|]. split; [reflexivity|]. split; [reflexivity|].
    split; [vm_compute; lia|]. intros i Hi. cbn in Hi. cbn [tt_prices].
    repeat destruct Hi as [<-|Hi]; try destruct Hi; unfold branch_market, changed_branches; cbn [nth].
    + differ_nodes [23; 22; 21; 20] (@nil Q) [17; 3].
    + differ_nodes [-(2); -(4)] [-(6)] [-(5); -(7)].
    + differ_nodes [-(4); -(9)] (@nil Q) [-(10)].
    + differ_nodes [-(5)] [-(6); -(8)] (@nil Q).
    + differ_nodes [-(4); -(7); -(9)] (@nil Q) [-(11)].
    + differ_nodes [-(4); -(8); -(9)] (@nil Q) (@nil Q).
Qed.

(** ** The limits *)

(** An agent whose value is the price matters: without the buyer 10, the buyers' price goes down to 9. *)
Theorem C114_at_the_price_refuted : exists t t' P P',
  ascending_auction_M 1000 60 old_market [1; 1]%nat = Ok t
  /\ ascending_auction_M 1000 60 (two_sides [20; 15; 8; 3] [-(1); -(4); -(9); -(12); -(30)]) [1; 1]%nat = Ok t'
  /\ tprices t = Some P /\ tprices t' = Some P' /\ nth 0 P 0 == 10 /\ nth 0 P' 0 == 9.
Proof.
  do 4 eexists. split; [vm_compute; reflexivity|]. split; [vm_compute; reflexivity|]. split; [reflexivity|]. split; [reflexivity|]. split; vm_compute; reflexivity.
Qed.
Print Assumptions C114_at_the_price_refuted.

(** McAfee's protocol: the sellers' price is 5. A seller asks for 6 instead of 20, both above the price. There are two deals instead of one,
    with and without the heuristic. *)
Theorem C114_mcafee_refuted : forall heuristic, exists t t' P,
  mcafee_M 1000 60 (two_sides [10; 9; 8] [-(1); -(5); -(20)]) [1; 1]%nat heuristic = Ok t
  /\ mcafee_M 1000 60 (two_sides [10; 9; 8] [-(1); -(5); -(6)]) [1; 1]%nat heuristic = Ok t'
  /\ tprices t = Some P /\ differ_below P (two_sides [10; 9; 8] [-(1); -(5); -(20)]) (two_sides [10; 9; 8] [-(1); -(5); -(6)])
  /\ num_of_deals t = 1%nat /\ num_of_deals t' = 2%nat.
Proof.
  assert (D : differ_below [9; -(5)] (two_sides [10; 9; 8] [-(1); -(5); -(20)]) (two_sides [10; 9; 8] [-(1); -(5); -(6)])).
  { apply differ_sides; [differ_with [10; 9; 8] (@nil Q) (@nil Q)|differ_with [-(1); -(5)] [-(20)] [-(6)]]. }
  intros [|]; do 3 eexists; (split; [vm_compute; reflexivity|]); (split; [vm_compute; reflexivity|]); (split; [reflexivity|]);
    (split; [exact D|]); split; vm_compute; reflexivity.
Qed.
Print Assumptions C114_mcafee_refuted.
