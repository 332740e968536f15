(** * Properties C55, C62: how much of the optimal trade the tree auction attains

    [tree_optimal_trade (clone_market m) t] = (deals, k, g) is what RecipeTree.optimal_trade() returns on the market before the
    auction: the list of deals (each a list of agents' values), their number and the total gain.  [rs] are the recipes. *)

From Coq Require Import String List Arith NArith Lia QArith Lqa Permutation Sorted.
From Verif Require Import Base Model_Agents Model_Trade Model_Prices Model_Market Model_RecipeTree Model_TreeAuction
  Spec_Market Spec_RecipeTree Spec_TreeAuction Spec_Ascending Proof_TA8 Proof_TA10 Proof_TA13 Props_TreeAuction.
Import ListNotations.
Open Scope Q_scope.
Open Scope string_scope.

(** ** C55: at most one deal per recipe is lost *)
Theorem C55_deals_lost : forall M B p0 fuel m st r rs opt k g, 0 < M ->
  tree_auction M p0 fuel m st = Ok r -> recipes (length m) (tt_tree r) = Ok rs ->
  distinct_categories (tt_tree r) -> initial_prices_ok (length m) rs (- M) p0 ->
  values_within B m -> 2 * B * Qn (height (tt_tree r)) <= M -> no_ties m ->
  (forall i, In i (node_indices (tt_tree r)) -> (0 < csize (cat_at m i))%nat) ->
  tree_optimal_trade (clone_market m) (tt_tree r) = Ok (opt, k, g) ->
  (k <= tt_deals r + length rs)%nat.
Proof. exact tree_efficiency. Qed.
Print Assumptions C55_deals_lost.

(** The doctest market meets the hypotheses; the optimum has 4 deals, the auction 2, and there are 2 recipes: the bound is attained. *)
Example C55_witness : exists r opt g, tree_auction MAX_VALUE ex_p0 20 ex_market ex_struct = Ok r
  /\ recipes 4 (tt_tree r) = Ok ex_recipes /\ distinct_categories (tt_tree r)
  /\ initial_prices_ok 4 ex_recipes (- MAX_VALUE) ex_p0 /\ values_within 27 ex_market
  /\ 2 * 27 * Qn (height (tt_tree r)) <= MAX_VALUE /\ no_ties ex_market
  /\ (forall i, In i (node_indices (tt_tree r)) -> (0 < csize (cat_at ex_market i))%nat)
  /\ tree_optimal_trade (clone_market ex_market) (tt_tree r) = Ok (opt, 4%nat, g)
  /\ tt_deals r = 2%nat /\ length ex_recipes = 2%nat.
Proof.
  destruct ex_run as (r & H & T & D & _). destruct C38_moderate_witness as (A & B & C & _). rewrite <- T in *.
  exists r. do 2 eexists.
  split; [exact H|]. split; [rewrite T; reflexivity|]. split; [rewrite T; exact ex_distinct|]. split; [exact ex_p0_ok|].
  split; [exact (proj1 ex_within)|]. split; [exact B|]. split; [exact A|]. split; [exact C|].
  split; [rewrite T; vm_compute; reflexivity|]. split; [exact D|reflexivity].
Qed.

(** Without the hypothesis on ties it fails: with a single recipe, both deals of the optimum are lost. *)
Theorem C55_ties_refuted : exists m st r rs p0 opt g,
  tree_auction MAX_VALUE p0 20 m st = Ok r /\ recipes (length m) (tt_tree r) = Ok rs /\ length rs = 1%nat
  /\ distinct_categories (tt_tree r) /\ initial_prices_optimal (length m) rs (- MAX_VALUE) p0 /\ values_within 10 m
  /\ (forall i, In i (node_indices (tt_tree r)) -> (0 < csize (cat_at m i))%nat)
  /\ tree_optimal_trade (clone_market m) (tt_tree r) = Ok (opt, 2%nat, g) /\ tt_deals r = 0%nat.
Proof.
  exists [mkCat "buyer" [9; 6]; mkCat "seller" [-(1); -(1)]; mkCat "mediator" [-(2); -(2)]],
    (SList [SInt 0; SList [SInt 1; SList [SInt 2; SNone]]]).
  eexists. exists [[1; 1; 1]]%nat, [- MAX_VALUE; - MAX_VALUE; - MAX_VALUE]. do 2 eexists.
  split; [vm_compute; reflexivity|]. split; [reflexivity|]. split; [reflexivity|]. split; [|split; [|split; [|split; [|split]]]].
  - unfold distinct_categories; simpl. repeat constructor; simpl; intuition discriminate.
  - apply (optimal_intro _ _ (Node 0 [Node 1 [Node 2 []]])); [repeat constructor| |reflexivity| |].
    + unfold distinct_categories; simpl. repeat constructor; simpl; intuition discriminate.
    + split; [reflexivity|]. split; [repeat constructor; unfold Qle; simpl; lia|].
      exists (- (3) * MAX_VALUE). intros r [<-|[]]; reflexivity.
    + intros r [<-|[]]; reflexivity.
  - unfold values_within. apply in_values. repeat constructor; unfold Qle; simpl; lia.
  - intros i [<-|[<-|[<-|[]]]]; vm_compute; lia.
  - vm_compute. reflexivity.
  - reflexivity.
Qed.
Print Assumptions C55_ties_refuted.

(** ** C62: the gain that is lost

    The gain of the trade is at least the gain of the optimal trade without at most one deal per recipe. *)
Theorem C62_gain_lost : forall M B p0 fuel m st r rs opt k g, 0 < M ->
  tree_auction M p0 fuel m st = Ok r -> recipes (length m) (tt_tree r) = Ok rs ->
  distinct_categories (tt_tree r) -> initial_prices_ok (length m) rs (- M) p0 ->
  values_within B m -> 2 * B * Qn (height (tt_tree r)) <= M -> no_ties m ->
  (forall i, In i (node_indices (tt_tree r)) -> (0 < csize (cat_at m i))%nat) ->
  tree_optimal_trade (clone_market m) (tt_tree r) = Ok (opt, k, g) ->
  exists lost kept, Permutation opt (lost ++ kept)%list /\ (length lost <= length rs)%nat /\ Qsum (map Qsum kept) <= tt_gft r.
Proof. exact tree_gain_loss. Qed.
Print Assumptions C62_gain_lost.

(** For the doctest market: of the 4 optimal deals of gains 24, 17, 12, 6 at most two are lost; the gain is 41 >= 12 + 6. *)
Example C62_witness : exists opt g, tree_optimal_trade (clone_market ex_market) ex_tree = Ok (opt, 4%nat, g)
  /\ Forall2 Qeq (map Qsum opt) [24; 17; 12; 6] /\ exists r, tree_auction MAX_VALUE ex_p0 20 ex_market ex_struct = Ok r /\ tt_gft r == 41.
Proof.
  do 2 eexists. split; [vm_compute; reflexivity|]. split; [vm_compute; repeat constructor|].
  destruct ex_run as (r & H & _ & _ & G & _). eauto.
Qed.

(** The lost deals need not be the least valuable ones, and the fraction of the gain that is lost is not bounded by
    (number of recipes) / k: here k = 3, there are two recipes, and the gain is 7 of 104. *)
Theorem C62_ratio_refuted : exists m st r rs p0 opt k g,
  tree_auction MAX_VALUE p0 20 m st = Ok r /\ recipes (length m) (tt_tree r) = Ok rs
  /\ distinct_categories (tt_tree r) /\ initial_prices_optimal (length m) rs (- MAX_VALUE) p0
  /\ values_within 100 m /\ 2 * 100 * Qn (height (tt_tree r)) <= MAX_VALUE /\ no_ties m
  /\ (forall i, In i (node_indices (tt_tree r)) -> (0 < csize (cat_at m i))%nat)
  /\ tree_optimal_trade (clone_market m) (tt_tree r) = Ok (opt, k, g) /\ (length rs < k)%nat
  /\ tt_gft r * Qn k < (Qn k - Qn (length rs)) * g.
Proof.
  exists [mkCat "a" [-(3); 2; 3]; mkCat "b" [100]; mkCat "c" [-(5)]; mkCat "d" [4; 3]],
    (SList [SInt 0; SList [SInt 1; SList [SInt 2; SNone]; SInt 3; SNone]]).
  eexists. exists [[1; 1; 1; 0]; [1; 0; 0; 1]]%nat, [- MAX_VALUE; - MAX_VALUE; - MAX_VALUE; - (2) * MAX_VALUE]. do 3 eexists.
  split; [vm_compute; reflexivity|]. split; [reflexivity|].
  split; [|split; [|split; [|split; [|split; [|split; [|split; [|split]]]]]]].
  - unfold distinct_categories; simpl. repeat constructor; simpl; intuition discriminate.
  - apply (optimal_intro _ _ (Node 0 [Node 1 [Node 2 []]; Node 3 []])); [repeat constructor| |reflexivity| |].
    + unfold distinct_categories; simpl. repeat constructor; simpl; intuition discriminate.
    + split; [reflexivity|]. split; [repeat constructor; unfold Qle; simpl; lia|].
      exists (- (3) * MAX_VALUE). intros r [<-|[<-|[]]]; reflexivity.
    + intros r [<-|[<-|[]]]; reflexivity.
  - unfold values_within. apply in_values. repeat constructor; unfold Qle; simpl; lia.
  - unfold Qle; simpl; lia.
  - apply no_ties_intro. repeat constructor; simpl; intros F; discriminate F.
  - intros i [<-|[<-|[<-|[<-|[]]]]]; vm_compute; lia.
  - vm_compute. reflexivity.
  - simpl. lia.
  - vm_compute. reflexivity.
Qed.
Print Assumptions C62_ratio_refuted.

(** ** C63: the competitive ratio

    [optimal_trade_with_counters] returns the optimal deals with their counters, their number, the optimal gain [g] and the
    smallest number [kmin] of optimal deals on one of the recipes it uses (99999 if there is no deal).
    The gain of the auction is at least the fraction 1 - 1/kmin of the optimal gain. *)
Theorem C63_ratio : forall M B p0 fuel m st r rs opt count g kmin kmax, 0 < M ->
  tree_auction M p0 fuel m st = Ok r -> recipes (length m) (tt_tree r) = Ok rs ->
  distinct_categories (tt_tree r) -> initial_prices_ok (length m) rs (- M) p0 ->
  values_within B m -> 2 * B * Qn (height (tt_tree r)) <= M -> no_ties m ->
  (forall i, In i (node_indices (tt_tree r)) -> (0 < csize (cat_at m i))%nat) ->
  optimal_trade_with_counters (clone_market m) (tt_tree r) = (opt, (count, g, kmin, kmax)) ->
  (1 - 1 / inject_Z (Z.of_N kmin)) * g <= tt_gft r.
Proof. exact tree_competitive. Qed.
Print Assumptions C63_ratio.

(** At most one deal is lost for every recipe that the optimal trade uses: the counter objects of the optimal deals are
    different for different recipes, and the same for deals of the same recipe (C33). *)
Theorem C63_deals_lost : forall M B p0 fuel m st r rs opt count g kmin kmax, 0 < M ->
  tree_auction M p0 fuel m st = Ok r -> recipes (length m) (tt_tree r) = Ok rs ->
  distinct_categories (tt_tree r) -> initial_prices_ok (length m) rs (- M) p0 ->
  values_within B m -> 2 * B * Qn (height (tt_tree r)) <= M -> no_ties m ->
  (forall i, In i (node_indices (tt_tree r)) -> (0 < csize (cat_at m i))%nat) ->
  optimal_trade_with_counters (clone_market m) (tt_tree r) = (opt, (count, g, kmin, kmax)) ->
  (N.to_nat count <= tt_deals r + length (nodup Nat.eq_dec (map snd opt)))%nat.
Proof. exact tree_used_recipes. Qed.
Print Assumptions C63_deals_lost.

(** A market with a single path: the optimum has three deals, kmin = 3, and the bound 2/3 is (nearly) attained. *)
Definition ratio_market : market :=
  [mkCat "buyer" [12; 11; 10]; mkCat "seller" [-(1); -(2); -(3)]].
Definition ratio_struct : pystruct := SList [SInt 0; SList [SInt 1; SNone]].
Definition ratio_p0 : list Q := [- MAX_VALUE; - MAX_VALUE].

Example C63_witness : exists r opt g, tree_auction MAX_VALUE ratio_p0 20 ratio_market ratio_struct = Ok r
  /\ recipes 2 (tt_tree r) = Ok [[1; 1]]%nat /\ distinct_categories (tt_tree r)
  /\ initial_prices_ok 2 [[1; 1]]%nat (- MAX_VALUE) ratio_p0 /\ values_within 12 ratio_market
  /\ 2 * 12 * Qn (height (tt_tree r)) <= MAX_VALUE /\ no_ties ratio_market
  /\ (forall i, In i (node_indices (tt_tree r)) -> (0 < csize (cat_at ratio_market i))%nat)
  /\ optimal_trade_with_counters (clone_market ratio_market) (tt_tree r) = (opt, (3%N, g, 3%N, 3%N))
  /\ g == 27 /\ tt_gft r == 20 /\ tt_deals r = 2%nat /\ length (nodup Nat.eq_dec (map snd opt)) = 1%nat.
Proof.
  do 3 eexists. split; [vm_compute; reflexivity|]. split; [reflexivity|].
  split; [unfold distinct_categories; simpl; repeat constructor; simpl; intuition discriminate|].
  split; [split; [reflexivity|split; [repeat constructor; unfold Qle; simpl; lia|exists (- (2) * MAX_VALUE); intros r [<-|[]]; reflexivity]]|].
  split; [unfold values_within; apply in_values; repeat constructor; unfold Qle; simpl; lia|].
  split; [unfold Qle; simpl; lia|].
  split; [apply no_ties_intro; repeat constructor; simpl; intros F; discriminate F|].
  split; [intros i [<-|[<-|[]]]; vm_compute; lia|].
  split; [vm_compute; reflexivity|]. repeat split; vm_compute; reflexivity.
Qed.

(** Without the hypothesis on ties the ratio fails: kmin = 2, and the whole gain is lost. *)
Theorem C63_ties_refuted : exists m st r rs p0 opt count g kmin kmax,
  tree_auction MAX_VALUE p0 20 m st = Ok r /\ recipes (length m) (tt_tree r) = Ok rs
  /\ distinct_categories (tt_tree r) /\ initial_prices_optimal (length m) rs (- MAX_VALUE) p0 /\ values_within 10 m
  /\ 2 * 10 * Qn (height (tt_tree r)) <= MAX_VALUE
  /\ (forall i, In i (node_indices (tt_tree r)) -> (0 < csize (cat_at m i))%nat)
  /\ optimal_trade_with_counters (clone_market m) (tt_tree r) = (opt, (count, g, kmin, kmax))
  /\ tt_gft r < (1 - 1 / inject_Z (Z.of_N kmin)) * g.
Proof.
  exists [mkCat "buyer" [9; 6]; mkCat "seller" [-(1); -(1)]; mkCat "mediator" [-(2); -(2)]],
    (SList [SInt 0; SList [SInt 1; SList [SInt 2; SNone]]]).
  eexists. exists [[1; 1; 1]]%nat, [- MAX_VALUE; - MAX_VALUE; - MAX_VALUE]. do 5 eexists.
  split; [vm_compute; reflexivity|]. split; [reflexivity|]. split; [|split; [|split; [|split; [|split; [|split]]]]].
  - unfold distinct_categories; simpl. repeat constructor; simpl; intuition discriminate.
  - apply (optimal_intro _ _ (Node 0 [Node 1 [Node 2 []]])); [repeat constructor| |reflexivity| |].
    + unfold distinct_categories; simpl. repeat constructor; simpl; intuition discriminate.
    + split; [reflexivity|]. split; [repeat constructor; unfold Qle; simpl; lia|].
      exists (- (3) * MAX_VALUE). intros r [<-|[]]; reflexivity.
    + intros r [<-|[]]; reflexivity.
  - unfold values_within. apply in_values. repeat constructor; unfold Qle; simpl; lia.
  - unfold Qle; simpl; lia.
  - intros i [<-|[<-|[<-|[]]]]; vm_compute; lia.
  - vm_compute. reflexivity.
  - vm_compute. reflexivity.
Qed.
Print Assumptions C63_ties_refuted.
