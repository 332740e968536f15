(** * Properties C42 - C47, C56 - C59: the integer versions (recipes with agent counts)

    [int_auction M fuel m st counts] models [budget_balanced_ascending_auction(market, ps_recipe_struct, agent_counts)]
    of ascending_auction_recipetree_integer_protocol.py: [M] is MAX_VALUE, [fuel] bounds the number of rounds
    ([Timeout]: not yet finished), [counts = []] stands for the default None. *)

From Coq Require Import String List Arith Lia QArith Lqa Permutation Sorted NArith.
From Verif Require Import Base Model_Agents Model_Trade Model_Prices Model_Market Model_RecipeTree Model_TreeAuction
  Model_IntPrices Model_IntTree Model_IntAuction
  Spec_Market Spec_RecipeTree Spec_TreeAuction Spec_Ascending Spec_Int
  Proof_TA7 Proof_TA8 Proof_Int2 Proof_Int3 Proof_Int4 Proof_Int6 Proof_Int7 Props_TreeAuction.
Import ListNotations.
Open Scope Q_scope.
Open Scope string_scope.

(** ** Examples: the doctest market with agent counts; 1 buyer deals with 2 sellers *)
Definition ex_counts : list nat := [1; 2; 1; 1]%nat.
Definition pair_struct : pystruct := SList [SInt 0; SList [SInt 1; SNone]].
Definition pair_tree : rtree := Node 0 [Node 1 []].
Definition pair_market (buyers sellers : list Q) : market := [mkCat "buyer" buyers; mkCat "seller" sellers].

Example ex_int_built : new_int_tree (clone_market ex_market) ex_counts ex_struct = Ok ex_tree
  /\ int_recipes 4 ex_counts ex_tree = Ok [[1; 2; 0; 0]; [1; 0; 1; 1]]%nat
  /\ leaf_last ex_tree /\ positive_counts ex_counts ex_tree.
Proof.
  split; [reflexivity|]. split; [reflexivity|]. split; [apply leaf_last_check; reflexivity|].
  intros i Hi. simpl in Hi. intuition subst; vm_compute; lia.
Qed.
Example pair_built : forall b s c, new_int_tree (clone_market (pair_market b s)) c pair_struct =
    (match c with [] => Ok pair_tree | [_] => Raise IndexError | _ => Ok pair_tree end)
  /\ leaf_last pair_tree /\ distinct_categories pair_tree /\ single_path pair_tree.
Proof.
  intros b s c. split; [destruct c as [|x [|y [|z c]]]; reflexivity|]. split; [apply leaf_last_check; reflexivity|].
  split; [|repeat constructor]. unfold distinct_categories. simpl. repeat constructor; simpl; intuition discriminate.
Qed.

(** ** C42: calculate_initial_prices of the integer version *)

(** The prices it returns are never above the bound (a non-positive number). *)
Theorem C42_upper_bound : forall r0 rs bound p, bound <= 0 -> int_initial_prices (r0 :: rs) bound = Ok p ->
  length p = length r0 /\ Forall (fun q => q <= bound) p.
Proof. exact int_initial_upper. Qed.
Print Assumptions C42_upper_bound.

(** If the last category of each recipe is in no other recipe, it returns prices, and all recipes have the same sum,
    which is the bound times the largest number of agents in a recipe. *)
Theorem C42_equal_sums : forall rs bound n, rs <> [] ->
  (forall r, In r rs -> length r = n /\ exists j, last_category r j) -> private_last rs ->
  exists p, int_initial_prices rs bound = Ok p /\ length p = n
    /\ forall r, In r rs -> dot p r == bound * Qn (max_weight rs).
Proof. exact int_initial_equal. Qed.
Print Assumptions C42_equal_sums.

(** In particular for the recipes of a tree with distinct categories, where each leaf comes after its ancestors. *)
Theorem C42_tree : forall n counts t rs bound, distinct_categories t -> positive_counts counts t ->
  indices_in_range n t -> leaf_last t -> (counts = [] \/ length counts = n) -> int_recipes n counts t = Ok rs ->
  exists p, int_initial_prices rs bound = Ok p /\ length p = n
    /\ (bound <= 0 -> Forall (fun q => q <= bound) p) /\ equal_sums rs p (bound * Qn (max_weight rs)).
Proof. exact int_initial_tree. Qed.
Print Assumptions C42_tree.

Example C42_witness : int_recipes 4 ex_counts ex_tree = Ok [[1; 2; 0; 0]; [1; 0; 1; 1]]%nat
  /\ match int_initial_prices [[1; 2; 0; 0]; [1; 0; 1; 1]]%nat (-(100)) with
     | Ok p => Forall2 Qeq p [-(100); -(100); -(100); -(100)] | _ => False end
  /\ match int_initial_prices [[1; 2; 0; 0]; [1; 0; 1; 0]]%nat (-(100)) with
     | Ok p => Forall2 Qeq p [-(100); -(100); -(200); -(100)] | _ => False end
  /\ max_weight [[1; 2; 0; 0]; [1; 0; 1; 0]]%nat = 3%nat.
Proof. vm_compute. repeat split; repeat constructor. Qed.

(** When an inner category comes last the sums can differ, and no error is reported. *)
Theorem C42_unordered_refuted : exists t rs p, distinct_categories t /\ indices_in_range 4 t
  /\ int_recipes 4 [] t = Ok rs /\ int_initial_prices rs (-(1)) = Ok p /\ forall S, ~ equal_sums rs p S.
Proof.
  exists (Node 3 [Node 0 [Node 1 []]; Node 2 []]), [[1; 1; 0; 1]; [0; 0; 1; 1]]%nat, [-(1); -(1); -(1); -(2)].
  split; [unfold distinct_categories; simpl; repeat constructor; simpl; intuition discriminate|].
  split; [unfold indices_in_range; repeat constructor|]. split; [reflexivity|]. split; [vm_compute; reflexivity|].
  intros S H. assert (H1 := H _ (or_introl eq_refl)). assert (H2 := H _ (or_intror (or_introl eq_refl))).
  rewrite <- H1 in H2. vm_compute in H2. discriminate.
Qed.
Print Assumptions C42_unordered_refuted.

(** Or the call fails: with three recipes of the same last category, the second price change is refused. *)
Example C42_error : int_initial_prices [[1; 0; 1]; [0; 0; 1]; [0; 1; 1]]%nat (-(1)) = Raise ValueError.
Proof. vm_compute. reflexivity. Qed.

(** ** C43: individual rationality, and the best agents remain, for all counts *)
Theorem C43_individual_rationality : forall M fuel m st counts r, 0 <= M -> int_auction M fuel m st counts = Ok r ->
  distinct_categories (tt_tree r) -> values_above (- M) m ->
  forall i c p v, nth_error (tt_cats r) i = Some c -> nth_error (tt_prices r) i = Some p -> In v (cvalues c) -> p <= v.
Proof. exact int_ir. Qed.
Print Assumptions C43_individual_rationality.

Theorem C43_best_agents_remain : forall M fuel m st counts r, 0 <= M -> int_auction M fuel m st counts = Ok r ->
  distinct_categories (tt_tree r) -> values_above (- M) m ->
  (length (tt_cats r) = length m)%nat /\ (length (tt_prices r) = length m)%nat /\
  (forall i c0 c, nth_error m i = Some c0 -> nth_error (tt_cats r) i = Some c ->
    cname c = cname c0 /\ desc (cvalues c) /\
    exists gone, Permutation (cvalues c ++ gone)%list (cvalues c0) /\ (forall x y, In x (cvalues c) -> In y gone -> y <= x)).
Proof. exact int_best_remain. Qed.
Print Assumptions C43_best_agents_remain.

(** The doctest market where a deal with the sellers' category takes two sellers. *)
Example C43_witness : exists r, int_auction MAX_VALUE 20 ex_market ex_struct ex_counts = Ok r
  /\ tt_tree r = ex_tree /\ distinct_categories (tt_tree r) /\ values_above (- MAX_VALUE) ex_market
  /\ Forall2 Qeq (tt_prices r) [8; -(4); -(99999996); -(8)]
  /\ map cvalues (tt_cats r) = [[27; 21; 17; 11]; []; [-(2); -(3); -(11)]; [-(1); -(2)]] /\ tt_deals r = 2%nat.
Proof.
  eexists. split; [vm_compute; reflexivity|]. split; [reflexivity|]. split; [exact ex_distinct|]. split; [apply ex_within|].
  repeat split; repeat constructor.
Qed.

(** But unlike in the binary auction an agent who left may be worth more than the final price: one buyer and two
    sellers in a deal; a seller of value -3 left although the final price is -5. *)
Theorem C43_left_above_price_refuted : exists m r p, int_auction MAX_VALUE 20 m pair_struct [1; 2]%nat = Ok r
  /\ m = pair_market [12; 8; 8] [-(3); -(3); -(1)] /\ map cvalues (tt_cats r) = [[12]; [-(1); -(3)]]
  /\ nth_error (tt_prices r) 1 = Some p /\ p < -(3).
Proof.
  eexists. eexists. eexists. split; [|split; [reflexivity|]]; [vm_compute; reflexivity|].
  split; [reflexivity|]. split; [reflexivity|]. vm_compute. reflexivity.
Qed.
Print Assumptions C43_left_above_price_refuted.

(** ** C44: budget balance

    With unit counts, the final prices of every recipe sum to zero (if there is a deal). *)
Theorem C44_unit_budget_balance : forall M fuel m st counts r rs, 0 < M -> int_auction M fuel m st counts = Ok r ->
  unit_counts counts (tt_tree r) -> distinct_categories (tt_tree r) -> leaf_last (tt_tree r) -> tchildren (tt_tree r) <> [] ->
  int_recipes (length m) counts (tt_tree r) = Ok rs -> (0 < tt_deals r)%nat ->
  length (tt_prices r) = length m /\ equal_sums rs (tt_prices r) 0.
Proof. exact int_unit_sbb. Qed.
Print Assumptions C44_unit_budget_balance.

Example C44_witness : exists r, int_auction MAX_VALUE 20 ex_market ex_struct [] = Ok r
  /\ unit_counts [] (tt_tree r) /\ distinct_categories (tt_tree r) /\ leaf_last (tt_tree r) /\ tchildren (tt_tree r) <> []
  /\ int_recipes 4 [] (tt_tree r) = Ok ex_recipes /\ tt_deals r = 2%nat
  /\ Forall2 Qeq (tt_prices r) [5; -(5); -(3); -(2)].
Proof.
  eexists. split; [vm_compute; reflexivity|]. split; [intros i _; reflexivity|]. split; [exact ex_distinct|].
  split; [apply leaf_last_check; reflexivity|]. split; [discriminate|]. repeat split; repeat constructor.
Qed.

(** With other counts a deal may need money from outside, or leave a surplus; in the doctest market with two sellers
    in a deal, the two deals performed each cost more than 99 million. *)
Theorem C44_deficit_refuted : exists m r, m = pair_market [12; 8; 8] [-(3); -(3); -(1)]
  /\ int_auction MAX_VALUE 20 m pair_struct [1; 2]%nat = Ok r /\ tt_deals r = 1%nat
  /\ int_recipes 2 [1; 2]%nat (tt_tree r) = Ok [[1; 2]]%nat /\ dot (tt_prices r) [1; 2]%nat == -(2).
Proof. eexists. eexists. split; [reflexivity|]. split; [vm_compute; reflexivity|]. repeat split. Qed.
Print Assumptions C44_deficit_refuted.

Theorem C44_surplus_refuted : exists m r, m = pair_market [11; 11] [-(6); -(1); -(4)]
  /\ int_auction MAX_VALUE 20 m pair_struct [1; 2]%nat = Ok r /\ tt_deals r = 1%nat
  /\ int_recipes 2 [1; 2]%nat (tt_tree r) = Ok [[1; 2]]%nat /\ dot (tt_prices r) [1; 2]%nat == 1.
Proof. eexists. eexists. split; [reflexivity|]. split; [vm_compute; reflexivity|]. repeat split. Qed.
Print Assumptions C44_surplus_refuted.

Theorem C44_huge_deficit_refuted : exists r, int_auction MAX_VALUE 20 ex_market ex_struct ex_counts = Ok r /\ tt_deals r = 2%nat
  /\ csize (cat_at (tt_cats r) 1) = 0%nat /\ dot (tt_prices r) [1; 0; 1; 1]%nat == -(99999996).
Proof. eexists. split; [vm_compute; reflexivity|]. repeat split. Qed.
Print Assumptions C44_huge_deficit_refuted.

(** ** C45: with unit counts the integer auction is the binary auction

    started from the prices computed by the integer calculate_initial_prices instead of the linear program. *)
Theorem C45_unit_counts_binary : forall M fuel m st counts t rs p0, new_int_tree (clone_market m) counts st = Ok t ->
  unit_counts counts t -> distinct_categories t -> tchildren t <> [] -> recipes (length m) t = Ok rs ->
  int_initial_prices rs (- M) = Ok p0 ->
  match int_auction M fuel m st counts, tree_auction M p0 fuel m st with
  | Ok r, Ok r' => same_trade r r'
  | Raise e, Raise e' => e = e'
  | Timeout, Timeout => True
  | _, _ => False
  end.
Proof. exact int_unit_same. Qed.
Print Assumptions C45_unit_counts_binary.

Example C45_witness : recipes 4 ex_tree = Ok ex_recipes /\ unit_counts [1; 1; 1; 1]%nat ex_tree
  /\ exists p0 r r', int_initial_prices ex_recipes (- MAX_VALUE) = Ok p0
     /\ int_auction MAX_VALUE 20 ex_market ex_struct [1; 1; 1; 1]%nat = Ok r
     /\ tree_auction MAX_VALUE p0 20 ex_market ex_struct = Ok r' /\ tt_deals r = 2%nat.
Proof.
  split; [reflexivity|]. split; [intros i Hi; simpl in Hi; intuition subst; reflexivity|].
  eexists. eexists. eexists. split; [vm_compute; reflexivity|]. split; [vm_compute; reflexivity|].
  split; [vm_compute; reflexivity|reflexivity].
Qed.

(** ** C46: optimal_trade and optimal_trade_GFT of the integer tree *)
Theorem C46_optimal_trade : forall cats counts t opt k g, positive_counts counts t -> distinct_categories t ->
  int_optimal_trade cats counts t = (opt, k, g) ->
  exists D, int_optimal cats counts t D /\ opt = map (fun d : int_deal => concat (snd d)) D /\ k = length D /\ g == int_gain D
    /\ g == int_optimal_trade_GFT cats counts t
    /\ forall D', int_optimal cats counts t D' -> (length D' <= k)%nat.
Proof. exact int_optimal_trade_spec. Qed.
Print Assumptions C46_optimal_trade.

Example C46_witness : positive_counts ex_counts ex_tree /\ distinct_categories ex_tree
  /\ int_optimal_trade (clone_market ex_market) ex_counts ex_tree =
     ([[27; -(2); -(1)]; [21; -(3); -(2)]; [17; -(4); -(5)]], 3%nat, 48)%list.
Proof. split; [apply ex_int_built|]. split; [exact ex_distinct|]. vm_compute. reflexivity. Qed.

(** ** C47: optimal_trade_with_counters of the integer tree *)

(** optimal_trade_with_counters never works for a tree with more than one node. *)
Theorem C47_counters_raise : forall cats counts i ch, ch <> [] ->
  int_optimal_trade_with_counters cats counts (Node i ch) = Raise TypeError
  \/ int_optimal_trade_with_counters cats counts (Node i ch) = Raise IndexError.
Proof.
  intros cats counts i ch H. unfold int_optimal_trade_with_counters.
  destruct (counted_groups_inner cats counts i ch H) as [-> | ->]; auto.
Qed.
Print Assumptions C47_counters_raise.

(** For a single category it agrees with optimal_trade. *)
Theorem C47_counters_leaf : forall cats counts i opt k g, (0 < count_at counts i)%nat ->
  int_optimal_trade cats counts (Node i []) = (opt, k, g) ->
  exists g' kmin kmax, int_optimal_trade_with_counters cats counts (Node i []) = Ok (opt, (k, g', kmin, kmax)) /\ g' == g.
Proof. exact int_counters_leaf. Qed.
Print Assumptions C47_counters_leaf.

Example C47_witness : int_optimal_trade_with_counters (clone_market ex_market) ex_counts ex_tree = Raise TypeError
  /\ int_optimal_trade_with_counters (clone_market hang_market) [] hang_tree = Raise IndexError
  /\ int_optimal_trade_with_counters [mkCat "a" [5; 3; 2; 1]] [2]%nat (Node 0 []) = Ok ([[5; 3]; [2; 1]], (2%nat, 11, 1%N, 1%N)).
Proof. vm_compute. auto. Qed.

(** ** C56: truthfulness of the integer auction

    With unit counts no agent gains by a false report (see C39 for the notation). *)
Theorem C56_unit_truthful : forall M m st counts i name pre post v v' pos pos' fuel fuel' r r' sel, 0 < M ->
  (i < length m)%nat ->
  possible_position (pre ++ post)%list v pos -> possible_position (pre ++ post)%list v' pos' ->
  values_within M (set_nth i (mkCat name (pre ++ v :: post)%list) m) ->
  values_within M (set_nth i (mkCat name (pre ++ v' :: post)%list) m) ->
  (forall j sizes, 0 <= sel j sizes) ->
  int_auction M fuel (set_nth i (mkCat name (pre ++ v :: post)%list) m) st counts = Ok r ->
  int_auction M fuel' (set_nth i (mkCat name (pre ++ v' :: post)%list) m) st counts = Ok r' ->
  unit_counts counts (tt_tree r) -> distinct_categories (tt_tree r) -> leaf_last (tt_tree r) -> tchildren (tt_tree r) <> [] ->
  tree_utility sel r' i pos' v <= tree_utility sel r i pos v.
Proof. exact int_unit_truthful. Qed.
Print Assumptions C56_unit_truthful.

Example C56_witness :
  let run v := int_auction MAX_VALUE 20 (set_nth 0 (mkCat "buyer" ([27; 21] ++ v :: [11; 3])%list) ex_market) ex_struct [] in
  (exists r, run 17 = Ok r /\ unit_counts [] (tt_tree r) /\ leaf_last (tt_tree r) /\ distinct_categories (tt_tree r)
     /\ tree_utility (fun _ _ => 1) r 0 2 17 == 12)
  /\ (exists r, run 2 = Ok r /\ tree_utility (fun _ _ => 1) r 0 4 17 == 0).
Proof.
  cbv zeta. split; eexists; (split; [vm_compute; reflexivity|]).
  - split; [intros i _; reflexivity|]. split; [apply leaf_last_check; reflexivity|]. split; [exact ex_distinct|reflexivity].
  - reflexivity.
Qed.

(** With other counts it fails: two buyers and one seller in a deal.  The seller of value -7 leaves when he tells the truth
    (utility 0), and gains 1 by reporting 0: he is then the only remaining seller, and the price is still -8. *)
Theorem C56_counts_refuted : exists r r',
  int_auction MAX_VALUE 20 (pair_market [5; 4; 10] [-(7); -(5)]) pair_struct [2; 1]%nat = Ok r
  /\ int_auction MAX_VALUE 20 (pair_market [5; 4; 10] [0; -(5)]) pair_struct [2; 1]%nat = Ok r'
  /\ possible_position [-(5)] (-(7)) 1 /\ possible_position [-(5)] 0 0
  /\ tt_deals r' = 1%nat
  /\ tree_utility (fun _ _ => 1) r 1 1 (-(7)) == 0 /\ tree_utility (fun _ _ => 1) r' 1 0 (-(7)) == 1.
Proof.
  eexists. eexists. split; [vm_compute; reflexivity|]. split; [vm_compute; reflexivity|].
  split; [vm_compute; lia|]. split; [vm_compute; lia|]. repeat split.
Qed.
Print Assumptions C56_counts_refuted.

(** ** C57: price vectors with agent counts *)

(** price_sum is the sum over the categories of price x recipe x count. *)
Theorem C57_price_sum : forall iv, length (iv_prices iv) = length (iv_recipe iv) -> length (iv_counts iv) = length (iv_recipe iv) ->
  int_price_sum iv == Qsum (map (fun i => nth i (iv_prices iv) 0 * Qn (nth i (iv_recipe iv) 0%nat) * Qn (nth i (iv_counts iv) 0%nat))
                                (seq 0 (length (iv_recipe iv)))).
Proof. exact int_price_sum_spec. Qed.
Print Assumptions C57_price_sum.

(** price_sum_after_increase is the price_sum of the changed vector. *)
Theorem C57_sum_after_increase : forall iv i new, length (iv_prices iv) = length (iv_recipe iv) ->
  length (iv_counts iv) = length (iv_recipe iv) -> (i < length (iv_recipe iv))%nat ->
  exists s, int_price_sum_after iv i new = Ok s
    /\ s == int_price_sum (mkIV (iv_recipe iv) (iv_counts iv) (set_nth i new (iv_prices iv)) (iv_status iv)).
Proof. exact int_sum_after_spec. Qed.
Print Assumptions C57_sum_after_increase.

(** increase_price_up_to_balance: the category [i] has recipe entry [r] and count [c], and [w] is the price sum of the other
    categories.  The price rises to [new] unless w + r * new reaches the bound; then it stops at (bound - w) / r. *)
Theorem C57_up_to_balance : forall iv i new bound, length (iv_prices iv) = length (iv_recipe iv) ->
  length (iv_counts iv) = length (iv_recipe iv) -> (i < length (iv_recipe iv))%nat ->
  let r := Qn (nth i (iv_recipe iv) 0%nat) in
  let c := Qn (nth i (iv_counts iv) 0%nat) in
  let w := int_price_sum iv - r * nth i (iv_prices iv) 0 * c in
  match int_increase_up_to_balance iv i new bound with
  | Ok iv' =>
      iv_recipe iv' = iv_recipe iv /\ iv_counts iv' = iv_counts iv /\ length (iv_prices iv') = length (iv_prices iv)
      /\ (forall j, j <> i -> nth j (iv_prices iv') 0 = nth j (iv_prices iv) 0)
      /\ ((bound <= w + r * new /\ iv_status iv' = Some STOPPED_AT_ZERO_SUM
           /\ nth i (iv_prices iv') 0 <= new
           /\ int_price_sum iv' == w + (bound - w) * c)
          \/ (w + r * new < bound /\ iv_status iv' = Some STOPPED_AT_AGENT_VALUE
              /\ nth i (iv_prices iv') 0 = new
              /\ int_price_sum iv' == w + r * new * c))
  | Raise e => e = ZeroDivisionError /\ nth i (iv_recipe iv) 0%nat = 0%nat /\ bound <= int_price_sum iv
  | Timeout => False
  end.
Proof. exact int_up_to_balance_spec. Qed.
Print Assumptions C57_up_to_balance.

(** So the sum stops exactly at the bound when the count is 1, but not otherwise: a vector of sum -30 and bound 0
    stops at the sum 10. *)
Theorem C57_balance_refuted : exists iv', 
  int_increase_up_to_balance (new_int_vector [1; 1]%nat (-(10)) [1; 2]%nat) 1 100 0 = Ok iv'
  /\ int_price_sum (new_int_vector [1; 1]%nat (-(10)) [1; 2]%nat) == -(30)
  /\ iv_status iv' = Some STOPPED_AT_ZERO_SUM /\ int_price_sum iv' == 10.
Proof. eexists. split; [vm_compute; reflexivity|]. repeat split. Qed.
Print Assumptions C57_balance_refuted.

(** increase_prices: all planned categories rise by the same amount [d] times their count. *)
Theorem C57_increase_prices : forall sp incs bound n, incs <> [] ->
  (forall r, In r (isp_recipes sp) -> length r = n) -> length (isp_counts sp) = n ->
  length (iv_prices (isp_vector sp)) = n ->
  NoDup (map fst incs) -> (forall i x, In (i, x) incs -> (i < n)%nat /\ (0 < nth i (isp_counts sp) 0)%nat) ->
  exists sp' d, int_increase_prices sp incs bound = Ok sp'
    /\ isp_recipes sp' = isp_recipes sp /\ isp_counts sp' = isp_counts sp
    /\ iv_recipe (isp_vector sp') = iv_recipe (isp_vector sp) /\ iv_counts (isp_vector sp') = iv_counts (isp_vector sp)
    /\ length (iv_prices (isp_vector sp')) = n
    /\ (forall i, ~ In i (map fst incs) -> nth i (iv_prices (isp_vector sp')) 0 = nth i (iv_prices (isp_vector sp)) 0)
    /\ (forall i, In i (map fst incs) -> nth i (iv_prices (isp_vector sp')) 0
          = nth i (iv_prices (isp_vector sp)) 0 + d * Qn (nth i (isp_counts sp) 0%nat))
    /\ (forall r c, length r = n -> length c = n -> dot3 (iv_prices (isp_vector sp')) r c == dot3 (iv_prices (isp_vector sp)) r c
          + d * Qsum (map (fun i => Qn (nth i (isp_counts sp) 0%nat) * Qn (nth i r 0%nat) * Qn (nth i c 0%nat)) (map fst incs)))
    /\ d <= bound - int_price_sum (isp_vector sp)
    /\ (forall i x, In (i, x) incs -> d <= x - nth i (iv_prices (isp_vector sp)) 0)
    /\ (d == bound - int_price_sum (isp_vector sp)
        \/ exists i x, In (i, x) incs /\ d == x - nth i (iv_prices (isp_vector sp)) 0)
    /\ (isp_status sp' = Some STOPPED_AT_ZERO_SUM <-> d == bound - int_price_sum (isp_vector sp))
    /\ (isp_status sp' = Some STOPPED_AT_AGENT_VALUE <-> d < bound - int_price_sum (isp_vector sp)).
Proof. exact int_increase_prices_spec. Qed.
Print Assumptions C57_increase_prices.

Example C57_witness : exists sp sp', new_int_sim_prices [[1; 1; 0; 0]; [1; 0; 1; 1]]%nat (-(10000)) [] = Ok sp
  /\ int_increase_prices sp [(1%nat, -(80)); (2%nat, -(80))] 0 = Ok sp'
  /\ Forall2 Qeq (iv_prices (isp_vector sp')) [-(10000); -(10080); -(80); -(10000)]
  /\ isp_status sp' = Some STOPPED_AT_AGENT_VALUE.
Proof.
  eexists. eexists. split; [vm_compute; reflexivity|]. split; [vm_compute; reflexivity|]. repeat split; repeat constructor.
Qed.

(** ** C58: exceptions and termination of the integer auction *)
Theorem C58_no_exception : forall M fuel m st counts t rs p0, new_int_tree (clone_market m) counts st = Ok t ->
  distinct_categories t -> positive_counts counts t -> int_recipes (length m) counts t = Ok rs ->
  int_initial_prices rs (- M) = Ok p0 -> forall e, int_auction M fuel m st counts <> Raise e.
Proof. exact int_no_raise. Qed.
Print Assumptions C58_no_exception.

(** A count of 0 for a category of the tree makes a normal end impossible. *)
Theorem C58_zero_count : forall M fuel m st counts t i, new_int_tree (clone_market m) counts st = Ok t ->
  In i (node_indices t) -> count_at counts i = 0%nat -> forall r, int_auction M fuel m st counts <> Ok r.
Proof. exact int_zero_count. Qed.
Print Assumptions C58_zero_count.

Example C58_zero_count_witness : int_auction MAX_VALUE 20 (pair_market [5; 4; 10] [0; -(5)]) pair_struct [2; 0]%nat = Raise ZeroDivisionError.
Proof. vm_compute. reflexivity. Qed.

(** With a single recipe the auction ends after at most one round per agent, and one more, for all positive counts. *)
Theorem C58_single_recipe_terminates : forall M fuel m st counts t, new_int_tree (clone_market m) counts st = Ok t ->
  distinct_categories t -> positive_counts counts t -> single_path t -> (agents_number m < fuel)%nat ->
  exists r, int_auction M fuel m st counts = Ok r.
Proof. exact int_single_terminates. Qed.
Print Assumptions C58_single_recipe_terminates.

Example C58_single_witness : new_int_tree (clone_market (pair_market [12; 8; 8] [-(3); -(3); -(1)])) [1; 2]%nat pair_struct = Ok pair_tree
  /\ distinct_categories pair_tree /\ single_path pair_tree /\ positive_counts [1; 2]%nat pair_tree
  /\ agents_number (pair_market [12; 8; 8] [-(3); -(3); -(1)]) = 6%nat.
Proof.
  split; [reflexivity|]. split; [apply (pair_built [] [] [])|]. split; [repeat constructor|].
  split; [|reflexivity]. intros i Hi. simpl in Hi. intuition subst; vm_compute; lia.
Qed.

(** With unit counts, for every tree, under the conditions of C38. *)
Theorem C58_unit_terminates : forall M B fuel m st counts t, 0 < M -> new_int_tree (clone_market m) counts st = Ok t ->
  unit_counts counts t -> distinct_categories t -> leaf_last t -> tchildren t <> [] ->
  values_within B m -> 2 * B * Qn (height t) <= M -> no_ties m ->
  (forall i, In i (node_indices t) -> (0 < csize (cat_at m i))%nat) -> (agents_number m < fuel)%nat ->
  exists r, int_auction M fuel m st counts = Ok r.
Proof. exact int_unit_terminates. Qed.
Print Assumptions C58_unit_terminates.

(** And like the binary auction it can run forever when a category is empty. *)
Theorem C58_empty_category_hangs : forall fuel, int_auction MAX_VALUE fuel hang_market hang_struct [] = Timeout.
Proof.
  intros fuel. destruct C38_empty_category_hangs as (_ & _ & HD & HT & HR & H).
  assert (X := int_unit_same MAX_VALUE fuel hang_market hang_struct [] hang_tree hang_recipes hang_p0 eq_refl
     (fun i _ => eq_refl) HD ltac:(discriminate) HR ltac:(vm_compute; reflexivity)).
  rewrite H in X. destruct (int_auction MAX_VALUE fuel hang_market hang_struct []); [contradiction|contradiction|reflexivity].
Qed.
Print Assumptions C58_empty_category_hangs.

(** ** C59: the result compared with the optimum

    The reported gain is at most the optimal gain, and is the largest gain of a trade among the remaining agents;
    the reported number of deals is the largest number of deals among them. *)
Theorem C59_at_most_optimal : forall M fuel m st counts r opt k g, 0 <= M -> int_auction M fuel m st counts = Ok r ->
  distinct_categories (tt_tree r) -> values_above (- M) m ->
  int_optimal_trade (clone_market m) counts (tt_tree r) = (opt, k, g) ->
  tt_gft r <= g
  /\ (exists D, int_optimal (tt_cats r) counts (tt_tree r) D /\ int_gain D == tt_gft r)
  /\ (exists D, int_feasible (tt_cats r) counts (tt_tree r) D /\ length D = tt_deals r)
  /\ (forall D, int_feasible (tt_cats r) counts (tt_tree r) D -> (length D <= tt_deals r)%nat).
Proof. exact int_at_most_optimal. Qed.
Print Assumptions C59_at_most_optimal.

Example C59_witness : exists r, int_auction MAX_VALUE 20 ex_market ex_struct ex_counts = Ok r
  /\ tt_gft r == 40 /\ snd (int_optimal_trade (clone_market ex_market) ex_counts (tt_tree r)) == 48.
Proof. eexists. split; [vm_compute; reflexivity|]. split; reflexivity. Qed.

(** ** C60: num_of_deals of the integer tree is the largest number of deals *)
Theorem C60_num_of_deals : forall cats counts t n, positive_counts counts t -> int_num_of_deals cats counts t = Ok n ->
  (forall D, int_feasible cats counts t D -> (length D <= n)%nat)
  /\ (distinct_categories t -> exists D, int_feasible cats counts t D /\ length D = n).
Proof. exact int_deals_max. Qed.
Print Assumptions C60_num_of_deals.

Theorem C60_num_of_deals_defined : forall cats counts prices t, positive_counts counts t -> indices_in_range (length prices) t ->
  exists n kmin kmax, int_num_of_deals cats counts t = Ok n /\ int_deals_explained cats counts prices t = Ok (n, kmin, kmax).
Proof.
  intros cats counts prices t HP HR. destruct (int_explained_ok cats counts prices t HP HR) as (kmax & E & _).
  rewrite E, int_deals_ok by assumption. eauto.
Qed.
Print Assumptions C60_num_of_deals_defined.

Example C60_witness : int_num_of_deals (clone_market ex_market) ex_counts ex_tree = Ok 4%nat
  /\ int_deals_explained (clone_market ex_market) ex_counts [0; 0; 0; 0] ex_tree = Ok (4, 1, 3)%nat
  /\ int_num_of_deals (clone_market ex_market) [1; 0; 1; 1]%nat ex_tree = Raise ZeroDivisionError.
Proof. vm_compute. auto. Qed.
