{
 "claims": [
  {
   "property": "C01",
   "status": "proved",
   "theorems": [
    "C01_category_history"
   ],
   "note": "All histories of operations; removals take a true extreme of the current bag."
  },
  {
   "property": "C02",
   "status": "proved",
   "theorems": [
    "C02_extremes",
    "C02_errors"
   ],
   "note": "Queries and IndexErrors on every reachable category / every category."
  },
  {
   "property": "C03",
   "status": "proved",
   "theorems": [
    "C03_conservation",
    "C03_errors"
   ],
   "note": "Any recipe incl. zeros, any cap, any (even unsorted) category lists."
  },
  {
   "property": "C04",
   "status": "proved",
   "theorems": [
    "C04_profitable_sorted",
    "C04_exhaustive"
   ],
   "note": "Exhaustiveness under cap_suffices (the 2,000,000 iteration cap is not reached)."
  },
  {
   "property": "C05",
   "status": "proved",
   "theorems": [
    "C05_optimality"
   ],
   "note": "Against every feasible set of deals, under cap_suffices."
  },
  {
   "property": "C06",
   "status": "proved",
   "theorems": [
    "C06_zero_flag"
   ],
   "note": "Largest/smallest over all optimal feasible trades."
  },
  {
   "property": "C07",
   "status": "proved",
   "theorems": [
    "C07_num_of_deals",
    "C07_errors"
   ],
   "note": ""
  },
  {
   "property": "C08",
   "status": "proved",
   "theorems": [
    "C08_expected_gain",
    "C08_errors"
   ],
   "note": "Expectation specified as the average over all equally likely selections."
  },
  {
   "property": "C09",
   "status": "proved",
   "theorems": [
    "C09_increase_up_to_balance",
    "C09_monotone",
    "C09_range"
   ],
   "note": "All price vectors, any bound."
  },
  {
   "property": "C10",
   "status": "proved",
   "theorems": [
    "C10_terminates",
    "C10_api",
    "C10_fuel_irrelevant"
   ],
   "note": "Also: result independent of fuel."
  },
  {
   "property": "C11",
   "status": "proved",
   "theorems": [
    "C11_strong_budget_balance"
   ],
   "note": "Any M > 0."
  },
  {
   "property": "C12",
   "status": "proved",
   "theorems": [
    "C12_individually_rational",
    "C12_low_values_refuted"
   ],
   "note": "Under values >= -MAX_VALUE; counterexample otherwise (C12_low_values_refuted)."
  },
  {
   "property": "C13",
   "status": "proved",
   "theorems": [
    "C13_removes_weakest",
    "C13_monotone_prices",
    "C13_result_is_last_state"
   ],
   "note": "Every round of every run."
  },
  {
   "property": "C14",
   "status": "proved",
   "theorems": [
    "C14_truthful"
   ],
   "note": "Every tie-breaking position; expected utility."
  },
  {
   "property": "C15",
   "status": "proved",
   "theorems": [
    "C15_number_of_deals"
   ],
   "note": "Any recipe."
  },
  {
   "property": "C16",
   "status": "proved",
   "theorems": [
    "C16_gain",
    "C16_large_values_refuted"
   ],
   "note": "Any recipe."
  },
  {
   "property": "C17",
   "status": "proved",
   "theorems": [
    "C17_strong_budget_balance"
   ],
   "note": "Any M, cap, recipe, both flags."
  },
  {
   "property": "C18",
   "status": "proved",
   "theorems": [
    "C18_individually_rational",
    "C18_optimal_traders",
    "C18_best_traders",
    "C18_multi_recipe_refuted"
   ],
   "note": "Values >= -MAX_VALUE. The optimal-traders part holds for all-ones recipes; for general recipes it is false (C18_multi_recipe_refuted) and the best (k+1)r_i bound is proved."
  },
  {
   "property": "C19",
   "status": "proved",
   "theorems": [
    "C19_flag",
    "C19_number_of_deals"
   ],
   "note": "Any recipe; under cap_suffices and values >= -MAX_VALUE."
  },
  {
   "property": "C20",
   "status": "proved",
   "theorems": [
    "C20_truthful",
    "C20_multi_recipe_refuted",
    "C20_truthful_no_spare",
    "C20_no_spare_markets"
   ],
   "note": "C20_truthful (ones), C20_truthful_no_spare (all positive recipes); refuted for recipe (1,2) with a spare seller."
  },
  {
   "property": "C21",
   "status": "proved",
   "theorems": [
    "C21_errors",
    "C21_gain_errors"
   ],
   "note": "Construction errors for all inputs; gain_from_trade errors for values >= -MAX_VALUE."
  },
  {
   "property": "C22",
   "status": "proved",
   "theorems": [
    "C22_two_sided_no_deficit",
    "C22_no_heuristic_no_deficit",
    "C22_three_categories_refuted"
   ],
   "note": "Heuristic: at most two categories; no heuristic: any number. Failure for three categories proved as refutation."
  },
  {
   "property": "C23",
   "status": "proved",
   "theorems": [
    "C23_individually_rational"
   ],
   "note": "No hypotheses on values."
  },
  {
   "property": "C24",
   "status": "proved",
   "theorems": [
    "C24_deals_and_traders"
   ],
   "note": "Also the prices: +-candidate price, or the k-th best values."
  },
  {
   "property": "C25",
   "status": "proved",
   "theorems": [
    "C25_gain"
   ],
   "note": "Also relates the gain with and without the auctioneer."
  },
  {
   "property": "C26",
   "status": "proved",
   "theorems": [
    "C26_truthful_no_heuristic",
    "C26_truthful_buyer",
    "C26_truthful_seller",
    "C26_zero_seller_refuted",
    "C26_large_values_refuted",
    "C26_three_categories_refuted"
   ],
   "note": "Sharp hypotheses; three refutations show each is needed."
  },
  {
   "property": "C27",
   "status": "proved",
   "theorems": [
    "C27_errors"
   ],
   "note": "m nonempty because Market([]) cannot be constructed."
  },
  {
   "property": "C28",
   "status": "proved",
   "theorems": [
    "C28_paths",
    "C28_no_repetition",
    "C28_recipes"
   ],
   "note": "Trees with any number of nodes and depth; counts=None."
  },
  {
   "property": "C29",
   "status": "proved",
   "theorems": [
    "C29_construction",
    "C29_accepts",
    "C29_errors",
    "C29_total"
   ],
   "note": "Negative ints and strings inside the struct are not modelled."
  },
  {
   "property": "C30",
   "status": "proved",
   "theorems": [
    "C30_cut",
    "C30_one_per_path",
    "C30_sizes",
    "C30_choice"
   ],
   "note": ""
  },
  {
   "property": "C31",
   "status": "proved",
   "theorems": [
    "C31_num_of_deals",
    "C31_explained",
    "C31_repeated_refuted"
   ],
   "note": "Upper bound holds for every tree; attained for distinct categories; refutation for repeated categories."
  },
  {
   "property": "C32",
   "status": "proved",
   "theorems": [
    "C32_optimal_gain",
    "C32_upper_bound"
   ],
   "note": "sorted_cats is what AgentCategory guarantees (C01)."
  },
  {
   "property": "C33",
   "status": "proved",
   "theorems": [
    "C33_agree",
    "C33_single_node"
   ],
   "note": ""
  },
  {
   "property": "C34",
   "status": "proved",
   "theorems": [
    "C34_increase_prices"
   ],
   "note": "Increases given for distinct categories in range; description strings omitted."
  },
  {
   "property": "C35",
   "status": "proved",
   "theorems": [
    "C35_initial_prices",
    "C35_repeated_refuted"
   ],
   "note": "scipy's linprog itself is not modelled: the theorem is about the program it solves."
  },
  {
   "property": "C36",
   "status": "proved",
   "theorems": [
    "C36_budget_balance"
   ],
   "note": "For every initial price vector that meets the contract of calculate_initial_prices."
  },
  {
   "property": "C37",
   "status": "proved",
   "theorems": [
    "C37_individual_rationality",
    "C37_best_agents_remain"
   ],
   "note": ""
  },
  {
   "property": "C38",
   "status": "proved",
   "theorems": [
    "C38_ties_terminate",
    "C38_three_levels_terminate",
    "C38_deep_ties_hang",
    "C38_broom_terminates",
    "C38_moderate_terminates",
    "C38_ends_or_never",
    "C38_idle_round_repeats",
    "C38_empty_category_hangs",
    "C38_ties_hang"
   ],
   "note": "Termination of brooms, of trees of at most three levels and of moderate markets whose deep inner categories have no ties, dichotomy, and two divergence witnesses (optimal initial prices)."
  },
  {
   "property": "C39",
   "status": "proved",
   "theorems": [
    "C39_truthful"
   ],
   "note": "Both runs are assumed to end (C38). The selection rule is arbitrary (the code does not select, it only reports numbers)."
  },
  {
   "property": "C40",
   "status": "proved",
   "theorems": [
    "C40_at_most_optimal"
   ],
   "note": ""
  },
  {
   "property": "C41",
   "status": "proved",
   "theorems": [
    "C41_no_exception",
    "C41_single_node",
    "C41_bad_struct",
    "C41_repeated_refuted"
   ],
   "note": ""
  },
  {
   "property": "C42",
   "status": "proved",
   "theorems": [
    "C42_upper_bound",
    "C42_equal_sums",
    "C42_tree",
    "C42_unordered_refuted"
   ],
   "note": "Equal sums and upper bound proved; two refutations (unordered trees) as theorem and Example."
  },
  {
   "property": "C43",
   "status": "proved",
   "theorems": [
    "C43_individual_rationality",
    "C43_best_agents_remain",
    "C43_left_above_price_refuted"
   ],
   "note": "For all counts; refutation of 'those who left are worth at most the price'."
  },
  {
   "property": "C44",
   "status": "proved",
   "theorems": [
    "C44_unit_budget_balance",
    "C44_deficit_refuted",
    "C44_surplus_refuted",
    "C44_huge_deficit_refuted"
   ],
   "note": "Unit counts: proved. Other counts: three refuting runs (deficit 2, surplus 1, deficit of 99999996 per deal)."
  },
  {
   "property": "C45",
   "status": "proved",
   "theorems": [
    "C45_unit_counts_binary"
   ],
   "note": "Simulation proof; kmin is compared when positive, since the integer version ignores recipes without deals."
  },
  {
   "property": "C46",
   "status": "proved",
   "theorems": [
    "C46_optimal_trade"
   ],
   "note": "All clauses proved."
  },
  {
   "property": "C47",
   "status": "proved",
   "theorems": [
    "C47_counters_raise",
    "C47_counters_leaf"
   ],
   "note": "All clauses proved."
  },
  {
   "property": "C48",
   "status": "proved",
   "theorems": [
    "C48_category",
    "C48_optimal_trade",
    "C48_ascending_auction",
    "C48_trade_reduction",
    "C48_mcafee",
    "C48_tree_auction",
    "C48_integer_auction"
   ],
   "note": "Values as fractions in lowest terms, so that equality of results is Leibniz equality."
  },
  {
   "property": "C49",
   "status": "proved",
   "theorems": [
    "C49_max_value_independent",
    "C49_trade_reduction",
    "C49_mcafee"
   ],
   "note": "Prices compared on categories with positive recipe count. 'Large enough' is values_small (ascending) and well_below (the other two)."
  },
  {
   "property": "C50",
   "status": "proved",
   "theorems": [
    "C50_struct",
    "C50_depth",
    "C50_children_counts",
    "C50_agent_counts",
    "C50_root_not_zero_refuted"
   ],
   "note": "Structs are exactly those the RecipeTree constructor accepts for a tree (C50_struct)."
  },
  {
   "property": "C51",
   "status": "proved",
   "theorems": [
    "C51_split",
    "C51_zero_counts"
   ],
   "note": "Exact arithmetic instead of the float len/size*count; reading csv files and shuffling not modelled."
  },
  {
   "property": "C52",
   "status": "proved",
   "theorems": [
    "C52_optimal_trade",
    "C52_ascending_auction",
    "C52_trade_reduction",
    "C52_mcafee",
    "C52_tree_auction",
    "C52_integer_auction"
   ],
   "note": "Heap models of the protocols; also shows that the functional models used for the other claims agree with them."
  },
  {
   "property": "C53",
   "status": "proved",
   "theorems": [
    "C53_budget_balance_refuted",
    "C53_individual_rationality_refuted"
   ],
   "note": "Refutations of the exact statements over binary64 (SpecFloat); the exact statements over rationals are other claims."
  },
  {
   "property": "C54",
   "status": "proved",
   "theorems": [
    "C54_same_as_ascending",
    "C54_same_as_ascending_last",
    "C54_spare_refuted",
    "C54_two_to_one_refuted"
   ],
   "note": "Common walk of both algorithms; C54_spare_refuted and C54_two_to_one_refuted show that both conditions are needed."
  },
  {
   "property": "C56",
   "status": "proved",
   "theorems": [
    "C56_unit_truthful",
    "C56_counts_refuted"
   ],
   "note": "Unit counts: proved via C45 and C39; counts (2,1): refuting pair of runs."
  },
  {
   "property": "C57",
   "status": "proved",
   "theorems": [
    "C57_price_sum",
    "C57_sum_after_increase",
    "C57_up_to_balance",
    "C57_balance_refuted",
    "C57_increase_prices"
   ],
   "note": "Exact specification of each method, and the failure with count 2."
  },
  {
   "property": "C58",
   "status": "proved",
   "theorems": [
    "C58_no_exception",
    "C58_zero_count",
    "C58_single_recipe_terminates",
    "C58_unit_terminates",
    "C58_empty_category_hangs",
    "C58_fork_never_ends",
    "C58_conditions_refuted",
    "C58_unit_ties_terminate"
   ],
   "note": "Termination for single paths and for unit counts; C58_fork_never_ends shows that forks with larger counts loop forever."
  },
  {
   "property": "C59",
   "status": "proved",
   "theorems": [
    "C59_at_most_optimal"
   ],
   "note": "All clauses proved."
  },
  {
   "property": "C60",
   "status": "proved",
   "theorems": [
    "C60_num_of_deals",
    "C60_num_of_deals_defined"
   ],
   "note": "All clauses proved."
  },
  {
   "property": "C61",
   "status": "proved",
   "theorems": [
    "C61_defined",
    "C61_one_per_path",
    "C61_sizes",
    "C61_choice"
   ],
   "note": ""
  },
  {
   "property": "C55",
   "status": "proved",
   "theorems": [
    "C55_deals_lost",
    "C55_ties_refuted"
   ],
   "note": "Proved by an invariant over rounds (per-node losses) and induction over the tree; bound attained by the doctest; tie counterexample proved."
  },
  {
   "property": "C62",
   "status": "proved",
   "theorems": [
    "C62_gain_lost",
    "C62_ratio_refuted"
   ],
   "note": "Threshold version of C55 proved by induction over the tree; ratio counterexample proved."
  },
  {
   "property": "C63",
   "status": "proved",
   "theorems": [
    "C63_ratio",
    "C63_deals_lost",
    "C63_ties_refuted"
   ],
   "note": "Proved: per-round invariant (sizes vs. combined values at current prices), a used leaf loses at most one optimal agent, then averaging per category with balanced final prices."
  },
  {
   "property": "C64",
   "status": "proved",
   "theorems": [
    "C64_terminates",
    "C64_individually_rational",
    "C64_best_remain"
   ],
   "note": "Individual rationality via Flocq: rounding is monotone, so the stopping price fl(0 - w) is at most the lowest value v whenever fl(w + v) >= 0. Rests on the stdlib axioms of the classical reals (listed in DESIGN.md)."
  },
  {
   "property": "C65",
   "status": "proved",
   "theorems": [
    "C65_integers_exact",
    "C65_integers_budget_balanced"
   ],
   "note": "Simulation between the binary64 run and the exact-rational run; every intermediate value is an integer of absolute value at most 2^53. Stdlib axioms of the classical reals via Flocq."
  },
  {
   "property": "C66",
   "status": "proved",
   "theorems": [
    "C66_ascending",
    "C66_trade_reduction",
    "C66_mcafee",
    "C66_no_iterations",
    "C66_mean_ratio_refuted",
    "C66_mcafee_three_refuted",
    "C66_no_deals_row",
    "C66_no_deals_tree_row"
   ],
   "note": "Random draws are universally quantified arguments. Exact rationals; the rounding columns use Python's round-half-even and int truncation."
  },
  {
   "property": "C67",
   "status": "proved",
   "theorems": [
    "C67_succeeds",
    "C67_counts",
    "C67_ones_tie",
    "C67_last_tie",
    "C67_no_sizes"
   ],
   "note": "Includes the full specification of the counters, and the tie theorem."
  },
  {
   "property": "C68",
   "status": "proved",
   "theorems": [
    "C68_rows",
    "C68_formula",
    "C68_no_iterations",
    "C68_mean_formula_refuted",
    "C68_no_deal_refuted"
   ],
   "note": "The initial prices (linear program) are any that meet the contract; two refutations for gftformula."
  },
  {
   "property": "C69",
   "status": "proved",
   "theorems": [
    "C69_rows",
    "C69_average_refuted",
    "C69_duplicates_refuted",
    "C69_unsorted_refuted",
    "C69_formula_refuted"
   ],
   "note": "Shuffled prices are arguments; the linear program's initial prices are any that meet the contract; four refutations."
  },
  {
   "property": "C70",
   "status": "proved",
   "theorems": [
    "C70_single_category",
    "C70_raises",
    "C70_no_iterations"
   ],
   "note": "Any auction function; via C47."
  },
  {
   "property": "C71",
   "status": "proved",
   "theorems": [
    "C71_same_deals",
    "C71_same_outcome",
    "C71_both_return",
    "C71_test_struct",
    "C71_test_deals",
    "C71_test_prices_refuted",
    "C71_leaf_order_refuted",
    "C71_ties_refuted",
    "C71_empty_category_refuted",
    "C71_large_values_refuted"
   ],
   "note": "Both auctions are walks on the vector of category sizes with different choice rules; compared at the levels where all sizes are equal. Five refutations for the dropped hypotheses."
  },
  {
   "property": "C72",
   "status": "proved",
   "theorems": [
    "C72_regrouped",
    "C72_equivalent_leaves",
    "C72_buyers_first_prices_refuted",
    "C72_buyers_first_deals_refuted",
    "C72_ties_refuted"
   ],
   "note": "Lock-step simulation of the two runs; relation between a group of leaves and its merged category: same remaining agents up to order, same price. Three refutations for the dropped hypotheses."
  },
  {
   "property": "C73",
   "status": "proved",
   "theorems": [
    "C73_returns_or_ValueError",
    "C73_result",
    "C73_shared_category",
    "C73_shared_large",
    "C73_test_110_101_refuted",
    "C73_test_1100_1011_refuted"
   ],
   "note": "Round-by-round case analysis, invariants over the loop and the recursion on dropped recipes; the linear program is any function that returns a feasible point or raises ValueError. Two theorems refute the expectations of the file's tests, for all lists of values."
  },
  {
   "property": "C74",
   "status": "proved",
   "theorems": [
    "C74_disjoint_recipes",
    "C74_single_recipe",
    "C74_ties_refuted",
    "C74_set_order_refuted"
   ],
   "note": "Simulation: every recipe's sizes follow the walk of its own auction, prices of non-chosen categories are the last leavers' values. Refutations for ties and for an iteration order that is not increasing."
  },
  {
   "property": "C75",
   "status": "proved",
   "theorems": [
    "C75_no_deals",
    "C75_counts",
    "C75_outcome",
    "C75_price_bound",
    "C75_doctest_refuted",
    "C75_doctest_1_2_refuted"
   ],
   "note": "The loops are left by EmptyCategoryException only, so the demand or the offer is 0 at the end; invariants on sizes for each number of buyer categories. Doctests refuted on their own markets."
  },
  {
   "property": "C76",
   "status": "proved",
   "theorems": [
    "C76_constructor",
    "C76_map",
    "C76_increase",
    "C76_count",
    "C76_history",
    "C76_same_sum_refuted",
    "C76_tolerance_refuted"
   ],
   "note": "linprog is a parameter of the model (any function that returns prices or fails). Invariant: the sum of a recipe without its own category is unchanged by the other increases of the call."
  },
  {
   "property": "C77",
   "status": "proved",
   "theorems": [
    "C77_group",
    "C77_group_api",
    "C77_sorted",
    "C77_strong_refuted"
   ],
   "note": "The two runs are followed in parallel to the first round in which they differ; a pigeonhole argument on the ranks then gives a misreporting agent who does not gain. C77_strong_refuted shows that 'weak' cannot be dropped."
  },
  {
   "property": "C78",
   "status": "proved",
   "theorems": [
    "C78_tree_group",
    "C78_strong_refuted"
   ],
   "note": "Two runs followed in parallel to the first round in which they differ, as for C77. C78_strong_refuted shows that 'weak' cannot be dropped."
  },
  {
   "property": "C79",
   "status": "proved",
   "theorems": [
    "C79_trade_reduction_group",
    "C79_strong_refuted",
    "C79_group_no_spare"
   ],
   "note": "C79_strong_refuted shows that 'weak' cannot be dropped."
  },
  {
   "property": "C80",
   "status": "proved",
   "theorems": [
    "C80_group_no_heuristic",
    "C80_group_two_sided",
    "C80_strong_refuted"
   ],
   "note": "If all misreporting agents gained they would all trade in the lying run, so the agents who set its prices would be truthful; then the truthful run has at least as many deals at prices no worse for them. Three categories with the heuristic: already false for one agent (C26_three_categories_refuted)."
  },
  {
   "property": "C81",
   "status": "proved",
   "theorems": [
    "C81_gain"
   ],
   "note": "With random selection the kept agents of a category can outnumber the deals; the bound is proved through the prices: kept agents are worth at least the price, agents put back at most the price, and the prices sum to 0 over the recipe. C81_tight: factor is best possible."
  },
  {
   "property": "C82",
   "status": "proved",
   "theorems": [
    "C82_ascending",
    "C82_tree",
    "C82_trade_reduction",
    "C82_trade_reduction_prices",
    "C82_trade_reduction_prices_refuted",
    "C82_mcafee",
    "C82_mcafee_prices",
    "C82_mcafee_prices_two_sided",
    "C82_mcafee_refuted",
    "C82_mcafee_three_refuted"
   ],
   "note": "Spec_Stable.v defines left_out, nothing_left and no_envy; left_out is shown to be inhabited for every run. Tree: prices within the initial-price contract and values within the bound."
  },
  {
   "property": "C83",
   "status": "proved",
   "theorems": [
    "C83_construction",
    "C83_append_trader",
    "C83_append_PS",
    "C83_put_back",
    "C83_has_empty_category",
    "C83_empty_no_deals"
   ],
   "note": "Spec_Market2.v: joined, same_category."
  },
  {
   "property": "C84",
   "status": "proved",
   "theorems": [
    "C84_simultaneous_prices",
    "C84_integer_vector",
    "C84_integer_zero_count",
    "C84_old_price_sum",
    "C84_old_initial_sum",
    "C84_multibuyer_trade",
    "C84_multi_trade_refuses"
   ],
   "note": "Found by mutation batch 7: these contracts were not pinned by any earlier theorem."
  },
  {
   "property": "C85",
   "status": "proved",
   "theorems": [
    "C85_sizes",
    "C85_special",
    "C85_general",
    "C85_coprime",
    "C85_residue",
    "C85_all_sellers",
    "C85_signs",
    "C85_balance",
    "C85_empty",
    "C85_shuffled",
    "C85_balance_refuted",
    "C85_coprime_refuted"
   ],
   "note": "Prices are rationals in the model (binary64 products in Python). C85_balance_refuted and C85_coprime_refuted exhibit recipes (2:2) and (1:1:2) for which a flat stock has a positive gain, resp. the seller categories share no seller."
  },
  {
   "property": "C86",
   "status": "proved",
   "theorems": [
    "C86_stock",
    "C86_random",
    "C86_empty_stock",
    "C86_empty_stock_forever",
    "C86_no_iterations",
    "C86_bad_recipe",
    "C86_repeated_number",
    "C86_withoutgftzero_refuted"
   ],
   "note": "C86_withoutgftzero_refuted: a ratio of 200 %. compare_max_iterations, MAX_VALUE as in the code; prices up to 10^8 (times the sellers per set)."
  },
  {
   "property": "C87",
   "status": "proved",
   "theorems": [
    "C87_truncates",
    "C87_shape",
    "C87_scientific_refuted"
   ],
   "note": "As a function of str(x). C87_scientific_refuted: exponents are lost."
  },
  {
   "property": "C88",
   "status": "proved",
   "theorems": [
    "C88_tests",
    "C88_written",
    "C88_ones",
    "C88_two_to_one_refuted",
    "C88_last"
   ],
   "note": "C88_two_to_one_refuted exhibits a difference."
  },
  {
   "property": "C89",
   "status": "proved",
   "theorems": [
    "C89_is_space",
    "C89_single_price",
    "C89_no_price",
    "C89_tree",
    "C89_integer_tree",
    "C89_material",
    "C89_inner_line_refuted",
    "C89_integer_all_refuted"
   ],
   "note": "Model_Report.v models the strings; number rendering is a parameter. The doctests of trade.py and of the recipe trees are checked as examples."
  },
  {
   "property": "C90",
   "status": "proved",
   "theorems": [
    "C90_rows",
    "C90_bad_input"
   ],
   "note": "Model_StockTables.v. Prices are arguments; numbers are exact rationals."
  },
  {
   "property": "C91",
   "status": "proved",
   "theorems": [
    "C91_rows",
    "C91_ascending",
    "C91_possible",
    "C91_possible_refuted"
   ],
   "note": "The failure of num_possible_trades for recipes that start with 2 is C91_possible_refuted."
  },
  {
   "property": "C92",
   "status": "proved",
   "theorems": [
    "C92_table",
    "C92_short_stock_refuted",
    "C92_average_refuted",
    "C92_mcafee_first",
    "C92_mcafee_second_refuted"
   ],
   "note": "Column names must be pairwise different (they are dictionary keys). The short-stock row, the divisor of the averages and the 'mcafee' names are findings, proved as stated."
  },
  {
   "property": "C93",
   "status": "proved",
   "theorems": [
    "C93_optimal_trade",
    "C93_gain",
    "C93_ascending_auction",
    "C93_trade_reduction",
    "C93_mcafee",
    "C93_tree_optimal_trade",
    "C93_tree_auction",
    "C93_integer_auction",
    "C93_ascending_code",
    "C93_trade_reduction_code",
    "C93_mcafee_code",
    "C93_large_values_refuted"
   ],
   "note": "Logical relation between the two runs, function by function. C93_*_code: with the fixed MAX_VALUE, through C49. C93_large_values_refuted shows that the bound is needed."
  },
  {
   "property": "C94",
   "status": "proved",
   "theorems": [
    "C94_recipes",
    "C94_cut",
    "C94_one_per_path",
    "C94_sizes",
    "C94_choice",
    "C94_largest_total_refuted",
    "C94_optimal",
    "C94_same_gain",
    "C94_explained",
    "C94_docstring_refuted"
   ],
   "note": "The functions with the same text as recipetree.py share its model. C94_largest_total_refuted and C94_docstring_refuted record what the docstring claims but the code does not do."
  },
  {
   "property": "C95",
   "status": "proved",
   "theorems": [
    "C95_ascending_winner",
    "C95_ascending_monotone",
    "C95_ascending_threshold",
    "C95_tree_winner",
    "C95_tree_monotone",
    "C95_tree_threshold",
    "C95_reduction_winner",
    "C95_reduction_monotone",
    "C95_reduction_threshold",
    "C95_mcafee_winner",
    "C95_mcafee_monotone",
    "C95_mcafee_threshold",
    "C95_loser_refuted"
   ],
   "note": "C95_loser_refuted: an agent who is out does influence the prices. McAfee with the heuristic price is covered only by C26."
  },
  {
   "property": "C96",
   "status": "proved",
   "theorems": [
    "C96_optimal_monotone",
    "C96_optimal_lipschitz",
    "C96_tree_monotone",
    "C96_tree_lipschitz",
    "C96_int_monotone",
    "C96_int_lipschitz",
    "C96_mcafee_monotone",
    "C96_auctions_refuted"
   ],
   "note": "C96_auctions_refuted: the ascending auction, trade reduction and McAfee with the heuristic price are not monotone."
  },
  {
   "property": "C97",
   "status": "proved",
   "theorems": [
    "C97_flag_adds",
    "C97_gain_refuted"
   ],
   "note": "C97_gain_refuted: the reported gain can go down."
  },
  {
   "property": "C98",
   "status": "proved",
   "theorems": [
    "C98_remove_seconds",
    "C98_remove_all",
    "C98_bad_search",
    "C98_gft0_search"
   ],
   "note": "Printing is modelled as rows of numbers; the texts of the trades are computed with the rendering of C89."
  },
  {
   "property": "C99",
   "status": "proved",
   "theorems": [
    "C99_calls",
    "C99_comparing_sbbs",
    "C99_tree_draws",
    "C99_tree",
    "C99_int_tree"
   ],
   "note": "Exact arithmetic; the parameters of the calls are literals in Model_Drivers.v. The stock part of experiment_recpietree.py is covered by C69 only."
  },
  {
   "property": "C100",
   "status": "proved",
   "theorems": [
    "C100_no_deficit",
    "C100_traders",
    "C100_rationality_refuted",
    "C100_nearly_rational",
    "C100_integers_exact",
    "C100_three_categories_refuted"
   ],
   "note": "Recipe [1, 1]; IEEE binary64 with rounding to nearest even. Uses Flocq and the standard library's axioms of the classical reals."
  },
  {
   "property": "C101",
   "status": "proved",
   "theorems": [
    "C101_integer_vectors",
    "C101_old_vectors",
    "C101_no_increases",
    "C101_no_increases_integer",
    "C101_integer_tree",
    "C101_multibuyer_recipe",
    "C101_multibuyer_empty",
    "C101_stock_no_prices",
    "C101_stock_short_recipe",
    "C101_float_zero_recipe",
    "C101_old_map",
    "C101_highest_agents_short",
    "C101_integer_initial_prices",
    "C101_stock_no_lists",
    "C101_multirecipe_no_unique",
    "C101_category_of_position",
    "C101_float_recipe_length",
    "C101_old_vectors_solver"
   ],
   "note": ""
  },
  {
   "property": "C102",
   "status": "proved",
   "theorems": [
    "C102_stock",
    "C102_sizes",
    "C102_shuffled_prices",
    "C102_shuffled",
    "C102_comparison",
    "C102_comparison_random"
   ],
   "note": ""
  },
  {
   "property": "C103",
   "status": "proved",
   "theorems": [
    "C103_split",
    "C103_program",
    "C103_integer_counts"
   ],
   "note": "int(len/2.5*count) is computed exactly here; in doubles the same for files of less than 2^50 prices (an integer quotient is exact, another one is at least 0.2 away from an integer)."
  },
  {
   "property": "C104",
   "status": "proved",
   "theorems": [
    "C104_nearly_balanced",
    "C104_nearly_rational",
    "C104_one_millionth"
   ],
   "note": "Uses Flocq and the standard library's classical reals (see DESIGN.md)."
  },
  {
   "property": "C105",
   "status": "proved",
   "theorems": [
    "C105_nearly_balanced",
    "C105_nearly_rational",
    "C105_traders",
    "C105_missing_prices",
    "C105_integers_exact",
    "C105_deficit_refuted",
    "C105_rationality_refuted"
   ],
   "note": "Two categories, buyers first, recipe [1,1]. Uses Flocq and the standard library's classical reals (see DESIGN.md)."
  },
  {
   "property": "C106",
   "status": "proved",
   "theorems": [
    "C106_nearly_truthful",
    "C106_two_millionths",
    "C106_exactly_truthful_refuted"
   ],
   "note": "Ties between equal reports are broken by the stable sort. Uses Flocq and the standard library's classical reals (see DESIGN.md)."
  },
  {
   "property": "C107",
   "status": "proved",
   "theorems": [
    "C107_two_sided",
    "C107_pairs",
    "C107_many"
   ],
   "note": ""
  },
  {
   "property": "C108",
   "status": "proved",
   "theorems": [
    "C108_same_optimum",
    "C108_buyers_first_deficit",
    "C108_sellers_first_surplus",
    "C108_not_sbb",
    "C108_sellers_first_not_sbb",
    "C108_unsorted_refuted"
   ],
   "note": "The script's lists and the flag buyerFirst are arguments of the model."
  },
  {
   "property": "C109",
   "status": "proved",
   "theorems": [
    "C109_optimal_trade",
    "C109_mcafee",
    "C109_trade_reduction_deals",
    "C109_ascending_deals",
    "C109_neighbours_trade_reduction",
    "C109_neighbours_ascending",
    "C109_prices_refuted",
    "C109_deals_refuted"
   ],
   "note": "For the ascending auction the statement about neighbours assumes at least one deal in both orders."
  },
  {
   "property": "C110",
   "status": "proved",
   "theorems": [
    "C110_same_outcome",
    "C110_returns",
    "C110_integer_children_refuted",
    "C110_integer_numbers_refuted"
   ],
   "note": "That the second run returns is proved for trees in which no category occurs twice. The result of the linear program is an argument of the model; the theorem assumes that it is the same in both listings."
  },
  {
   "property": "C111",
   "status": "proved",
   "theorems": [
    "C111_same_outcome",
    "C111_any_listing",
    "C111_ties_refuted",
    "C111_empty_refuted"
   ],
   "note": "Moderate: all values within [-B, B] with 2*B*height <= MAX_VALUE, as in C38 and C55. Categories outside the tree keep their initial prices, so prices are compared on the tree only. That both runs return is C38_moderate_terminates."
  },
  {
   "property": "C112",
   "status": "proved",
   "theorems": [
    "C112_ascending",
    "C112_trade_reduction",
    "C112_mcafee",
    "C112_tree",
    "C112_own_price_refuted",
    "C112_utility_refuted"
   ],
   "note": "Better is Spec_Statics.improves (C96). values_small and cap_suffices are the standing assumptions of C20. A price is what an agent pays, negative for sellers."
  },
  {
   "property": "C113",
   "status": "proved",
   "theorems": [
    "C113_ascending",
    "C113_trade_reduction",
    "C113_tree",
    "C113_mcafee_refuted",
    "C113_deals_refuted"
   ],
   "note": "Spec_Lipschitz.near and leverage. Categories the recipe does not use have no meaningful price and are left out. cap_suffices and values_at_least are the standing assumptions of C20. For the tree, raises in several categories follow by composing single steps; the bounds add up."
  },
  {
   "property": "C114",
   "status": "proved",
   "theorems": [
    "C114_ascending",
    "C114_trade_reduction",
    "C114_trade_reduction_ones",
    "C114_tree",
    "C114_at_the_price_refuted",
    "C114_mcafee_refuted"
   ],
   "note": "Spec_Outsiders.differ_below compares the markets as multisets, category by category."
  },
  {
   "property": "C115",
   "status": "proved",
   "theorems": [
    "C115_ascending",
    "C115_trade_reduction",
    "C115_trade_reduction_ones",
    "C115_tree",
    "C115_mcafee",
    "C115_mcafee_refused",
    "C115_mcafee_two",
    "C115_below_the_price_refuted",
    "C115_mcafee_sign_refuted",
    "C115_mcafee_three_refuted"
   ],
   "note": "Spec_Winners.changes_left compares the markets as multisets, category by category."
  },
  {
   "property": "C116",
   "status": "proved",
   "theorems": [
    "C116_buyer",
    "C116_seller",
    "C116_exactly_truthful_refuted",
    "C116_heuristic_refuted"
   ],
   "note": "Spec_FloatMcAfeeTruth.possible_gain; the exact counterpart is C26."
  },
  {
   "property": "C117",
   "status": "proved",
   "theorems": [
    "C117_buyer",
    "C117_seller",
    "C117_price",
    "C117_no_regret",
    "C117_exactly_truthful_refuted",
    "C117_large_values_refuted"
   ],
   "note": "Spec_FloatReductionTruth.reduction_gain; the exact counterparts are C20 and C107."
  },
  {
   "property": "C118",
   "status": "proved",
   "theorems": [
    "C118_two_sides",
    "C118_no_deficit",
    "C118_buyer",
    "C118_seller",
    "C118_three_refuted"
   ],
   "note": "The exact counterpart is C109."
  },
  {
   "property": "C119",
   "status": "proved",
   "theorems": [
    "C119_winner",
    "C119_monotone",
    "C119_threshold",
    "C119_mixed_signs_refuted",
    "C119_three_categories_refuted"
   ],
   "note": "The protocol without the heuristic price and the other auctions are in C95."
  },
  {
   "property": "C120",
   "status": "proved",
   "theorems": [
    "C120_buyer",
    "C120_seller",
    "C120_exact_refuted",
    "C120_monotone_refuted",
    "C120_heuristic_refuted",
    "C120_reduction_buyer",
    "C120_reduction_seller"
   ],
   "note": "The exact counterparts are C95 and C119."
  },
  {
   "property": "C121",
   "status": "proved",
   "theorems": [
    "C121_higher_report",
    "C121_any_reports",
    "C121_threshold",
    "C121_threshold_two_millionths",
    "C121_exact_threshold_refuted"
   ],
   "note": "The counterpart for McAfee and trade reduction, where only closeness holds, is C120."
  },
  {
   "property": "C122",
   "status": "proved",
   "theorems": [
    "C122_inside_irrelevant",
    "C122_at_the_price_refuted",
    "C122_outside_refuted"
   ],
   "note": "The markets are compared after the sort of AgentCategory (the model's f_sort), so that zeros of different signs keep their places."
  },
  {
   "property": "C123",
   "status": "proved",
   "theorems": [
    "C123_ascending",
    "C123_mcafee",
    "C123_reduction",
    "C123_zero_signs_refuted"
   ],
   "note": "The exact counterpart is C48."
  },
  {
   "property": "C124",
   "status": "proved",
   "theorems": [
    "C124_no_envy",
    "C124_two_millionths",
    "C124_nothing_left",
    "C124_exact_refuted"
   ],
   "note": "The exact counterpart is C82."
  }
 ]
}