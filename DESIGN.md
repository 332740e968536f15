# Formal model of dvirg/auctions in Rocq (Coq 8.16.1)

## 1. Approach

The Python code is re-expressed, function by function, as total Gallina functions
(`rocq/theories/Model_*.v`); every definition cites the file and lines it models.
Properties are stated in terms of small independent specifications (`Spec_*.v`: feasible trades,
sub-multisets, utilities, root-to-leaf paths, deals along a path, ...) and proved for all inputs
(`Proof_*.v`).  `Props_*.v` hold the property theorems (named `Cxx_...`), one `exact lemma` each, followed by
`Print Assumptions` and by an `Example` that meets the hypotheses with a non-trivial concrete case.
A theorem whose name ends in `_refuted` proves, by a concrete witness, that a stronger or expected statement
is false of the code; it stands beside the strongest true statement we proved.

Conventions

* Numbers are exact rationals `Q`, compared with `==`, `<=`, `<`. Python ints and floats are
  both represented by them, so float rounding is *not* modelled in the main development
  (C53, C64, C65, C100, C104, C105, C106, C116, C117, C118, C120, C121, C122, C123 and C124 are the separate binary64 statements: what fails with rounding and what does not).
* Recipes / agent counts are `list nat` (Python ints >= 0; negative counts are not modelled).
* `result A := Ok a | Raise exn | Timeout`: exceptions are values; `Timeout` is only produced when the
  fuel of a `while True` loop is exhausted.  Theorems show when this cannot happen, or that no amount of fuel suffices.
* `list.sort` is a stable insertion sort (Python's sort is stable).
* Objects are immutable records in the main models; mutation is functional update.  That the
  protocols work on clones, so the caller's objects are untouched, is C52, proved on heap models
  (`Model_Heap.v`: a store of category cells, markets as lists of addresses, aliasing allowed),
  which are also proved to compute the same results as the functional models.
* `scipy.optimize.linprog` is an argument: theorems hold for *every* initial price vector that meets the
  documented contract of `calculate_initial_prices` (`initial_prices_ok`), and C35 proves that the program
  given to linprog is feasible and what its optimum is.
* MAX_VALUE is a parameter `M` of the model functions, instantiated by the constant 100000000 in the API functions.

## 2. Trusted base

* Coq 8.16.1's kernel (`coqc`; `coqchk` accepts all files too), the standard library.  `Print Assumptions` prints
  "Closed under the global context" (no axioms) for every property theorem except forty-two (printed at build time in the Props
  files).  The forty-two are C64_individually_rational, C64_best_remain, C65_integers_exact, C65_integers_budget_balanced,
  C100_no_deficit, C100_traders, C100_nearly_rational, C100_integers_exact, C104_nearly_balanced, C104_nearly_rational,
  C104_one_millionth, C105_nearly_balanced, C105_nearly_rational, C105_traders, C105_missing_prices, C105_integers_exact, C106_nearly_truthful,
  C106_two_millionths, C116_buyer, C116_seller, C117_buyer, C117_seller, C117_price, C117_no_regret, C118_no_deficit, C118_buyer, C118_seller, C120_buyer, C120_seller, C120_reduction_buyer, C120_reduction_seller, C121_higher_report, C121_any_reports, C121_threshold, C121_threshold_two_millionths, C122_inside_irrelevant, C123_ascending, C123_mcafee, C123_reduction, C124_no_envy, C124_two_millionths and C124_nothing_left: they
  use Flocq's lemmas on binary64, whose proofs use the standard library's real numbers and hence the standard library's axioms
  `ClassicalDedekindReals.sig_not_dec`, `ClassicalDedekindReals.sig_forall_dec`,
  `FunctionalExtensionality.functional_extensionality_dep` and `Classical_Prop.classic`.  Flocq itself adds no axiom.
* The gate tool lists `ssrunder`/`ssreflect` module fields under "library_axioms": these are fields of a module type of
  Coq's standard ssreflect plugin files that `Lia`/`Lqa` load; no theorem depends on them.  Likewise the fields of
  `RbaseSymbolsImpl`/`RinvImpl` (the standard library's opaque modules around the definitions of the reals) for C64, C65, C100, C104, C105, C106, C116, C117, C118, C120, C121, C122, C123, C124.
* The correspondence between /repo and the model, by reading; the line citations make it reviewable.  As evidence for it,
  `Conformance.v` runs the model on the doctests and unit tests that the repository ships (505 examples, translated by a script
  from the text of the docstrings and tests) and finds the recorded results, except where the recorded result is not what the
  code does; these exceptions were checked by hand and are listed in the file (see the remarks below).  `Conformance_Demos.v` does
  the same with the outputs of the demonstration programs recorded in results/*_demo_*.txt and with the claims in their comments.

### What is modelled

| file in /repo | lines | model |
|---|---|---|
| agents.py | 14-111 (AgentCategory, MAX_VALUE) | Model_Agents.v |
| trade.py | 42-133 (TradeWithSinglePrice, TradeWithMultipleRecipes) | Model_Trade.v, Model_TreeAuction.v |
| markets.py | 17-228 (Market, optimal_trade, ...) | Model_Market.v |
| prices.py | 18-119 (PriceVector) | Model_Prices.v |
| prices.py | 125-232 (SimultaneousAscendingPriceVectors) | Model_TreeAuction.v |
| ascending_auction_protocol.py | 24-136 | Model_Ascending.v |
| trade_reduction_protocol.py | 22-286 | Model_TradeReduction.v; with doubles, for a recipe of ones: Model_FloatTradeReduction.v |
| mcafee_protocol.py | 21-185 | Model_McAfee.v; with doubles: Model_FloatMcAfee.v |
| recipetree.py | 29-482 | Model_RecipeTree.v |
| ascending_auction_recipetree_protocol.py | 39-191 | Model_TreeAuction.v |
| prices_integer.py | 18-288 | Model_IntPrices.v |
| recipetree_integer.py | 282-689 | Model_IntTree.v |
| ascending_auction_recipetree_integer_protocol.py | 45-195 | Model_IntAuction.v |
| tree_calculations.py 11-55, get_stocks_data.py 93-109 | | Model_TreeCalc.v |
| get_stocks_data.py | 20-77 (getPrices, getAllPricesShuffled; the csv reader and the shuffles are arguments) | Model_StockData.v |
| stock/experiment_compare_iterations_autions.py | 50-236 (experiment, padding_zeroes; shuffles and draws are arguments) | Model_CompareStock.v |
| stock/experiment_stock.py 47-93, stock/experiment_compare_iterations_autions_without_mcafee.py 46-116, stock/experiment_compare_sbb_shufled_stock.py 47-179 | | Model_StockTables.v |
| experiment.py | 36-88 | Model_Experiment.v |
| experiment_comparing_sbb.py | 36-105 | Model_Experiment.v |
| experiment_ascending_auction_recipetree_random.py | 48-129 | Model_Experiment.v |
| agents.py | 115-119 (uniformly_random; the draws are an argument) | Model_Experiment.v |
| experiment_ascending_auction_recipetree_stock.py, ..._integer_stock.py | 77-155 | Model_StockExperiment.v |
| experiment_ascending_auction_recipetree_integer_random.py | 83-128 | Model_StockExperiment.v |
| ascending_auction_recipetree_test.py | 29-52 (ps_recipe_to_recipe_struct) | Spec_Path.v |
| old/ascending_auction_multirecipe_protocol.py | 36-62, 67-78, 97-285 (with the current prices.py, which it imports) | Model_OldMulti.v |
| old/ascending_auction_multibuyer_protocol.py | 31-242 (with the current prices.py, which it imports) | Model_Multibuyer.v |
| old/SimultaneousAscendingPriceVector.py | all but the LP (128-161) | Model_OldPrices.v: the shared list of prices is one field; linprog is a parameter |
| recipetree.old.py | 150-409 (functions with the same text as recipetree.py share its model) | Model_OldTree.v |
| trade_reduction_demo_lemonade.py | 30-95 (the lists and buyerFirst are arguments) | Model_Demos.v |
| stock/finding_bad_input_for_ascending_auction.py, stock/trade_reduction_demo_difference_gft0_simple.py | 19-65; 22-27, 36-78 (shuffles and draws are arguments) | Model_Search.v |
| experiment_comparing_mcafee_to_sbb.py 19-49, mcafee_experiment.py 18-34, ascending_auction_experiment.py 17-34, experiment_sbb_with_two_categories.py 15-23, experiment_sbb_with_vectors_of_ones.py 19-34, stock/comparing_results_for_demo_11.py 56-86, comparing_sbbs.py 20-31, experiment_recpietree.py 30-44 (the random part), experiment_recpietree_integer.py 30-45 | the calls and their parameters (draws are arguments) | Model_Drivers.v |
| get_stocks_data.py 80-86; stock/ascending_auction_experiment_stock.py 17-27, stock/mcafee_experiment_stock.py 17-22, stock/experiment_sbb_with_vectors_of_ones_stock.py 20, stock/experiment_sbb_stock_vectors_{multi,ones}{,_shuffled}.py 20-36, stock/experiment_comparing_mcafee_to_sbb_stock.py 21-31, stock/experiment_comparing_all_with_all_recipes.py 20-97 | the calls and their parameters (files and shuffles are arguments) | Model_StockDrivers.v |
| experiment_recpietree.py 18, 46-51 (the stock part), get_stocks_data.py 89-109 with fractional counts, experiment_ascending_auction_recipetree_stock.py 78-81 | shuffles are arguments | Model_TreeStock.v |
| trade.py 66-67, 135-150; agents.py 51-52; recipetree.py 442-482; recipetree_integer.py 649-689 (the texts) | | Model_Report.v |

(The exact file of each definition is in the comment above it.)

### What is not modelled

Float rounding (except C53, C64, C65, C100, C104, C105, C106, C116, C117, C118, C120, C121, C122, C123, C124), logging, string rendering other than the texts of trades (C89; the rendering of a number is a parameter there), random generators (the draws are universally quantified arguments), csv/file/network input, plots, linprog's internals, the demos other than the lemonade script (C108),
the LP of `old/SimultaneousAscendingPriceVector.py` (a parameter), and the demos in `old/`.

### Remarks found while modelling

* Recorded results that the code does not produce (found by `Conformance.v`): ascending_auction_test.py, seven of the ten cases of
  test_market_1_1_1 (lines 85-105), hold for the tree protocol only; prices_integer.py:266 records -200 where the code (and the
  documented equation) gives -150; the doctests of combined_values_detailed_with_counters in recipetree_integer.py for trees
  with children (the code raises TypeError, C47); the texts in recipetree.old.py:53-125; the market line in
  ascending_auction_recipetree_protocol.py:94; two doctests of the multi-buyer protocol (C75);
  the comments at ascending_auction_demo_23.py:25 and 29 (true of the data recorded in results/, not of the data in the program).
* The integer protocol does not pass the agent counts to the price vectors in the way the price code expects (line 160),
  which is what C44/C57 exhibit.
* A comment in tree_calculations says `[1,1,1]` for `recipes_111`; the code gives `[2,1,1]`.
* C102: the shipped file of FCEL has a price of 7830; with recipes such as seventeen ones or (4,3,2,1) the buyers' values made of it can
  exceed MAX_VALUE, so that file is outside the bound of `C102_sizes` (4166; the other shipped files are within it).
* stock/ascending_auction_demo_12_stock.py imports a module `get_stock_data` that does not exist (the file is get_stocks_data.py).
* C53: the model of Python's `sum` adds left to right; Python >= 3.12 uses compensated summation, which
  gives the same result for the two-summand sums of the budget-balance witness.

## 3. Per property: what is modelled and how it is proved

* C01, C02: AgentCategory; invariant over an arbitrary list of operations; Permutation + Sorted.
* C03-C06: Market.optimal_trade as a bounded loop (iteration cap is a parameter); induction on the loop; exchange
  argument "sum of any m elements <= sum of the m first elements of the descending list".
* C07, C08: TradeWithSinglePrice; expectation specified as the average over all
  sublists of the required length; closed form by double counting.
* C09: algebra on price vectors.
* C10-C13: loop invariant of the ascending auction: the state is determined by the vector of sizes.
* C14: dichotomy lemma comparing the two runs for two reports of one agent (`Proof_Strategy.v`).
* C15, C16: compare sizes at the stopping time with the optimal number of deals.
* C17-C21: the trade-reduction loop over procurement sets and pivots; invariants
  on remaining market tops; truthfulness for all-ones recipes by a threshold argument; counterexample for (1,2).
* C22-C27: McAfee protocol: case analysis; threshold argument for truthfulness; refutations for the excluded cases.
* C28-C33: recipe tree as an inductive rose tree; nested induction; greedy combination of children is an optimal
  merge; deals specified independently as (path, one agent per category) lists.
* C34, C35: simultaneous price vectors; witness for LP feasibility plus an upper bound.
* C36-C41: tree-auction loop invariants; dichotomy lemma; divergence by showing that a round is a fixpoint.
  C38 has termination for brooms (only leaves have siblings) and for moderate markets whose deep inner
  categories (with children, neither root nor child of the root: Spec_Ties.v) are free of ties, the dichotomy
  "ends within agents+1 rounds or never", and two divergence witnesses.
* C42-C47, C57-C61: integer versions: the same style; counterexamples by computation; C45 is a simulation between the
  integer auction with unit counts and the binary one, from which C44/C56/C58 get their unit-count parts.
* C48: sort canonicalisation.  C49: simulation between two runs with different M (ascending auction); for the trade reduction and McAfee a relation in which real agents are equal and dummies are -M and -M'.
* C50, C51: induction over trees / lists.
* C52: heap of category cells; footprint of each protocol (existing cells unchanged, result cells fresh and distinct).
* C53: SpecFloat (axiom-free stdlib specification of binary64) computation of two runs; refutations.
* C54: both protocols follow the same walk through the category sizes (`Proof_TR6.v` for all-ones recipes; `Proof_TR11.v` - `Proof_TR14.v` for recipes of ones except for the last entry).
* C20, C79 without spare agents: trade reduction is a walk through the sizes in an order that depends only on the sizes, whatever the optimal number of deals (`tr_front`); then as for all-ones recipes.
* C55: per-node loss invariant over rounds (each category loses at most one optimal agent per recipe below it) and
  induction over the tree; tie counterexample.
* C62: threshold version of C55 for gains; counterexample to the single-recipe ratio.
* C63: per-round invariant relating sizes and combined values at current prices (`Proof_TA11.v`): a used leaf loses at
  most one optimal agent; then averaging per category with balanced final prices (`Proof_TA12/13.v`).
* C64: the model of C53; a bridge from SpecFloat to Flocq's `binary_float` (`Proof_Float.v`); invariant "every remaining
  value is at least the category's price", kept at the stop because rounding to nearest is monotone and values are
  representable; termination by the number of agents (`Proof_Float2.v`).
* C65: simulation of the binary64 run by the exact-rational run of the C01–C10 model (`Proof_Float3.v`): every intermediate
  result is an integer of absolute value at most 2^53, hence exact.  (With exact partial sums, the compensated `sum` of
  Python >= 3.12 gives the same numbers.)
* C66: the sums of experiment.py by induction on the iterations; per-iteration facts from C03-C06, C15, C16, C21, C25, C54;
  monotonicity of round and int (`Proof_Exp1.v`); refutations by computation.
* C67: counting lemma over the sizes; floor of the percentages; ties from C54.
* C68: as C66, with C33 (counters), C40 (at most optimal), C63 (ratio); (k-1)/(k+1) <= 1 - 1/k.
* C69: invariant over the nested loops: the totals for n are the column sums over the runs that use n; then divided by all runs. Refutations by two small stocks.
* C70: the counters of the integer tree raise (C47), and they are called before anything is summed.
* C71: both auctions are walks on the vector of category sizes (prices are functions of the sizes); two choice rules that agree when all sizes are level and never go below the minimum reach the same level; the round in which the price sum crosses zero then decides the number of deals.
* C72: lock-step simulation over `regrouped` trees (`Spec_Regroup.v`): the remaining agents of a group of leaves are a permutation of those of the merged category, prices of corresponding categories are equal, all remaining values lie strictly above the price; so the lowest agent of the group is the one the merged category loses. Then C71 for the two-category path.
* C73: case analysis of one round (`multi_round_cases`), invariants (equal negative price sums, prefixes, individual rationality) over the loop; the number of remaining agents decreases; recursion on the number of recipes; common categories keep their initial price, so the price sum cannot reach 0 while a shared category is left in two recipes.
* C74: simulation (`Proof_Om6.v`): the sizes of the categories of each recipe follow the walk of the recipe's own auction (`walk_step` of C01's proof), the price of each category that is not chosen is the value of its last leaver, so the common price sum reaches 0 exactly when each recipe's own auction stops; then induction on the left-out recipes. Feasible prices for disjoint recipes are constructed (`spread_prices`).
* C75: the loops are left by EmptyCategoryException only, hence no deals; sizes as invariants: with two or more buyer categories the demand stays positive after each removal, so the loop goes on until a category is empty and `values[-1]` raises.
* C76: invariant inside a call: for each recipe, the sum without its own category is that before the call; hence the sum of a recipe is fixed by the last increase of its category; histories by induction from the end; counterexamples for incompatible increases and for sums within the tolerance.
* C77: parallel run of the two markets up to the first round in which they differ; there a lowest value is dropped in one market that is lower in the other, and by counting ranks some agent above (below) it in the true order is at or below (above) it in the reported one: that agent misreports, and does not gain because of the bounds on the final price; the order of equal values is an arbitrary ranking.
* C78, C79: coalitions in the recipe-tree auction (`Proof_Gsp3.v`) and in the trade reduction (`Proof_Gsp4.v`): the honest and the lying run are followed in parallel up to the first round in which they differ; the agent whose report makes the difference does not gain. Statements use only `Spec_Group.v` and the utilities of C14/C39. The strong forms are refuted.
* C80: coalitions in McAfee's trade reduction (`Proof_Gsp5.v` without the heuristic, `Proof_Gsp6.v` with it, two-sided markets): a direct argument on the sorted values of the two markets; the strong form is refuted.
* C81: Props_TR2.v / Proof_TR9.v. The gain of trade reduction for every recipe: the lower bound 1 - 1/k (k optimal deals) is
  proved through the balanced prices that separate the agents kept from the agents put back; it is attained (C81_tight).
* C82: Spec_Stable.v (agents left out, deals among them, envy), Proof_Stable*.v, Props_Stable.v. The sorted list of the agents left
  out is the rest of the sorted category, so a set of n deals among them gains at most a sum of consecutive values; this is
  bounded through the prices (sum at most 0), or through optimality when whole optimal deals were kept. Refuted variants are proved too.
* C83: markets.py 27-57 (constructor, append_trader, append_PS, has_empty_category); induction on the list of values; the round
  trip uses uniqueness of the sorted list up to equality of values.
* C84: object-level contracts of constructors (prices.py, prices_integer.py, old/); direct proofs by case analysis.
  C75_price_bound: invariant "prices at most the largest value per unit" over the nested loops. C19_flag: the walk of trade
  reduction starting at the last acceptable block.
* C85: get_stocks_data.py 20-77 as functions of the four columns; the dealing loop is a fold whose result for category j is a filter
  of the indices (induction), the filter is an arithmetic progression; coprimality gives injectivity modulo 2n (Gauss), hence a
  permutation; balance by uniqueness of truncation.
* C86: Spec_CompareStock.v (markets drawn from the prices, columns, averages, bounds), Proof_CompareStock*.v, Props_CompareStock.v.
  Invariant of the loops: the current price list is a permutation of the stock doubled for the largest number so far; the totals
  are folds over the list of iterations; the bounds hold per iteration (C03, C07-C12, C17-C19, C22-C26) and are kept by averages.
* C87: the numeral's value is split at the point; induction on the number of digits.
* C88: the loop over the columns is a fold; its state after each auction is characterised by the SBB auctions so far.
* C89: the strings are modelled (`Model_Report.v`); `rstrip` removes exactly the last line break because no line ends with white space; the lines of a tree by induction over the tree, with C31/C60 for 'the largest number of deals'. Refutations by computation.
* C90: per stock, from C03-C05, C07-C12, C17-C19, C22-C26 for the market of its values; the rounding is monotone and has fixed error.
* C91: induction over the numbers of agents, with the flag `last_iteration`; the flag is the number of too large numbers so far.
* C92: induction over iterations (the total is a multiple of the one outcome), numbers (each dictionary entry is written by its number only), stocks (the dictionary of averages holds the sums of the rows written so far). Failures by computation, the UnboundLocalError for all inputs.
* C93: logical relation "equal up to the factor c" carried through every function (comparisons are invariant, sums, differences and quotients by counts are linear); then C49 to replace the converted MAX_VALUE by the code's constant. Failure for large values by computation.
* C94: structural induction on the tree; the combined size is num_of_deals (C31); the cut as in C30; positive combined values are a prefix of the sorted combined values, and a shorter prefix has a smaller sum (fewest deals); the report as in C89.
* C95: the two-run arguments of C14, C20, C26 and C39, keeping the outcomes instead of the utilities: while the agent is in, both runs make the same choices; the sorted categories agree up to the insertion of the own report.
* C96: the sorted values of the better category dominate position by position (counting argument); blocks, combined values and group sums are monotone for that order; the loop of optimal_trade therefore accepts at least the same deals. For the upper bound, the discarded suffixes of the sorted lists dominate too. Non-monotonicity of the auctions by computation.
* C97: the two runs are equal until the first pivot of gain zero; from then on the run with the flag keeps every pivot, the other one keeps some of them (simulation relation over the nested folds). Witness for the gain by computation.
* C98: removeSeconds by induction on blocks of n positions; the loops by induction on the rounds with C10, C15, C17, C18, C21, C97 for one round.
* C99: every literal call satisfies the conditions of C66/C67 (checked by a boolean function that is proved sound); for the tree program C38 (three levels, any ties) gives termination of each auction and C68 the table; the integer program is an instance of C70.
* C58 (forks): invariant of the loop: the root keeps the price -M, the second leaf's price is (c-1)M above the first's and at most M, so the first leaf's price stays below -M and no agent of the root or the first leaf ever leaves.
* C100: `Model_FloatMcAfee.v` (doubles from SpecFloat). The sign of the sum of two doubles is computed correctly (Flocq's `round_plus_neq_0`), so the loop of optimal_trade makes the same steps as the exact model on the same numbers (simulation, any iteration bound); the prices are a deal of the list or plus/minus the candidate, which is finite and non-negative whenever it is accepted. Loss bound: the deals form a chain, a later deal with the same rounded gain differs by a relative 2^-52 (`FLT_plus_error_N_ex`). Integers: every sum, comparison and halving is exact. Refutation: 4-0.1 and 4-0.10000000000000002.
* C101: by unfolding and induction on the malformed lists; the statements quantify over everything else (solver, counts, bounds).
* C70 (single category): the sums of the iterations by induction on the markets.
* C100 (three categories): refuted by 10^16, -1, -10^16, whose rounded sum is 0.
* C102: getPrices gives values bounded by the prices (C85), so the conditions of C90, C91, C92 and C86 hold; for the literal recipes and numbers they are checked by boolean functions that are proved sound. C86 and C90-C92 ask for a bound per category (`buyers_fit`, `prices_fit`) instead of one bound for all.
* C103: the shares sum to at most the number of prices (floors), so the dealing never runs out; every run (a permutation of the dealt lists, cut or not) meets the conditions of C38 for three levels with the bound 2000 P; then C69.
* C104: every rounding of a number below 2^k errs by at most 2^(k-54) (Flocq's `error_le_half_ulp`); two roundings per category in `dot`, two more for the sum without the category, and the relative error of the last division. Rationality: the sign of the last sum is right, so the price is at most fl(fl(r*v)/r), two roundings away from v. The loop is handled by an invariant (all prices and values bounded) and a characterisation of its last step.
* C105: the trade-reduction protocol with doubles, buyers first, then sellers. The sign of a rounded sum of two doubles is right (Flocq's `round_plus_neq_0`), so the search for external competition takes the same decisions as with exact numbers; the order of the deals can differ only between deals whose gains are rounded to the same number, which differ by a factor of at most 2^-52. One induction over the competing deals says how the loop ends; the price error is that of two roundings. Integers below 2^52: a simulation with the exact model.
* C106: the runs with the two reports are compared round by round: the numbers of agents, hence the choice of the category, and the prices agree until the agent with the lower report is next. If it stays, the outcomes are the same; if it leaves, its price in the other run is at least its report up to rounding: after a round that does not end the auction the exact price-sum is at most (2n+3)*2^(k-54), the last price makes it at least -(2n+5)*2^(k-54), so the last price is at most (4n+8)*2^(k-54) below the one before. The position in the category comes from a lemma on the stable sort. The counterexample to exact truthfulness was found by a random search with Python floats.
* C107: the abstract walk of the trade-reduction proofs (Proof_TR3.v tr_spec) restricted to two categories: blocks beyond k are rejected because
  their sums are bounded by the gain of block k, and in block k the walk stops at its first or second step. `profitable_pairs` (Spec_Demos.v) is shown
  equivalent to the stopping condition of optimal_trade.
* C108: (1) the stopping index and the gain of both kinds of markets are determined by the triples of the three lists; (2), (3) the closed form C107
  in the three sub-markets, then a case analysis on which of the three auctions keep all deals.
* C107 (`C107_many`): the walk through the pivots of the last optimal block (Proof_Many.v) written as totals of ranked values (`total_after`, Spec_Demos.v).
* C109: the stopping index of the optimal trade and the gain of a procurement set are sums over the categories, so a permutation of the categories does not change them (Proof_Reorder.v); McAfee's candidate price and its acceptance are a sum and a conjunction over the categories (Proof_Reorder2.v); for trade reduction the totals of C107_many differ only at the place between the two neighbours (Proof_Reorder3.v), and C54 carries the prices over to the ascending auction (Proof_Reorder4.v).
* C110: the two runs are simulated round by round: the chosen categories of the two trees are permutations of each other (through the renumbering), the increase is the minimum of the same numbers, so prices and remaining agents stay paired (round_paired); combined values of permuted children are equal after sorting, and the deal counts are sums, minima and maxima over the children (Proof_Renumber.v).
* C111: the reachable prices are characterised without reference to the start (`can`, Proof_Initial.v): at each node, the price passed a value only while more agents of the node than of its children were left, and the children passed a level only while at least as many of theirs were left. At each level (sum of prices along a path) there is only one such price vector (can_unique, induction on the tree); every point of every raise of every run is one (can_raised); below a certain level nothing is claimed (`ripe`), since there the two starts differ. Two runs are then compared at level 0, just before it, or at the level where the root becomes empty. C111_any_listing composes this with C110.
* C112: the final prices of the ascending auction and of trade reduction (recipes of ones) are "orderly" (Proof_Better.v): a price passed a value only while the category had the most procurement-sets left, counted by the values above the prices. Two orderly and balanced price vectors on a market and a better one are compared directly: if the price of an unchanged category were higher in the better market, all prices would be, and the sums could not both be 0 (others_down); own_up is the contrapositive via the balance. McAfee: ranks of the last optimal deal and C96. The tree (Proof_Better3/4): the states at a level of C111 are compared between the two markets. At equal levels (`compare`, induction on the tree) the root of a subtree with the better category has a lower price and at least as many agents; from the root downwards (`chain`) the level of the subtree with the better category is higher only because there were more agents on the whole way there, which is what keeps the prices of the complements below; `supply` (an invariant of the rounds) provides the states in between, `can_mono` says that all prices go up with the level.
- **C113** (Spec_Lipschitz, Proof_Lipschitz 1-3, Props_Lipschitz). Two final price vectors of the ascending auction are "in order": there is a
  category up to which the one auction has gone further, and no price can be more than eps above in one market while another is more than eps
  below. Both vectors satisfy recipe * prices = 0, so a price that moved too far would have to be compensated by the others. Trade reduction:
  the order of the blocks is the same for both markets; the case that a price starts too high already is treated separately. Tree: raising the
  price level by eps compensates an improvement by eps (`compensate`), which bounds all prices on one side; the directions are from C112.
- **C114** (Spec_Outsiders, Proof_Outsiders 1-3, Props_Outsiders). The walk of the second market over the numbers of remaining agents stays above
  the final numbers of the first until it reaches exactly these, because the agents above the prices are the same; there the walk stops, for the
  same reason as the first. Trade reduction follows by its agreement with the ascending auction (C54).
  In the tree, prices that are right (`can`) for a market and have all lower levels supplied are right for every market in which the same agents
  have values down to a little below these prices (`can_transfer`); right prices are unique, at the end and shortly before it.
- **C115** (Spec_Winners, Proof_Winners*, Props_Winners): the remaining agents get new values that are at least the price. Both walks take the
  same steps, since a walk looks only at values of agents who leave; the last step ends the same way because the lowest new value is at least the
  balancing price. Trade reduction follows through the equality of C54. For the tree auction, prices that are right for the first market shortly
  before the end are right for the second one (`can_below`: both markets have the same agents below these prices), and in the limit so is the end.
  The tree needs new values strictly above the prices. McAfee's protocol looks only at the last optimal row and the next one, which do not change;
  with an accepted candidate price this needs the price to separate the two, which holds for buyers and sellers and fails for three categories.
- **C116** (Spec_FloatMcAfeeTruth, Proof_FMT, Props_FloatMcAfeeTruth): the sign of the sum of two doubles is exact, so the number k of deals is; the
  price is the value of some agent among the k best, at most B * 2^-52 above the k-th (C100). If the liar trades at p' below its value, then
  with the truth there are at least as many deals, the k-th value is at most p', and it trades or is within the rounding of the price. With the
  heuristic a rounded tie decides which deal has to accept the candidate price: refuted by computation.
- **C117** (Spec_FloatReductionTruth, Proof_FTT, Proof_FTT2, Props_FloatReductionTruth): `fclear` describes the outcome of the protocol with doubles by one
  number c: traders value the item at least c - 2E (E = B * 2^-52), the others at most c, the prices are c and -c up to E, and an agent who does not trade (the
  cancelled buyer or the best remaining seller) has exactly the valuation c. The buyers who trade or are cancelled and the sellers who keep their item are
  as many as the sellers; counting the valuations above a number between the two prices shows that a trader with a false report cannot have moved c in its favour by
  more than 4E. Needs B < MAX_VALUE, since otherwise the dummy agent can set the price (C117_large_values_refuted).
- **C118** (Proof_FMS, Props_FloatOrder): addition of doubles is commutative (case analysis of `SFadd`, NaN and infinities included) and 0 + x = x up to the sign of
  zero, so every sum of two values, the stable sort by gain, the candidate price and the test of the price are the same for the reversed deals; `mcafee_swap` follows
  by induction over the loop. C100 and C116 carry over.
- **C119** (a trader cannot influence McAfee with the heuristic price): the threshold T of C95 is given by the other agents; an agent trades
  iff he stands before position T, or at it with a good enough report and an accepted price.  In both cases the next row, hence the
  candidate price, is the same, and acceptance is monotone in the report as long as the category has one sign (`Proof_Threshold5`).  The
  threshold property follows from truthfulness (C26) and individual rationality.  No axioms.
- **C120** (the same with doubles, without the heuristic): the number of deals is decided by exact comparisons (C100), so it is the same by
  counting agents; the price is within the rounding of C100/C116 of the last agent of the others, who is the same in both runs
  (`Proof_FMW`: `one_more`, `price_le`, `other_price`).  Trade reduction: `buyer_price`
  and `seller_price` of C117 in both directions (`Proof_FTW`).  Standard library axioms of the reals through C116.
- **C121** (the ascending auction with doubles): the two runs of one agent's two reports proceed in lockstep (Proof_FU3) until the agent's turn
  comes: if it stays with the lower report, the same rounded comparisons end the auction at the same prices; if it leaves, the price in the
  other run is at least the lower report less the rounding. The same sizes then give the same remaining agents elsewhere.
- **C122** (several agents at once): the run is simulated step by step with the new values on top of each category: the same agents leave, and the
  last comparison is monotone in the rounded sum (`mono_sum`), so the auction ends at the same point; the final price does not contain the report.
- **C123** (the order of the agents with doubles): two finite doubles that compare equal are the same double or zeros of different signs, so a
  sorted list is decided by its multiset; the protocols see the sorted categories only.
- **C124** (the agents who left, with doubles): when an agent leaves, the price of its category is its report; from then on the price falls by the
  rounding at most (`tail_price`); the price-sum is near 0 (C104).

## 4. Wrong programs

seeded/LOG.jsonl has one line per edit. The first lines are edits by hand, the later ones (with "line n: ... -- old => new") are
mechanical edits of every definition of the model: comparisons, arithmetic, constants, `fst`/`snd`, branches, exceptions. "Failed" means
that the build stops in the named lemma; for an edit that does not change the function (marked `none`, or for instance `=?` to `<=?` against 0)
this only says that the script depends on the text. Mechanical edits that survived led to the theorems named in "theorems_tightened", or are
marked with the reason why they change nothing.
