{"id": "C01", "title": "AgentCategory history keeps values sorted and loses nothing", "statement": "After any sequence of construction, append (single value or list), remove_highest_agent(s), remove_lowest_agent and clone, the category's values are sorted in descending order, and they are exactly (as a multiset) the values put in minus the values taken out; each removal takes out a maximal (resp. minimal) value of the category at that moment.", "quantifier": "every initial value list and every finite history of operations with arbitrary values", "why_tests_cant": "The histories and value lists are unbounded; tests exercise a handful of appends and pops.", "anchors": ["agents.py: AgentCategory.__init__, append, remove_highest_agent, remove_highest_agents, remove_lowest_agent, clone"]}
{"id": "C02", "title": "Highest/lowest queries are true extremes and fail only on empty categories", "statement": "highest_agent_value / lowest_agent_value return an element that is >= / <= every agent of the category; highest_agent_values(c) returns the c best agents (all of them when fewer); the single-value queries and removals raise IndexError exactly when the category is empty.", "quantifier": "every category reachable by a history of operations, every count c", "why_tests_cant": "A statement over all values and sizes, including ties and the empty boundary.", "anchors": ["agents.py: highest_agent_value, highest_agent_values, lowest_agent_value, remove_*"]}
{"id": "C03", "title": "optimal_trade conserves agents", "statement": "Market.optimal_trade(recipe) returns deals and a remaining market such that every deal consists of exactly r_i agents of each category i (in category order), and, per category, the agents in deals together with the remaining agents are exactly the market's agents: nobody is lost, duplicated or traded twice.", "quantifier": "every market (any number of categories, any values with ties), every recipe of matching length (zeros included), every max_iterations and both values of include_zero_gft_ps", "why_tests_cant": "Markets, recipes and loop lengths are unbounded.", "anchors": ["markets.py: Market.optimal_trade, get_highest_agents, remove_highest_agents, clone"]}
{"id": "C04", "title": "optimal_trade deals are profitable, ordered and exhaustive", "statement": "Every deal returned by optimal_trade has non-negative gain (strictly positive when include_zero_gft_ps=False); deals are listed in ascending order of gain; and when the iteration cap is not hit, no further profitable procurement-set can be formed from the remaining market.", "quantifier": "every market and recipe, both flag values", "why_tests_cant": "Exhaustiveness speaks about all procurement-sets that could be built from the leftovers.", "anchors": ["markets.py: Market.optimal_trade"]}
{"id": "C05", "title": "optimal_trade is globally optimal", "statement": "The gain-from-trade of optimal_trade(recipe) is at least that of every feasible trade: every choice, for some number m of deals, of m*r_i distinct agents from each category i.", "quantifier": "every market with at least one positive recipe entry, every feasible competing trade of any size", "why_tests_cant": "The competitors are exponentially many subsets; optimality is a universally quantified claim.", "anchors": ["markets.py: Market.optimal_trade", "trade.py: TradeWithMaterialBalance.gain_from_trade"]}
{"id": "C06", "title": "include_zero_gft_ps selects the largest / smallest optimal number of deals", "statement": "With include_zero_gft_ps=True the number of deals is the largest number of deals of any optimal feasible trade; with False it is the smallest; both have the same gain.", "quantifier": "every market and recipe, every competing optimal trade", "why_tests_cant": "Quantifies over all optimal trades.", "anchors": ["markets.py: Market.optimal_trade", "trade.py: TradeWithMaterialBalance.num_of_deals"]}
{"id": "C07", "title": "Number of deals of a single-price trade", "statement": "TradeWithSinglePrice.num_of_deals() is the largest n such that every category with positive count in the recipe has n*r_i agents; construction raises ValueError exactly when no recipe entry is positive.", "quantifier": "every list of categories, recipe and price vector", "why_tests_cant": "Ranges over all sizes; the floor of a float division is only right for all sizes by argument.", "anchors": ["trade.py: TradeWithSinglePrice.__init__, num_of_deals"]}
{"id": "C08", "title": "gain_from_trade is the expected gain, and the auctioneer's share is deals x price-sum", "statement": "gain_from_trade(including_auctioneer=True) is the expectation, over a uniformly random choice of the participating agents (every subset of the needed size equally likely), of the total value of the participants; gain_from_trade(True) - gain_from_trade(False) = num_of_deals * (price vector . recipe); it raises ZeroDivisionError exactly when there are deals but some category of the trade object is empty (which requires recipe entry 0).", "quantifier": "every single-price trade (all category sizes, recipes, prices)", "why_tests_cant": "The expectation is over combinatorially many random selections.", "anchors": ["trade.py: TradeWithSinglePrice.gain_from_trade"]}
{"id": "C09", "title": "increase_price_up_to_balance never crosses the bound", "statement": "Raising one price towards a target leaves all other prices unchanged, leaves the price-sum at most the bound; the status is STOPPED_AT_ZERO_SUM exactly when the target would reach the bound, and then the price-sum equals the bound exactly; otherwise the price equals the target. It raises ZeroDivisionError exactly when the category has count 0 in the recipe and the sum is already at or above the bound.", "quantifier": "every price vector, recipe, category, target and bound", "why_tests_cant": "All rationals; unit tests check four increments.", "anchors": ["prices.py: AscendingPriceVector.increase_price_up_to_balance, price_sum, price_sum_without_category, price_sum_after_increase"]}
{"id": "C10", "title": "The ascending auction always terminates and raises only on invalid input", "statement": "budget_balanced_ascending_auction(market, recipe) returns a trade for every market and every recipe of matching length with a positive entry: its while-True loop performs at most (number of agents + 1) rounds; ValueError is raised exactly when the lengths differ or no recipe entry is positive.", "quantifier": "every market and every recipe of non-negative integers", "why_tests_cant": "Termination of an unbounded loop for all inputs cannot be tested.", "anchors": ["ascending_auction_protocol.py: budget_balanced_ascending_auction"]}
{"id": "C11", "title": "The ascending auction is strongly budget balanced", "statement": "Whenever the auction reports at least one deal, the prices weighted by the recipe sum to exactly zero: the auctioneer neither gains nor loses.", "quantifier": "every market and recipe", "why_tests_cant": "Universal claim on arbitrarily long price paths.", "anchors": ["ascending_auction_protocol.py: budget_balanced_ascending_auction", "prices.py: AscendingPriceVector"]}
{"id": "C12", "title": "The ascending auction is individually rational", "statement": "If no value is below -MAX_VALUE, every agent left in the returned trade (so everyone who can be selected to trade) has a value at least as large as the price of his category. With a value below -MAX_VALUE (the starting price) this can fail.", "quantifier": "every market with values >= -MAX_VALUE and every recipe, every remaining agent; existential for the failure", "why_tests_cant": "Universal over agents and runs.", "anchors": ["ascending_auction_protocol.py: budget_balanced_ascending_auction"]}
{"id": "C13", "title": "The ascending auction removes exactly the weakest agents, at monotone prices", "statement": "In each category the agents left in the trade are the highest-valued ones (a prefix of the descending order), everyone who left has a value at most the final price of the category, the prices along the run never decrease, and the price-sum never exceeds zero.", "quantifier": "every market whose values exceed -MAX_VALUE, every recipe, every round of the run", "why_tests_cant": "Invariant of an unbounded run.", "anchors": ["ascending_auction_protocol.py: budget_balanced_ascending_auction"]}
{"id": "C14", "title": "The ascending auction is truthful (dominant strategy)", "statement": "No agent can increase his expected utility by reporting a value different from his true value, whatever the others report: utility = probability to trade times (true value - price).", "quantifier": "every market of other reports, every agent, category, true value and misreport, every tie-breaking position among equal reports", "why_tests_cant": "Compares two complete runs for every pair of reports; the deviation space is infinite.", "anchors": ["ascending_auction_protocol.py: budget_balanced_ascending_auction", "trade.py: TradeWithSinglePrice"]}
{"id": "C15", "title": "Ascending-auction deals versus the optimum", "statement": "If k is the optimal number of deals, the ascending auction performs at least k-1 deals, for every recipe; and at most k deals when no value is below -MAX_VALUE.", "quantifier": "every market and every recipe of non-negative integers", "why_tests_cant": "Relates two algorithms on every input.", "anchors": ["ascending_auction_protocol.py: budget_balanced_ascending_auction", "markets.py: Market.optimal_trade", "experiment.py"]}
{"id": "C16", "title": "Ascending-auction gain-from-trade bounds", "statement": "The reported gain is the same with and without the auctioneer, never exceeds the optimal gain, is non-negative when no value is below -MAX_VALUE, and, with d deals made and k optimal deals, is at least d/(d+1) and at least (1-1/k) of the optimum when the values are small compared to MAX_VALUE. The lower bounds need the values to be small compared with MAX_VALUE (a category left at the start price must outweigh the others at their highest values); with larger values they fail.", "quantifier": "every market, every recipe of non-negative integers (not only all-ones)", "why_tests_cant": "Approximation ratio over all inputs.", "anchors": ["ascending_auction_protocol.py", "trade.py: TradeWithSinglePrice.gain_from_trade", "experiment.py"]}
{"id": "C17", "title": "Trade reduction is strongly budget balanced", "statement": "Whenever budget_balanced_trade_reduction finds prices, the prices weighted by the recipe sum to exactly zero; when it finds none there are no deals.", "quantifier": "every market and every recipe of integers with a positive entry, both values of including_gft_0", "why_tests_cant": "Universal over markets and pivot orders.", "anchors": ["trade_reduction_protocol.py: budget_balanced_trade_reduction", "markets.py: calculate_prices_by_external_competition, best_containing_PS"]}
{"id": "C18", "title": "Trade reduction is individually rational and trades only optimal traders (all-ones recipes)", "statement": "Every agent in the trade returned by trade reduction has a value at least the price of his category. The agents of each category in the trade are its best agents; for all-ones recipes they form a sub-multiset of the agents of that category in the optimal trade; for general recipes there are at most (k+1)*r_i of them, and agents outside the optimal trade can be among them (a concrete market shows it).", "quantifier": "every market with values at least -MAX_VALUE and every recipe of integers (ones recipes for the optimal-trade part)", "why_tests_cant": "Universal over agents and runs.", "anchors": ["trade_reduction_protocol.py: budget_balanced_trade_reduction"]}
{"id": "C19", "title": "Trade reduction loses at most one deal", "statement": "If k is the optimal number of deals, trade reduction performs k or k-1 deals (with including_gft_0=False: at least k'-1 where k' counts only deals with positive gain), for every recipe of integers. With a recipe of ones the number of deals is also at most the number of optimal deals counted under the flag including_gft_0.", "quantifier": "every market with values at least -MAX_VALUE, every recipe with a positive entry", "why_tests_cant": "Relates two algorithms on every input.", "anchors": ["trade_reduction_protocol.py: budget_balanced_trade_reduction", "markets.py: optimal_trade"]}
{"id": "C20", "title": "Trade reduction truthfulness: holds for every recipe when the scarcest category has no spare agent (in particular for all-ones recipes); fails with spare agents", "statement": "For every recipe of positive integers, on every market in which the scarcest category has exactly the agents for a whole number of procurement sets (true for every market if all entries are 1, and for the n*r agents of the experiments), no agent can gain by misreporting. With spare agents and an entry above 1 the implementation is manipulable (a concrete profitable misreport exists).", "quantifier": "every market without spare agents, recipe of positive integers, agent, misreport and flag, values small relative to MAX_VALUE; existential for the failure", "why_tests_cant": "Infinite deviation space; finding a manipulation requires a search that tests do not do.", "anchors": ["trade_reduction_protocol.py: budget_balanced_trade_reduction"]}
{"id": "C21", "title": "Trade reduction never raises on valid input; its gain_from_trade is defined iff all recipe entries are positive", "statement": "With matching lengths and a positive recipe entry, trade reduction returns; on the result, gain_from_trade raises ZeroDivisionError exactly when there is at least one deal and some recipe entry is zero.", "quantifier": "every market and recipe", "why_tests_cant": "Universal claim about exception paths.", "anchors": ["trade_reduction_protocol.py: convert_category_index, budget_balanced_trade_reduction", "trade.py: gain_from_trade"]}
{"id": "C22", "title": "McAfee never runs a deficit in a two-sided market, but may with three categories", "statement": "With at most two categories the price sum (weighted by the recipe) of mcafee_trade_reduction is never negative, whatever the values; with price_heuristic=False this holds for any number of categories; with the heuristic and three categories a deficit is possible (counterexample).", "quantifier": "every market with at most two categories (heuristic) or any number (no heuristic); existential for the failure", "why_tests_cant": "Universal budget claim; the deficit needs an unusual price candidate.", "anchors": ["mcafee_protocol.py: mcafee_trade_reduction"]}
{"id": "C23", "title": "McAfee is individually rational", "statement": "Every agent in the returned trade has value at least the price of his category.", "quantifier": "every market, recipe and both heuristic settings, no restriction on values", "why_tests_cant": "Universal over agents.", "anchors": ["mcafee_protocol.py: mcafee_trade_reduction, is_price_good_for_ps"]}
{"id": "C24", "title": "McAfee performs k or k-1 deals with the optimal traders", "statement": "The traders are the k or k-1 best agents of each category where k is the optimal number of deals, and k-1 are used exactly when the candidate price is rejected.", "quantifier": "every market, both heuristic settings", "why_tests_cant": "Universal.", "anchors": ["mcafee_protocol.py: mcafee_trade_reduction"]}
{"id": "C25", "title": "McAfee gain-from-trade is at least (1-1/k) of the optimum", "statement": "The gain including the auctioneer is between (1-1/k)*OPT and OPT.", "quantifier": "every market with k>=1 optimal deals", "why_tests_cant": "Approximation ratio over all inputs.", "anchors": ["mcafee_protocol.py: mcafee_trade_reduction", "trade.py: gain_from_trade"]}
{"id": "C26", "title": "McAfee truthfulness", "statement": "With two categories and the price heuristic: a buyer (true value >= 0, the other buyers in [0,MAX_VALUE), sellers' values <= 0) and a seller (true value < 0, the other sellers <= 0, buyers in [0,MAX_VALUE/2)) never gain by reporting any other value. Without the heuristic this holds for any number of categories and any values. Counterexamples outside: a seller of value exactly 0, buyers with value MAX_VALUE, three categories with the heuristic.", "quantifier": "every market within the bounds, every agent, true value and (unrestricted) misreport, every tie-breaking position", "why_tests_cant": "Infinite deviation space.", "anchors": ["mcafee_protocol.py: mcafee_trade_reduction"]}
{"id": "C27", "title": "McAfee input validation", "statement": "On every Market (which has at least one category) mcafee_trade_reduction raises ValueError exactly when the recipe length differs from the number of categories or some entry is not 1, and otherwise returns a trade.", "quantifier": "every market and recipe", "why_tests_cant": "Universal claim about exceptions.", "anchors": ["mcafee_protocol.py: mcafee_trade_reduction"]}
{"id": "C28", "title": "Recipe tree paths and recipes", "statement": "paths_to_leaf lists exactly the root-to-leaf paths of the struct in left-to-right order, and recipes() has one 0/1 vector per path whose i-th entry is 1 iff category i is on the path.", "quantifier": "every well-formed nested struct of any depth and branching", "why_tests_cant": "Recursive structures of unbounded depth.", "anchors": ["recipetree.py: RecipeTree.__init__, paths_to_leaf, recipe_from_path, recipes"]}
{"id": "C29", "title": "Malformed recipe structs are rejected", "statement": "RecipeTree construction succeeds exactly on nested even-length lists whose indices are ints in range and whose children are None or lists, and builds the tree they describe; odd-length lists raise ValueError, out-of-range indices IndexError, wrong types TypeError; extra elements of the top-level list are silently ignored.", "quantifier": "every nested struct", "why_tests_cant": "Infinite input space of malformed values.", "anchors": ["recipetree.py: RecipeTree.__init__"]}
{"id": "C30", "title": "largest_categories picks exactly one category per recipe", "statement": "The categories returned by largest_categories form a cut of the tree; with distinct categories each recipe contains exactly one of them. The first number returned is the size of the largest of them, the second the size of the root. A returned category is larger than its children together (or they are all empty), and no category above it is.", "quantifier": "every recipe tree and every assignment of category sizes", "why_tests_cant": "Unbounded trees and sizes.", "anchors": ["recipetree.py: RecipeTree.largest_categories"]}
{"id": "C31", "title": "Tree num_of_deals is the maximum number of simultaneous deals", "statement": "num_of_deals() equals the largest number of deals in any feasible list of deals (one agent per category of a root-to-leaf path, no agent twice); num_of_deals_explained reports the same number and the smallest and largest leaf sizes. With a repeated category num_of_deals can be strictly too large (counterexample).", "quantifier": "every tree with distinct categories, every sizes", "why_tests_cant": "Maximum over all path assignments.", "anchors": ["recipetree.py: num_of_deals, num_of_deals_explained"]}
{"id": "C32", "title": "Tree optimal_trade_GFT is the true optimum", "statement": "optimal_trade_GFT() equals the maximum total value over all feasible sets of deals (each deal takes one agent of each category of some root-to-leaf path, no agent used twice).", "quantifier": "every tree with distinct categories, every value lists, every feasible competing trade", "why_tests_cant": "Optimality over exponentially many competing trades on unbounded trees.", "anchors": ["recipetree.py: combined_values, optimal_trade_GFT"]}
{"id": "C33", "title": "The three optimal-trade APIs agree", "statement": "optimal_trade, optimal_trade_with_counters and optimal_trade_GFT report the same gain and number of deals; optimal_trade's deals are real (one agent of each category along one path, no agent twice), of maximal gain, and of maximal number among those; kmin/kmax of the counters are the smallest/largest number of deals on a used path (99999 and 0 for no deal); optimal_trade raises TypeError exactly for a single-node tree with agents.", "quantifier": "every tree with distinct categories and every sorted categories (errors: every tree)", "why_tests_cant": "Universal agreement of three implementations.", "anchors": ["recipetree.py: combined_values, combined_values_detailed, combined_values_detailed_with_counters, optimal_trade, optimal_trade_with_counters"]}
{"id": "C34", "title": "increase_prices keeps all recipe sums equal and below the bound", "statement": "If all recipes have equal price-sum at most the bound, then increase_prices either raises ValueError (exactly when some recipe does not contain exactly one increased category) or raises every selected price by the same amount so all recipe sums stay equal and at most the bound, no selected price exceeds its target, and status STOPPED_AT_ZERO_SUM iff the sums hit the bound.", "quantifier": "every list of 0/1 recipes, prices, set of increases and bound", "why_tests_cant": "Universal.", "anchors": ["prices.py: SimultaneousAscendingPriceVectors.increase_prices"]}
{"id": "C35", "title": "The initial linear program of a recipe tree is feasible and its optimum is known", "statement": "For every recipe tree with distinct categories the linear program of calculate_initial_prices (all prices <= -MAX_VALUE, equal sums over all recipes, maximal sum) has an optimal solution, and in every optimal solution the common sum is -MAX_VALUE times the number of categories of the longest recipe; with a repeated category the program can be infeasible.", "quantifier": "every recipe tree with distinct categories, every positive MAX_VALUE", "why_tests_cant": "Unbounded trees; the LP solver is only tested on one instance.", "anchors": ["prices.py: calculate_initial_prices"]}
{"id": "C36", "title": "The tree auction is strongly budget balanced on every recipe", "statement": "When the tree auction returns a trade with at least one deal, the sum of prices along every root-to-leaf path (every recipe) is exactly zero, whatever admissible initial prices the linear program returned.", "quantifier": "every market, every tree with distinct categories, every admissible initial price vector", "why_tests_cant": "Arbitrarily long simultaneous price paths.", "anchors": ["ascending_auction_recipetree_protocol.py: budget_balanced_ascending_auction", "prices.py"]}
{"id": "C37", "title": "The tree auction is individually rational", "statement": "Every agent left in a category at the end has value at least the category's price; the remaining agents are the best ones of each category, and every agent who left is worth at most the price.", "quantifier": "every market, tree and admissible initial price vector", "why_tests_cant": "Universal.", "anchors": ["ascending_auction_recipetree_protocol.py: budget_balanced_ascending_auction"]}
{"id": "C38", "title": "When the tree auction terminates and when it loops forever", "statement": "The tree auction ends within (number of agents + 1) rounds or loops forever. It ends for every tree in which only leaves have siblings (in particular single paths and trees of depth two). When no category is empty and all values are small compared with MAX_VALUE, it ends for every tree of at most three levels whatever the ties, and for every tree in which no category that has children and is neither the root nor a child of the root contains equal values. A round that neither stops nor removes an agent repeats forever, and such runs exist: with empty categories, and also with agents in every category and small values when the only ties are in the root and in two deep inner categories.", "quantifier": "every market, every tree with distinct categories, every initial prices that meet the contract of the linear program", "why_tests_cant": "Non-termination of an unbounded loop cannot be observed by a test; termination needs a measure.", "anchors": ["ascending_auction_recipetree_protocol.py: budget_balanced_ascending_auction (while True)"]}
{"id": "C39", "title": "The tree auction is truthful", "statement": "No agent can gain by misreporting, for any rule that selects the traders among the remaining agents at random with a probability that depends only on the category and on the numbers of remaining agents.", "quantifier": "every market, tree, agent, true value, misreport and tie-breaking position for which both runs terminate", "why_tests_cant": "Infinite deviation space.", "anchors": ["ascending_auction_recipetree_protocol.py: budget_balanced_ascending_auction"]}
{"id": "C40", "title": "Tree auction never beats the optimum", "statement": "The number of deals and gain-from-trade reported by the tree auction are at most the optimal ones of the original market, the gain is non-negative, and the reported number of deals and gain are those of a list of deals that really can be made among the remaining agents.", "quantifier": "every market, tree and admissible initial prices", "why_tests_cant": "Universal comparison of two algorithms.", "anchors": ["ascending_auction_recipetree_protocol.py", "recipetree.py: optimal_trade_GFT"]}
{"id": "C41", "title": "Tree auction exceptions", "statement": "On a well-formed tree with distinct categories the tree auction raises no exception unless the tree is a single node with agents, when it raises TypeError; a malformed struct raises the exception of the tree construction; repeated categories can raise ValueError.", "quantifier": "every market and tree", "why_tests_cant": "Universal claim about exceptions.", "anchors": ["ascending_auction_recipetree_protocol.py: budget_balanced_ascending_auction", "prices.py: increase_prices"]}
{"id": "C42", "title": "Integer version: initial prices", "statement": "prices_integer.calculate_initial_prices returns prices that are at most the bound (a non-positive number). If the last used category of each recipe is in no other recipe (as for every tree with distinct categories where each leaf comes after its ancestors), it does not fail, and all recipes have the same weighted sum: the bound times the largest number of agents in a recipe. Otherwise it may raise ValueError, or silently return unequal sums.", "quantifier": "every list of recipes, every tree and agent counts, every bound", "why_tests_cant": "Universal; the silent failure needs a tree shape no test has.", "anchors": ["prices_integer.py: calculate_initial_prices"]}
{"id": "C43", "title": "Integer tree auction is individually rational", "statement": "For every recipe tree with distinct categories and all positive agent counts, when the integer tree auction ends, every remaining agent's value is at least the final price of his category, and the agents who left are not worth more than those who remain. (Unlike in the binary auction, those who left may be worth more than the final price.)", "quantifier": "every market with values >= -MAX_VALUE, every tree with distinct categories, all agent counts, every number of rounds", "why_tests_cant": "Universal.", "anchors": ["ascending_auction_recipetree_integer_protocol.py: budget_balanced_ascending_auction", "prices_integer.py: increase_prices"]}
{"id": "C44", "title": "Integer tree auction is not budget balanced for non-unit counts", "statement": "For unit agent counts, the integer tree auction is strongly budget balanced on every recipe when there is a deal, if each leaf comes after its ancestors; for counts above one there are markets where it ends with deals and a deficit, or a surplus, on a recipe.", "quantifier": "every market and tree for unit counts; existential for the failures", "why_tests_cant": "Universal claim plus a counterexample.", "anchors": ["ascending_auction_recipetree_integer_protocol.py: budget_balanced_ascending_auction", "prices_integer.py: increase_prices"]}
{"id": "C45", "title": "Integer tree with unit counts is equivalent to the binary tree", "statement": "With agent_counts all one (or not given), the integer tree auction raises the same exceptions, runs the same number of rounds and gives the same remaining agents, prices, number of deals and gain as the binary one started from the initial prices of the integer version.", "quantifier": "every market, every tree with distinct categories and at least two nodes, any number of rounds", "why_tests_cant": "Refinement over all inputs.", "anchors": ["recipetree_integer.py", "ascending_auction_recipetree_integer_protocol.py", "recipetree.py", "ascending_auction_recipetree_protocol.py"]}
{"id": "C46", "title": "Integer tree optimal_trade is a true optimum", "statement": "With positive agent counts c_i, optimal_trade() returns an optimal trade: a feasible set of deals, in which each deal takes c_i agents of every category i on a root-to-leaf path and no agent is used twice, of the largest total value among all feasible sets; among those it has the largest number of deals; its gain is optimal_trade_GFT().", "quantifier": "every tree with distinct categories, every counts >= 1, every competing trade", "why_tests_cant": "Optimality over exponentially many trades.", "anchors": ["recipetree_integer.py: combined_values, optimal_trade_GFT"]}
{"id": "C47", "title": "Integer optimal_trade_with_counters is broken on trees with children", "statement": "optimal_trade_with_counters of the integer version raises TypeError or IndexError on every tree with more than one node; on a single category it returns the same deals, count and gain as optimal_trade.", "quantifier": "every market, every tree, all agent counts", "why_tests_cant": "Universal claim about a defect.", "anchors": ["recipetree_integer.py: combined_values_detailed_with_counters, optimal_trade_with_counters"]}
{"id": "C48", "title": "Results do not depend on the order in which agents are listed", "statement": "Permuting the values inside any category before constructing the market does not change the result of optimal_trade, of any auction, or of the tree computations.", "quantifier": "every permutation of every category of every market", "why_tests_cant": "All permutations.", "anchors": ["agents.py: AgentCategory.__init__", "all protocols"]}
{"id": "C49", "title": "MAX_VALUE is only an upper bound", "statement": "Any two values of MAX_VALUE that are large enough with respect to the reported values give the same result: for the single-recipe ascending auction the same trade, and the same prices whenever there are deals; for the trade reduction the same traders, deals and prices (or the same exception); for McAfee's mechanism exactly the same result.", "quantifier": "every market and recipe, every two sufficiently large constants", "why_tests_cant": "Universal in the constant.", "anchors": ["agents.py: MAX_VALUE", "ascending_auction_protocol.py", "trade_reduction_protocol.py", "mcafee_protocol.py"]}
{"id": "C50", "title": "tree_calculations helpers are correct", "statement": "For every recipe tree, get_depth_and_agents_size returns the depth of its struct and its largest category index; get_children_counts gives each category's number of children (1 for leaves, 0 for categories not in the tree). For trees rooted at category 0 with at least two levels, get_agents_analyze gives positive counts such that on every path the sellers' counts add up to the buyer's; for other roots, such as the file's own recipes_111, it does not.", "quantifier": "every tree with distinct categories", "why_tests_cant": "Unbounded recursion.", "anchors": ["tree_calculations.py: get_depth_and_agents_size, get_children_counts, analyze_recipe_tree"]}
{"id": "C51", "title": "Splitting price data among categories never runs out of data", "statement": "get_prices_tree deals out disjoint consecutive pieces of the shuffled data: it never raises IndexError, uses no datum twice, and category i gets floor(len(data)*c_i/sum(c)) values, the first category with positive sign and the others negated.", "quantifier": "every data list, agent counts with positive sum, and values (at least one per category)", "why_tests_cant": "Universal over sizes.", "anchors": ["get_stocks_data.py: get_prices_tree"]}
{"id": "C52", "title": "The protocols do not modify the caller's market", "statement": "optimal_trade, the ascending auction, trade reduction, McAfee and the two tree auctions leave every category object that existed before the call unchanged, whether they return or raise, even though categories are mutable shared objects and one object may occur several times in the market. The trade they return holds new category objects only, no two of them the same, with the contents that the protocol computes by value.", "quantifier": "every heap of category objects (including a market that holds one object several times), every market, recipe, structure and parameters", "why_tests_cant": "Aliasing: all heaps and all interleavings of mutation.", "anchors": ["markets.py: clone, optimal_trade, empty_agent_categories", "agents.py: clone, append, remove_*", "all protocols"]}
{"id": "C53", "title": "Budget balance and individual rationality are not exact in floating point", "statement": "With IEEE-754 doubles, as Python computes, the ascending auction may end with a non-zero price-sum (the auctioneer has a deficit of 3e-9 on values like 0.2), and a trader may pay more than its value (by one unit in the last place, for recipes with counts above 1). The exact claims of the other properties hold for exact arithmetic.", "quantifier": "existential: concrete markets of doubles", "why_tests_cant": "Tests compare with round numbers only.", "anchors": ["prices.py: increase_price_up_to_balance", "ascending_auction_protocol.py: budget_balanced_ascending_auction"]}
{"id": "C54", "title": "Trade reduction and the ascending auction agree on recipes of ones except for the last entry", "statement": "For all-ones recipes, and for recipes of ones except for the last entry when the scarcest category has no spare agent, budget_balanced_trade_reduction and budget_balanced_ascending_auction perform the same number of deals, and when there is a deal they leave the same agents in every category and charge the same prices. With spare agents, or with the recipe 2:1, they differ on concrete markets.", "quantifier": "every market whose values are small relative to MAX_VALUE", "why_tests_cant": "Equality of two different algorithms on every input.", "anchors": ["trade_reduction_protocol.py: budget_balanced_trade_reduction", "ascending_auction_protocol.py: budget_balanced_ascending_auction"]}
{"id": "C56", "title": "Truthfulness of the integer tree auction", "statement": "With unit counts no agent can increase his utility by reporting a false value; with a count of two there is a market where a seller gains by a false report.", "quantifier": "every market with values within MAX_VALUE, every tree with distinct categories where each leaf comes after its ancestors, every agent, every true and false value, every fair selection rule", "why_tests_cant": "Comparison of all pairs of runs.", "anchors": ["ascending_auction_recipetree_integer_protocol.py: budget_balanced_ascending_auction"]}
{"id": "C57", "title": "Price vectors with agent counts", "statement": "price_sum is the sum of price x recipe x count; price_sum_after_increase predicts it exactly; increase_price_up_to_balance raises one price to its target unless the sum computed without the count reaches the bound, and increase_prices raises all planned categories by the same amount times their counts, the largest amount that keeps within the bound (for the first recipe) and the targets. With a count of two the sum does not stop at the bound.", "quantifier": "every vector, recipe, counts, category, target price and bound", "why_tests_cant": "Universal over numeric inputs.", "anchors": ["prices_integer.py: AscendingPriceVector.price_sum, price_sum_after_increase, increase_price_up_to_balance", "prices_integer.py: SimultaneousAscendingPriceVectors.increase_prices"]}
{"id": "C58", "title": "Integer tree auction: exceptions and termination", "statement": "With distinct categories, positive counts and computable initial prices it raises no exception; with a zero count in the tree it never ends normally. With a single recipe it ends after at most one round per agent, plus one; with unit counts it ends under the conditions of the binary auction (including those with ties), and can loop forever when a category is empty. With counts above one these conditions are not enough: for a root with two leaves and counts 1, 1 and c >= 3 it never ends, for every market with values between -MAX_VALUE and MAX_VALUE whose root has an agent and whose first leaf has at least as many.", "quantifier": "every market, tree and agent counts", "why_tests_cant": "Termination and absence of exceptions for every input.", "anchors": ["ascending_auction_recipetree_integer_protocol.py: budget_balanced_ascending_auction", "recipetree_integer.py: largest_categories"]}
{"id": "C59", "title": "Integer tree auction compared with the optimum", "statement": "The gain reported by the trade is at most the optimal gain of the market, and is the largest gain of a trade among the remaining agents; the reported number of deals is the largest number of deals possible among the remaining agents.", "quantifier": "every market, tree with distinct categories and agent counts, every competing trade", "why_tests_cant": "Optimality over exponentially many trades.", "anchors": ["ascending_auction_recipetree_integer_protocol.py: budget_balanced_ascending_auction", "recipetree_integer.py: optimal_trade, optimal_trade_GFT, num_of_deals_explained"]}
{"id": "C60", "title": "Integer tree num_of_deals is the largest number of deals", "statement": "With positive counts, num_of_deals() returns the largest number of deals possible with the agents of the categories; num_of_deals_explained returns the same number, and neither raises.", "quantifier": "every tree, market and positive agent counts, every competing trade", "why_tests_cant": "Optimality over all trades.", "anchors": ["recipetree_integer.py: num_of_deals, num_of_deals_explained"]}
{"id": "C61", "title": "Integer largest_categories picks one category per recipe", "statement": "With positive counts, largest_categories of the integer tree returns a cut of the tree, with exactly one category per recipe when categories are distinct. The first number is the largest of their sizes divided by count, the second that of the root. A returned category has agents for more deals than are needed to use all the agents of its children (or they have none); a category above it does not.", "quantifier": "every recipe tree, positive agent counts, and category sizes", "why_tests_cant": "Unbounded trees, sizes and counts.", "anchors": ["recipetree_integer.py: RecipeTree.largest_categories"]}
{"id": "C55", "title": "The recipe-tree auction loses at most one deal per recipe", "statement": "For a market without ties inside a category, with no empty category in the tree, and with values small relative to MAX_VALUE (2*B*height <= MAX_VALUE), the number of deals of budget_balanced_ascending_auction is at least the number of deals of RecipeTree.optimal_trade on the original market minus the number of recipes. With ties it fails: a single-recipe market whose optimum has two deals ends with none.", "quantifier": "all markets without ties and empty categories, all recipe trees with distinct categories, all value bounds, all valid initial prices", "why_tests_cant": "the bound must hold for every market, tree shape and sequence of rounds; the doctests check a handful of markets", "anchors": ["ascending_auction_recipetree_protocol.py: budget_balanced_ascending_auction", "recipetree.py: RecipeTree.optimal_trade, largest_categories, num_of_deals"]}
{"id": "C62", "title": "The gain of the recipe-tree auction misses at most one optimal deal per recipe", "statement": "Under the hypotheses of C55, the optimal deals can be split into at most (number of recipes) lost ones and kept ones such that the auction's gain_from_trade is at least the total gain of the kept ones. The lost deals need not be the cheapest: the ratio (1 - recipes/k) that holds for a single recipe is false for trees (a market where 7 of 104 is attained with k=3 and two recipes).", "quantifier": "all markets without ties and empty categories, all recipe trees with distinct categories, all value bounds, all valid initial prices", "why_tests_cant": "compares two computations over all markets and trees; tests sample a few", "anchors": ["ascending_auction_recipetree_protocol.py: budget_balanced_ascending_auction, TradeWithMultipleRecipes.gain_from_trade", "recipetree.py: RecipeTree.optimal_trade, optimal_trade_GFT"]}
{"id": "C63", "title": "Competitive ratio 1 - 1/kmin of the recipe-tree auction", "statement": "Under the hypotheses of C55, with (opt, (count, g, kmin, kmax)) returned by RecipeTree.optimal_trade_with_counters on the original market: the gain_from_trade of budget_balanced_ascending_auction is at least (1 - 1/kmin) * g, where kmin is the smallest number of optimal deals on a recipe that the optimum uses (this is the theoretical bound the experiments compare with). The number of deals is at least count minus the number of distinct recipes used by the optimum. With ties the ratio fails (kmin = 2, gain 0).", "quantifier": "all markets without ties and empty categories, all recipe trees with distinct categories, all value bounds, all valid initial prices", "why_tests_cant": "a worst-case bound over all markets and trees; the experiments only sample random markets", "anchors": ["ascending_auction_recipetree_protocol.py: budget_balanced_ascending_auction, TradeWithMultipleRecipes.gain_from_trade", "recipetree.py: RecipeTree.optimal_trade_with_counters"]}
{"id": "C64", "title": "What survives rounding: termination, individual rationality, best agents", "statement": "With IEEE-754 doubles (not exact arithmetic), budget_balanced_ascending_auction on any market always returns a trade when the recipe has as many entries as there are categories and at least one positive entry; the remaining agents of each category are the best of that category; and, when the recipe entries are 0 or 1 and all values are finite and at least -MAX_VALUE, no remaining agent's price exceeds its value, exactly, in the order of doubles (rounding never breaks individual rationality there, unlike for larger recipe entries, C53).", "quantifier": "all lists of doubles, all recipes (individual rationality: recipes of zeros and ones)", "why_tests_cant": "rounding errors depend on the values; individual rationality needs a monotonicity argument over all pairs of doubles", "anchors": ["ascending_auction_protocol.py: budget_balanced_ascending_auction", "prices.py: AscendingPriceVector.increase_price_up_to_balance, dot", "agents.py: AgentCategory, MAX_VALUE"]}
{"id": "C65", "title": "Integer-valued markets are computed exactly in floating point", "statement": "If all values are integers of absolute value at most K (K at least MAX_VALUE), the recipe consists of zeros and ones, (n+2)*K <= 2^53 and the number of agents is at most 2^53, then budget_balanced_ascending_auction in IEEE-754 doubles gives exactly the result of exact arithmetic: the same remaining agents, and prices that are the same integers. If (n+2)(n+1)K <= 2^53 and there is a deal, the prices of one deal add up to exactly 0.0.", "quantifier": "all integer markets and 0/1 recipes within the stated size bounds", "why_tests_cant": "exactness of every intermediate result for all inputs in a huge range", "anchors": ["ascending_auction_protocol.py: budget_balanced_ascending_auction", "prices.py: AscendingPriceVector, dot", "agents.py: AgentCategory"]}
{"id": "C66", "title": "The experiment's table: averages, documented bounds, exceptions", "statement": "experiment() with a recipe of positive integers, one range per category (values small enough for the price bound), at least one iteration and at most 2000000 agents per category succeeds for every outcome of the random number generator. Each row's columns are the averages over its iterations of: the number of deals k and the gain of the optimal trade (k is the largest number of deals of any optimal trade), the auction's number of deals, its total gain and the traders' gain, rounded to two decimals; mean_optimal_count - 1 <= mean_auction_count <= mean_optimal_count; all ratios are within 0..100; the traders' gain is at most the total gain, and they coincide for the ascending auction and trade reduction; if every iteration has at least K optimal deals then total_gft_ratio >= 100(1-1/K) up to rounding. Holds for the ascending auction and trade reduction (any positive recipe) and McAfee (recipes of ones, at most two categories, or without the heuristic). The documentation's 'at least 1 - 1/k' is false for the mean k; with three categories McAfee's market_gft_ratio can exceed 100. Zero iterations: ZeroDivisionError.", "quantifier": "all random draws, numbers of agents, numbers of iterations, ranges and recipes within the stated bounds", "why_tests_cant": "the draws are random; a test sees a few of the infinitely many samples", "anchors": ["experiment.py: experiment", "agents.py: AgentCategory.uniformly_random", "markets.py: Market.optimal_trade", "trade.py: TradeWithSinglePrice.gain_from_trade, TradeWithMultipleRecipes"]}
{"id": "C67", "title": "The comparison experiment counts every size exactly once; ties for recipes of ones except for the last entry", "statement": "experiment_comparing_sbb.experiment() with positive recipes, at least one number of agents and one iteration succeeds for every random outcome. Each row counts the numbers of agents for which trade reduction's total gain (number of deals) over the iterations is larger, equal, or smaller than the ascending auction's; the three counters add up to the number of entries of nums_of_agents; each percentage is the floor of 100*counter/entries, and the three percentages add up to 98, 99 or 100. For recipes of ones except for the last entry (1:1, 1:2, 1:1:3, ...) every size is a tie (0, 100, 0). With an empty nums_of_agents: ZeroDivisionError.", "quantifier": "all random draws, recipes of positive integers, numbers of agents and iterations", "why_tests_cant": "the outcome is random; the tie for recipes of ones is an equality of two mechanisms on all markets", "anchors": ["experiment_comparing_sbb.py: experiment", "trade_reduction_protocol.py: budget_balanced_trade_reduction", "ascending_auction_protocol.py: budget_balanced_ascending_auction"]}
{"id": "C68", "title": "The recipe-tree experiment's table: averages, bounds, and what gftformula means", "statement": "experiment_ascending_auction_recipetree_random.experiment(): if no auction raises an exception, every row's columns are the exact averages over its iterations (optimal number of deals, the smallest and largest number of deals per used path kmin and kmax, optimal gain, the auction's number of deals and gain); meanauctioncount <= meanoptimalcount, meanauctiontotalgft <= meanoptimalgft, both ratios are within 0..100, gftformula is max(0, 100(kmin-1)/(kmin+1)) of the mean kmin and below 100. For tie-free moderate markets, totalgftratio >= 100(1-1/K) if every iteration has kmin >= K, and with one iteration gftformula <= totalgftratio. For means of several iterations gftformula can exceed totalgftratio, and an iteration without optimal deals counts as kmin = 99999 (formula 99.998, ratio 0). Zero iterations: ZeroDivisionError.", "quantifier": "all markets, recipe trees with distinct categories, initial prices meeting the contract, numbers of iterations", "why_tests_cant": "random markets; the bounds combine optimality of the tree and the auction's competitive ratio on all of them", "anchors": ["experiment_ascending_auction_recipetree_random.py: experiment", "recipetree.py: RecipeTree.optimal_trade_with_counters", "ascending_auction_recipetree_protocol.py: budget_balanced_ascending_auction"]}
{"id": "C69", "title": "The stock experiment's table: which auctions it sums, what it divides by", "statement": "experiment_ascending_auction_recipetree_stock.experiment(): if no auction raises an exception and nums_of_agents is increasing, there is one row per entry n. A stock's prices are used for every n up to the number of available prices and, in full, for the next larger n only; otherwise category j is cut to its first floor(n*agent_counts[j]) prices. A row's columns are the sums over the auctions of the runs (stock, iteration) that use n, divided by the number of ALL runs; 0 <= auctioncount <= optimalcount, 0 <= gft <= optimalgft, both ratios within 0..100, numpossibletrades is that of the first run. If all runs use n, gftratio >= 100(1-1/K) when every run has kmin >= K and a positive optimal gain (tie-free moderate markets). The columns are not averages over the auctions held (a short stock counts as 0), a duplicate entry is summed twice (ratio 200%), with decreasing entries rows are lost, and gftformula can exceed gftratio.", "quantifier": "all stock prices and shuffles, recipe trees with distinct categories, agent counts, increasing nums_of_agents, numbers of iterations", "why_tests_cant": "prices and shuffles are arbitrary; the table sums over every stock and iteration", "anchors": ["experiment_ascending_auction_recipetree_stock.py: experiment", "experiment_ascending_auction_recipetree_integer_stock.py: experiment"]}
{"id": "C70", "title": "The integer recipe-tree experiment raises an exception in its first iteration", "statement": "experiment_ascending_auction_recipetree_integer_random.experiment(): for every recipe tree with more than one category, every random market, every numbers of agents, the first iteration raises TypeError or IndexError, so no row is ever written; with zero iterations it raises ZeroDivisionError.", "quantifier": "all random markets, recipe trees with at least two categories, agent counts, numbers of iterations", "why_tests_cant": "the claim is about every random market and every recipe", "anchors": ["experiment_ascending_auction_recipetree_integer_random.py: experiment", "recipetree_integer.py: RecipeTree.optimal_trade_with_counters"]}
{"id": "C71", "title": "The tree auction on a single path against the single-recipe ascending auction", "statement": "Let a binary recipe be given both to ascending_auction_protocol.budget_balanced_ascending_auction and, as a tree with a single path over the same categories, to ascending_auction_recipetree_protocol.budget_balanced_ascending_auction. Both return (values at most MAX_VALUE). With no ties inside a category and values above -MAX_VALUE: (a) if the leaf of the path is the first used category, both make the same number of deals; in particular for the struct built by the test suite's ps_recipe_to_recipe_struct whenever the recipe uses category 0 and another one; (b) if the path lists the used categories from the last (root) to the first (leaf), every used category has an agent and values are small (v*(number of other categories) < MAX_VALUE), the remaining agents and all prices are equal as well. The test suite's remark 'The results should be the same' fails: with three categories its struct gives other prices; with a recipe that does not use category 0, another number of deals; with ties, another number of deals; with an empty category or large values, other prices.", "quantifier": "all markets without ties, binary recipes, path orders, optimal initial prices", "why_tests_cant": "equality of two different algorithms on every market and every recipe", "anchors": ["ascending_auction_recipetree_test.py: ps_recipe_to_recipe_struct, TestAscendingAuctionWithSingleRecipe", "ascending_auction_protocol.py: budget_balanced_ascending_auction", "ascending_auction_recipetree_protocol.py: budget_balanced_ascending_auction"]}
{"id": "C72", "title": "What the recipe-tree auction does not depend on; equivalent categories", "statement": "The outcome of ascending_auction_recipetree_protocol.budget_balanced_ascending_auction (number of deals, price of each category, remaining agents, or the exception) does not change when the categories are renamed or re-indexed, when the order of sibling sub-trees is changed, or when sibling leaf categories whose agents all have different values in (-MAX_VALUE, MAX_VALUE] are merged into one category. Hence a root with several leaves (recipes [1,1,0], [1,0,1], ...) gives the outcome of the single recipe [1,1] in ascending_auction_protocol with the merged leaves as first category and the root as second. The test suite's remark ('the two latter categories are equivalent, so we expect the results to be identical to a single recipe [1,1]') fails when the root's category is listed first in the single-recipe market (other prices on the test's own market; other number of deals on a smaller one) and when two agents of different leaves have equal values.", "quantifier": "all markets, recipe trees, regroupings (renaming, sibling order, merged leaves), initial prices", "why_tests_cant": "a relation between two runs, for every tree and market", "anchors": ["ascending_auction_recipetree_test.py: test_market_110_101", "ascending_auction_recipetree_protocol.py: budget_balanced_ascending_auction", "recipetree.py: largest_categories, RecipeTree", "ascending_auction_protocol.py: budget_balanced_ascending_auction"]}
{"id": "C73", "title": "The old multi-recipe auction: termination, returned trades, shared categories", "statement": "old/ascending_auction_multirecipe_protocol.budget_balanced_ascending_auction returns a trade or raises ValueError, for every market and list of recipes and every feasible point the linear program may find. In a returned trade the caller's list of recipes has been cut down to the recipes of the trade (none added or reordered, at least one left), each category keeps its highest agents, no remaining agent is asked for more than its value, all remaining recipes have the same price sum, at most 0 and exactly 0 when there are deals, and num_of_deals is the largest number of deals the remaining agents can make. If the given recipes share a category (the only documented use: 'must all start with 1'), deals are made with a single recipe or not at all; and if a category shared by all recipes has at least as many agents as the largest unshared categories of the recipes together, the call raises ValueError - which is the case in every market of the file's own tests test_market_110_101 and test_market_1100_1011, where 1 or 4 deals are expected.", "quantifier": "all markets, recipe lists, feasible initial prices, iteration orders of Python sets", "why_tests_cant": "all inputs, all solver answers and all set orders; termination and absence of other exceptions", "anchors": ["old/ascending_auction_multirecipe_protocol.py: budget_balanced_ascending_auction, TradeWithMultipleRecipes, _analyze_recipes", "prices.py: SimultaneousAscendingPriceVectors, calculate_initial_prices", "old/ascending_auction_multirecipe_test.py"]}
{"id": "C74", "title": "The old multi-recipe auction with disjoint recipes agrees with the single-recipe auctions", "statement": "If no category belongs to two recipes, no two agents of a category have equal values, the values are above -MAX_VALUE and (times the number of categories) below MAX_VALUE, the solver finds feasible prices when there are some, and Python iterates over the sets of categories in increasing order, then old/ascending_auction_multirecipe_protocol.budget_balanced_ascending_auction returns a trade whose number of deals is the sum of the numbers of deals of ascending_auction_protocol.budget_balanced_ascending_auction run on each recipe alone; each recipe still there at the end has, in its categories, the same remaining agents as in its own auction, and the same prices if that has deals; each recipe deleted from the caller's list has no deals in its own auction. In particular with one recipe the results are the same (as the test class TestAscendingAuctionWithSingleRecipe claims). Equal values, or a set order that is not increasing (such as {1, 8}), break this.", "quantifier": "all markets without equal values, all lists of disjoint binary recipes, all feasible initial prices", "why_tests_cant": "relation between two programs over all markets, recipe lists and solver answers", "anchors": ["old/ascending_auction_multirecipe_protocol.py: budget_balanced_ascending_auction", "ascending_auction_protocol.py: budget_balanced_ascending_auction", "old/ascending_auction_multirecipe_test.py: TestAscendingAuctionWithSingleRecipe"]}
{"id": "C75", "title": "The old multi-buyer auction never makes a deal and never returns with two buyer categories", "statement": "old/ascending_auction_multibuyer_protocol.budget_balanced_ascending_auction: every trade it returns has num_of_deals 0, gain 0 and prints 'No trade' (its doctests expect deals). For every market whose recipes are accepted: if no units are demanded it returns the market unchanged; with one buyer category it ends after removing every buyer; with two or more buyer categories and positive demand it always raises - IndexError if some buyer category is empty or all seller counts are positive, ZeroDivisionError if all buyer categories have agents and some count is 0. It always ends; the per-unit prices of buyers and sellers sum to at most 0. _convert_recipes_to_seller_counts returns or raises ValueError, accepts all lists of recipes with at most one buyer each (with entry 1) and distinct buyers, and gives every buyer the seller count of his recipe. The buyers' price per unit never exceeds the largest value per unit, the sellers' price never exceeds the largest seller value.", "quantifier": "all markets and recipe lists", "why_tests_cant": "the complete outcome over all inputs, including termination and which exception is raised", "anchors": ["old/ascending_auction_multibuyer_protocol.py: budget_balanced_ascending_auction, TradeWithMultipleRecipes, _convert_recipes_to_seller_counts", "prices.py: AscendingPriceVector.increase_price_up_to_balance", "old/ascending_auction_multibuyer_demo.py"]}
{"id": "C76", "title": "Tied price-vectors of the old class: same sums for compatible increases, not in general", "statement": "old/SimultaneousAscendingPriceVector.py: all vectors of a collection share one list of prices, so map_category_index_to_price never raises 'Inconsistent prices' and gives each category of some recipe its price and None to the others. If all recipes cost the same sum and each recipe contains the category of its own increase and no category of another recipe's increase (except the same category with the same count), increase_prices returns; all recipes then cost exactly min(0, the sums after the single increases), no price passes its target, unnamed prices are unchanged, the status is ZERO_SUM iff that minimum is above -1e-11; if the minimum lies strictly between -1e-11 and 0 the sums may differ, all within 1e-11 below 0. The same holds along every history of calls. The documented 'all price-vectors retain the same sum' is false without the compatibility (a recipe can even get a positive sum) and, inside the tolerance, even with it.", "quantifier": "all recipe lists, prices, lists of increases and histories of calls", "why_tests_cant": "the aliasing of the price list makes the result depend on all earlier increases of the call; the claim ranges over all recipes and histories", "anchors": ["old/SimultaneousAscendingPriceVector.py: SimultaneousAscendingPriceVectors.__init__, map_category_index_to_price, increase_prices", "prices.py: AscendingPriceVector.__init__, price_sum_after_increase, increase_price_up_to_balance"]}
{"id": "C77", "title": "Ascending auction: no coalition of misreporting agents makes all its members better off", "statement": "budget_balanced_ascending_auction: if any set of agents, in any categories, report values different from their true ones while the others report the truth, then at least one of the misreporting agents has an expected utility no higher than with the truthful market (for every way in which equal values are ordered by the sort). Stronger coalition-proofness is false: a coalition can make one member better off and none worse off.", "quantifier": "all markets, recipes, sets of misreporting agents, reports, orders of equal values", "why_tests_cant": "ranges over all coalitions and all joint misreports; tests only compare fixed outcomes", "anchors": ["ascending_auction_protocol.py: budget_balanced_ascending_auction", "prices.py: AscendingPriceVector", "agents.py: AgentCategory"]}
{"id": "C78", "title": "Recipe-tree auction: no coalition of misreporting agents makes all its members better off", "statement": "budget_balanced_ascending_auction of the recipe-tree protocol: if any set of agents, in any categories, report values different from their true ones while the others report the truth, at least one misreporting agent has an expected utility no higher than with the truthful market, for every order of equal values and every rule selecting traders among the remaining agents by the category and the sizes only. The stronger form (none gains unless one loses) is false.", "quantifier": "all markets with values within +-MAX_VALUE, recipe trees, admissible initial price vectors, coalitions, joint reports, orders of equal values, selection probabilities", "why_tests_cant": "ranges over all coalitions and all joint misreports; tests only compare fixed outcomes", "anchors": ["ascending_auction_recipetree_protocol.py: budget_balanced_ascending_auction", "prices.py: SimultaneousAscendingPriceVectors", "recipetree.py: RecipeTree"]}
{"id": "C79", "title": "Trade reduction: no coalition of misreporting agents makes all its members better off", "statement": "budget_balanced_trade_reduction with a recipe of ones, or any recipe of positive integers when the scarcest category has no spare agent: if any set of agents, in any categories, report values different from their true ones while the others report the truth, at least one misreporting agent has an expected utility no higher than with the truthful market, for every order of equal values. The stronger form (none gains unless one loses) is false.", "quantifier": "all markets with values small against MAX_VALUE, recipes of ones (or of positive integers, without spare agents), coalitions, joint reports, orders of equal values, both values of including_gft_0", "why_tests_cant": "ranges over all coalitions and all joint misreports; tests only compare fixed outcomes", "anchors": ["trade_reduction_protocol.py: budget_balanced_trade_reduction", "markets.py: Market.optimal_trade", "agents.py: AgentCategory"]}
{"id": "C80", "title": "McAfee: no coalition of misreporting agents makes all its members better off", "statement": "mcafee_trade_reduction: if any set of agents report values different from their true ones while the others report the truth, at least one misreporting agent has an expected utility no higher than with the truthful market, for every order of equal values: without the price heuristic for any number of categories and any values; with it for two categories, of buyers (true values at least 0, below MAX_VALUE/2) and of sellers (true values below 0), whatever they report. The stronger form (if one gains then another loses) is false.", "quantifier": "all markets (two-sided ones with the heuristic), coalitions, joint reports, orders of equal values, iteration caps that suffice", "why_tests_cant": "ranges over all coalitions and all joint misreports; tests only compare fixed outcomes", "anchors": ["mcafee_protocol.py: mcafee_trade_reduction, is_price_good_for_ps", "markets.py: Market.optimal_trade", "agents.py: AgentCategory"]}
{"id": "C81", "title": "Trade reduction keeps 1 - 1/k of the optimal gain for every recipe", "statement": "budget_balanced_trade_reduction, for every recipe of positive integers (not only vectors of ones): the expected gain_from_trade of the returned trade is the same with and without the auctioneer, lies between 0 and the gain OPT of optimal_trade, and is at least OPT*d/(d+1) where d is the returned trade's num_of_deals(); hence at least (1-1/k)*OPT where k is the number of deals of optimal_trade with the same including_gft_0 flag.", "quantifier": "all markets, recipes, flags, MAX_VALUE bounds below which no value lies, iteration caps that suffice", "why_tests_cant": "a ratio bound over all markets and recipes; the doctests show single gains and the experiments only print averages", "anchors": ["trade_reduction_protocol.py: budget_balanced_trade_reduction", "trade.py: TradeWithSinglePrice.gain_from_trade", "markets.py: Market.optimal_trade", "ascending_auction_experiment.py: experiment (documented bound 1-1/k)"]}
{"id": "C82", "title": "The agents left out have nothing to gain: no profitable deal among themselves, no envy at the prices", "statement": "Call left out the agents of the market who are not in the categories of the returned trade. After ascending_auction (every recipe), the recipe-tree auction (every recipe of the tree) and trade reduction (every recipe), no set of deals among the agents left out has a positive gain. After McAfee's mechanism the same holds when all optimal deals are made; otherwise what they could gain is at most the sum of the prices (and can be that much). No agent left out has a value above his category's price: ascending, tree, trade reduction with recipes of ones, McAfee when a deal is given up, and at the heuristic price in two-sided markets. This fails for trade reduction with recipe entries above 1 and for the heuristic price with three categories.", "quantifier": "all markets, recipes (trees), flags, iteration caps that suffice, all sets of deals among the agents left out", "why_tests_cant": "ranges over every alternative set of deals among the excluded agents of every market", "anchors": ["ascending_auction_protocol.py: budget_balanced_ascending_auction", "ascending_auction_recipetree_protocol.py: budget_balanced_ascending_auction", "trade_reduction_protocol.py: budget_balanced_trade_reduction", "mcafee_protocol.py: mcafee_trade_reduction"]}
{"id": "C83", "title": "Market: construction, agents joining, emptiness", "statement": "Market([]) raises ValueError, any other list of categories is accepted as it is. append_trader adds the agent to the category of that number, keeps it sorted and changes nothing else. append_PS puts value i into category i and raises ValueError if the number of values is not the number of categories. Removing the best procurement-set of a recipe of ones and appending it again gives back the same market. has_empty_category is True exactly when some category has no agents, and then a recipe that needs every category allows no deal.", "quantifier": "all markets, procurement sets, category numbers and values", "why_tests_cant": "ranges over all market sizes and values, including ties and wrong lengths", "anchors": ["markets.py: Market.__init__, append_trader, append_PS, has_empty_category, get_highest_agents, remove_highest_agents"]}
{"id": "C84", "title": "Contracts of the constructors of price vectors and trade objects", "statement": "SimultaneousAscendingPriceVectors accepts exactly the non-empty lists of recipes of equal length (else ValueError) and starts with the initial prices and no status. The integer AscendingPriceVector gives every category the initial price, and its price-sum counts every agent. Raising a category with agent count 0 that some recipe uses raises ZeroDivisionError. The old simultaneous vectors report as price_sum the common price of the recipes. The multi-buyer trade object has min(offered, demanded) deals, and has a gain and a text in exactly the stated cases. The old multi-recipe trade object refuses recipes without a category of their own.", "quantifier": "all recipes, counts, prices, categories", "why_tests_cant": "ranges over all sizes of recipes and all agent counts, including empty and zero ones", "anchors": ["prices.py: SimultaneousAscendingPriceVectors.__init__", "prices_integer.py: AscendingPriceVector.__init__, SimultaneousAscendingPriceVectors.increase_prices", "old/SimultaneousAscendingPriceVector.py: price_sum", "old/ascending_auction_multibuyer_protocol.py: TradeWithMultipleRecipes", "old/ascending_auction_multirecipe_protocol.py: TradeWithMultipleRecipes"]}
{"id": "C85", "title": "Stock prices become categories that fit the recipe", "statement": "getPrices turns the columns of a stock file into one list of integer prices per category: the thousandths of the prices (digits after the point cut off), positive for the first category, negative for the others. No category is scarce: with d the number of sets the file allows, every category has at least d times and less than d+1 times its recipe entry. The special recipes use the sums of high and close (or open and low) where one agent stands for two; all other recipes multiply every buyer price by the number of sellers in a set and deal the sellers to the seller categories in turn, so that together every seller is used equally often; a category gets every seller exactly when the number of seller categories has no common factor with the number of sellers, otherwise only sellers in a residue class. A stock whose price never moves gives every set the value 0 if the recipe has one buyer per set or is special, but a positive value (r0-1)*S*P otherwise. getAllPricesShuffled returns a permutation of all prices, and later calls with the same name return the same list whatever file they name.", "quantifier": "all stock files with columns of equal length, all recipes, all shuffles", "why_tests_cant": "ranges over all recipes and file lengths; the dealing pattern depends on the gcd of the two", "anchors": ["get_stocks_data.py: getPrices, getAllPricesShuffled"]}
{"id": "C86", "title": "The stock comparison reports averages that respect the documented bounds", "statement": "For every stock list, recipe, list of different numbers of agents, number of iterations and outcome of the shuffles (or of the random valuations), the experiment of experiment_compare_iterations_autions.py succeeds and writes one row per number of agents. Every column is the average over all stocks and iterations of that column on markets that consist of different entries of the stock's prices (doubled as often as needed for the largest number so far; buyers' prices multiplied by the number of sellers per buyer, cut to integers). The optimal columns are the smallest and largest numbers of deals of an optimal trade and its gain; for the ascending auction, trade reduction and (recipes of ones) McAfee the count lies between the optimal count minus 1 and the optimal count, the gain ratio between the guaranteed ratio column and 100, the traders' gain between 0 and the total gain, with equality for the budget balanced auctions. A stock without prices makes the program run forever; a number of agents listed twice makes it fail with TypeError after all the work; a recipe that starts with 0 (is empty) raises ZeroDivisionError (IndexError). The column withoutgftzerocountratio is not bounded by 100.", "quantifier": "all stocks, recipes, numbers of agents (up to 2000000), iterations, shuffles and draws; all lists of the supported auctions", "why_tests_cant": "the rows are averages over shuffles and draws; the bounds must hold for every one of them", "anchors": ["stock/experiment_compare_iterations_autions.py: experiment"]}
{"id": "C87", "title": "padding_zeroes cuts numerals towards zero", "statement": "For a number in positional notation, with or without sign and decimal point, padding_zeroes(x, n) is a numeral with exactly n digits after the point, of the same sign, not larger in absolute value, and less than one unit of the last digit away from x. It never raises. For numbers that Python writes in scientific notation the claim is false: 1.234e-05 becomes 1.234.", "quantifier": "all numerals and all numbers of digits", "why_tests_cant": "ranges over all strings of digits", "anchors": ["stock/experiment_compare_iterations_autions.py: padding_zeroes"]}
{"id": "C88", "title": "The files with differences between SBB auctions report exactly the differences", "statement": "In every iteration a line is appended to diff_in_sbbs_gft.txt (diff_in_sbbs_k.txt) exactly if, among the auctions with SBB in their names, some later auction has a smaller total gain (fewer deals) than the first or, with report_diff, a different one. With trade reduction and the ascending auction nothing is ever written for recipes of ones, and for recipes of ones except for the last entry on markets without spare agents; with the recipe 2:1 there are markets where the gains differ and a line is written.", "quantifier": "all markets, recipes, auctions with gains that are not negative, names", "why_tests_cant": "needs the equality of two auctions on all markets", "anchors": ["stock/experiment_compare_iterations_autions.py: experiment"]}
{"id": "C89", "title": "The texts of trades say what the trades do", "statement": "str() of a trade is 'No trade' exactly if there are no deals. For a single price vector it otherwise has one line per category of the recipe that says how many agents trade (all of them, or a random selection of strictly fewer than there are), namely recipe entry times number of deals, and the price; it never raises when there are prices, and raises TypeError for a trade with deals but without prices. For a recipe tree it has, for every node, the largest number of deals of the subtree below it against the category's size and against the sum over the children, and finally the largest number of deals of the whole tree. A line about an inner node only describes its own subtree (it may claim more traders than trade overall), and with agent counts 'all n traders selected' may be wrong when n is not a multiple of the count.", "quantifier": "all categories, recipes, prices, recipe trees without repeated categories, agent counts, and every rendering of numbers that does not end with white space; existential for the two failures", "why_tests_cant": "The lines depend on the sizes, the recipe and the tree; doctests show a handful of trees.", "anchors": ["trade.py: TradeWithSinglePrice.__repr__, TradeWithMaterialBalance.__repr__", "agents.py: AgentCategory.__str__", "recipetree.py: RecipeTree.num_of_deals_explained", "recipetree_integer.py: RecipeTree.num_of_deals_explained", "ascending_auction_recipetree_protocol.py: TradeWithMultipleRecipes.__repr__", "ascending_auction_recipetree_integer_protocol.py: TradeWithMultipleRecipes.__repr__"]}
{"id": "C90", "title": "The table of experiment_stock is right and within the bounds", "statement": "experiment() of stock/experiment_stock.py writes one row per stock, in order. Each row is, up to the documented rounding (two digits for counts and gains, three for ratios), the outcome on the market of the stock's values: number of possible procurement-sets, number of deals and gain of the optimum, number of deals, gain and traders' gain of the auction. It never warns, and what is written satisfies: auction count is the optimal count or one less, gains are between 0 and the optimum, all ratios are between 0 and 100, and the gain ratio is at least 100*(1-1/k) up to the rounding. For budget-balanced auctions the two gain columns agree. A missing recipe entry raises IndexError, a zero ZeroDivisionError, an empty stock ValueError.", "quantifier": "all recipes of positive numbers, all auctions meant for the recipe (ascending, trade reduction, McAfee for two ones), all lists of stocks with values within the auctions' bound and at most 2000000 possible deals", "why_tests_cant": "The bounds combine the properties of the mechanisms with rounding, for arbitrary values.", "anchors": ["stock/experiment_stock.py: experiment", "markets.py: Market.optimal_trade", "trade.py: TradeWithSinglePrice.gain_from_trade"]}
{"id": "C91", "title": "The table for several numbers of agents", "statement": "experiment() of stock/experiment_compare_iterations_autions_without_mcafee.py writes, for each stock, one row for each number of agents before the second that exceeds the size of the first category (with ascending numbers: all that fit and one for the whole stock). Each row tells, up to rounding, the outcomes of the optimum and of all auctions on the market of the first n*recipe[j] values of each category (all values if n exceeds the size), all within the bounds of C90, without warnings. If category j has N*recipe[j] agents, num_possible_trades is exactly the number of procurement-sets the row's market allows; for a recipe whose first entry is 2 and categories of other sizes it is wrong (3 are reported where 2 are possible).", "quantifier": "all recipes of positive numbers, lists of auctions meant for the recipe, lists of numbers of agents, lists of stocks within the bounds; existential for the failure", "why_tests_cant": "Which rows exist depends on the numbers and the sizes; the bounds must hold for all values.", "anchors": ["stock/experiment_compare_iterations_autions_without_mcafee.py: experiment"]}
{"id": "C92", "title": "The table with iterations and averages over the stocks", "statement": "experiment() of stock/experiment_compare_sbb_shufled_stock.py writes the rows of the stocks in order: the first number of agents always has a row, the others exactly if the prices suffice. If the prices suffice, the row is the outcome of the optimum and of all auctions on the market of the stock's first prices (times the number of sellers per deal for buyers, minus the number of buyers for sellers), within the bounds. If not (first number), it is the outcome divided by the number of iterations. Then there is one row of averages for each number that occurs: the sum over the stocks with a row divided by the number of all stocks, cut to three digits for the ratios, rounded to one digit otherwise. If the first auction's name contains 'mcafee' the experiment raises UnboundLocalError; if a later one's does, the columns of the auction before it are overwritten with zeros.", "quantifier": "all recipes, lists of auctions meant for the recipe with different column names, numbers of iterations > 0, lists of different numbers of agents, lists of price lists within the bound; existential for the failures", "why_tests_cant": "The accumulation over iterations, numbers and stocks, with early exits, must be right for every combination.", "anchors": ["stock/experiment_compare_sbb_shufled_stock.py: experiment"]}
{"id": "C93", "title": "The unit of money does not matter", "statement": "If every value of a market is expressed in another unit of money (multiplied by any positive number c), then optimal_trade, gain_from_trade, the three single-recipe mechanisms, the recipe-tree optimum and the two recipe-tree auctions do the same: the same agents trade in the same number of deals, or the same exception is raised, and all prices and gains are multiplied by c. This holds when MAX_VALUE (and the tree auction's initial prices) are converted as well; with the code's constant MAX_VALUE it holds for the single-recipe mechanisms if the values are well below MAX_VALUE in both units. Otherwise it fails: multiplied by 30000000, a market with two deals gets three, and a seller who values the good at 180000000 is paid 100000000.", "quantifier": "all markets, recipes, trees, agent counts, flags, caps and positive factors c", "why_tests_cant": "Relates two runs for every market and every factor.", "anchors": ["markets.py: Market.optimal_trade", "trade.py: TradeWithSinglePrice.gain_from_trade", "ascending_auction_protocol.py", "trade_reduction_protocol.py", "mcafee_protocol.py", "recipetree.py", "ascending_auction_recipetree_protocol.py", "ascending_auction_recipetree_integer_protocol.py", "agents.py: MAX_VALUE"]}
{"id": "C94", "title": "The earlier recipe tree (recipetree.old.py)", "statement": "recipetree.old.py: recipes() is the recipe of every root-to-leaf path; largest_categories returns categories of which every path contains exactly one, the size of the largest of them, and, as combined size, the largest number of deals that the tree allows; the categories together have at least as many traders as the root, an inner category is returned only if it has more traders than its children's trees have deals and passed over only if not (but they need not have the largest total). optimal_trade returns an optimal list of deals, all of positive gain, with as few deals as possible, and optimal_trade_GFT its gain, which is that of recipetree.py. num_of_deals_explained returns the largest number of deals and a text with the report of every node followed by its number of deals; the docstring, which has no such lines, is wrong.", "quantifier": "all trees over distinct categories, all categories, all prices", "why_tests_cant": "Must hold for every tree shape and all category sizes and values; optimality ranges over all feasible lists of deals.", "anchors": ["recipetree.old.py: RecipeTree.recipes", "recipetree.old.py: RecipeTree.largest_categories", "recipetree.old.py: RecipeTree.optimal_trade", "recipetree.old.py: RecipeTree.optimal_trade_GFT", "recipetree.old.py: RecipeTree.num_of_deals_explained"]}
{"id": "C95", "title": "An agent who trades cannot influence the outcome, and his price is his threshold", "statement": "Fix the reports of all other agents. Whenever an agent is among those left with two different reports, the two outcomes are the same: the same prices, the same number of deals, the same agents left in every other category and the same other agents in his own. A better report never throws an agent out who was in. If he is out with one report and in with another, the price he faces lies between the two. An agent who is out can change the prices.", "quantifier": "every market, recipe, agent, pair of reports and tie-breaking positions, for the ascending auction, the recipe-tree auction, McAfee's protocol without the heuristic price, and trade reduction on markets without spare agents in the scarcest category", "why_tests_cant": "Infinitely many pairs of reports, histories and tie-breaks.", "anchors": ["ascending_auction_protocol.py: budget_balanced_ascending_auction", "ascending_auction_recipetree_protocol.py: budget_balanced_ascending_auction", "trade_reduction_protocol.py: budget_balanced_trade_reduction", "mcafee_protocol.py: mcafee_trade_reduction"]}
{"id": "C96", "title": "A better market never has a worse optimal trade", "statement": "If agents are added and values go up, neither the number of deals nor the gain of the optimal trade goes down, for Market.optimal_trade, for the optimal trade of a recipe tree and for that of an integer recipe tree; if only values go up, the gain grows by at most the sum of the raises. McAfee's protocol without the heuristic price is monotone in the same sense. The ascending auction, trade reduction and McAfee with the heuristic price are not: a raise that increases the optimal gain can lower theirs.", "quantifier": "every two markets of which one improves on the other, every recipe, recipe tree and agent counts", "why_tests_cant": "Ranges over all pairs of markets related by an arbitrary set of raises and additions.", "anchors": ["markets.py: Market.optimal_trade", "recipetree.py: RecipeTree.optimal_trade, optimal_trade_GFT", "recipetree_integer.py: RecipeTree.optimal_trade, optimal_trade_GFT", "mcafee_protocol.py: mcafee_trade_reduction"]}
{"id": "C97", "title": "including_gft_0 only adds traders to trade reduction", "statement": "On the same market and recipe, if budget_balanced_trade_reduction returns a trade without and with including_gft_0, the trade with the flag has the same categories, at least the same traders in each of them (with multiplicities) and at least as many deals. The gain that the trade reports is not monotone: the flag can lower it.", "quantifier": "every market, recipe and value of the minus-infinity constant", "why_tests_cant": "Compares two whole runs on every market; the runs diverge at the first pivot whose procurement set gains exactly zero.", "anchors": ["trade_reduction_protocol.py: budget_balanced_trade_reduction", "trade.py: TradeWithSinglePrice.gain_from_trade"]}
{"id": "C98", "title": "The search programs never crash and report what they claim", "statement": "removeSeconds removes exactly the positions that are multiples of its argument. The search for an input on which the ascending auction beats the optimal number of deals does nine rounds without raising, whatever the shuffles, and never finds one: in each round the auction makes as many deals as the optimum or one less. The search for a market on which including_gft_0 matters never raises whatever it draws, prints for each round the numbers and gains of the two trades, and stops exactly at the first round in which both differ, whose lists it prints.", "quantifier": "every list and divisor; every shuffle and every random draw in every round", "why_tests_cant": "The programs are random searches: the claims quantify over everything the random generator can return in up to 9998 rounds.", "anchors": ["stock/finding_bad_input_for_ascending_auction.py: removeSeconds, main loop", "stock/trade_reduction_demo_difference_gft0_simple.py: removeSeconds, main loop"]}
{"id": "C99", "title": "The shipped experiment programs finish whatever they draw", "statement": "Whatever the random generator returns, every call of experiment() in the shipped programs returns without an exception and writes one row per number of agents, in order, with the number of iterations of the call, averages within the documented bounds, and equal market and total ratios for the two strongly budget-balanced mechanisms; comparing_sbbs.py writes a row for each of its recipes that counts the twenty numbers of agents once, and only ties for the recipes of ones except for the last entry; in the random part of experiment_recpietree.py no auction raises or loops forever, for every optimal or non-optimal feasible initial prices, and the twelve rows obey the bounds. experiment_recpietree_integer.py raises in its first iteration.", "quantifier": "every call in the programs, every random draw within the ranges, every initial prices that meet the contract of the linear program", "why_tests_cant": "The programs draw up to 50000 random markets for each number of agents; a test sees one outcome of the generator, and an infinite loop or a crash may need an unlucky draw with ties.", "anchors": ["experiment_comparing_mcafee_to_sbb.py", "mcafee_experiment.py", "ascending_auction_experiment.py", "experiment_sbb_with_two_categories.py", "experiment_sbb_with_vectors_of_ones.py", "stock/comparing_results_for_demo_11.py", "comparing_sbbs.py", "experiment_recpietree.py", "experiment_recpietree_integer.py", "experiment.py: experiment", "experiment_ascending_auction_recipetree_random.py: experiment"]}
{"id": "C100", "title": "McAfee's protocol with float values: no deficit, right number of deals, prices right up to rounding", "statement": "With two categories of finite IEEE doubles the protocol raises nothing, returns finite prices and never has a deficit (the sum of the two prices is not negative, exactly); its traders are the best ones of each category, and their number is the optimal number of deals of the same market with exact numbers, or one less. Individual rationality does not hold: when the rounded gains of two deals are equal the better one may set the prices, and a seller may get less than her cost; but for non-negative buyers and non-positive sellers the loss is at most 2^-52 times the highest buyer's value. With integers below 2^52 the traders and prices are exactly those of the exact protocol.", "quantifier": "every two-category market of finite doubles, with and without the price heuristic", "why_tests_cant": "The failures need values whose sums round to the same double; tests with a few literals see none, and cannot bound the error.", "anchors": ["mcafee_protocol.py: mcafee_trade_reduction, is_price_good_for_ps", "markets.py: optimal_trade, get_highest_agents", "agents.py: AgentCategory"]}
{"id": "C101", "title": "Malformed inputs raise the exception that callers can expect", "statement": "An empty collection of recipes or recipes of different lengths, an empty list of increases, a recipe tree given by a list of odd length, a recipe of the wrong length for the multi-buyer auction and a recipe of zeros raise ValueError; an empty tree, a market without categories in the multi-buyer auction, a stock without price lists, and recipes or price vectors that are shorter than the number of categories raise IndexError; a tree that is not a list raises TypeError. This holds whatever the other arguments are, including the answer of the linear program.", "quantifier": "every malformed input of each of the kinds listed, every value of the other arguments", "why_tests_cant": "Each test checks one malformed input; the rejection must not depend on the values, the sizes or the solver.", "anchors": ["prices_integer.py: SimultaneousAscendingPriceVectors", "prices.py: SimultaneousAscendingPriceVectors.increase_prices", "old/SimultaneousAscendingPriceVector.py", "recipetree_integer.py: RecipeTree.__init__", "old/ascending_auction_multibuyer_protocol.py", "experiment_ascending_auction_recipetree_stock.py", "stock/experiment_compare_sbb_shufled_stock.py", "ascending_auction_protocol.py"]}
{"id": "C102", "title": "The stock programs finish on every set of stock files with ordinary prices", "statement": "Every call that the programs in stock/ make (ascending auction, McAfee with and without heuristic, trade reduction; all their recipes, numbers of agents and iterations) ends with its table, for every directory of files whose prices are from 0 to a bound: below 25000 for the three programs with one row per stock, up to 4166 for the programs by numbers of agents, below 6250 for the shuffled programs and the comparisons. Every row tells the outcome on agents made of the prices of its file. The shuffled prices of a file are all its prices in thousandths, in some order, and a file that was read before is not shuffled again. The comparisons with random values end for all draws.", "quantifier": "every directory of files, every price within the bound, every result of the shuffles, every draw; every call written in the programs", "why_tests_cant": "A run covers one directory and one seed; that no combination of prices and shuffles stops a program with an assertion or an exhausted loop needs all of them.", "anchors": ["get_stocks_data.py: getStocksPrices, getStocksPricesShuffled", "stock/experiment_stock.py: experiment", "stock/ascending_auction_experiment_stock.py", "stock/mcafee_experiment_stock.py", "stock/experiment_sbb_stock_vectors_multi.py", "stock/experiment_sbb_stock_vectors_ones.py", "stock/experiment_sbb_stock_vectors_multi_shuffled.py", "stock/experiment_sbb_stock_vectors_ones_shuffled.py", "stock/experiment_comparing_mcafee_to_sbb_stock.py", "stock/experiment_comparing_all_with_all_recipes.py"]}
{"id": "C103", "title": "The recipe-tree experiment on stock files finishes on every set of files with ordinary prices", "statement": "The stock part of experiment_recpietree.py ends with a row for each of its nineteen numbers of agents, for every non-empty directory of files of at least two days with prices from 0 to 8333, for all results of the shuffles and whatever feasible initial prices the linear program returns: no auction raises or loops forever, and the rows are those of C69 for the prices taken from the files. Of each file's prices (in thousandths, none used twice) the buyers get two fifths, doubled, and each seller category a fifth, negated and for the first one doubled. get_prices_tree deals the prices in consecutive disjoint pieces of floor(len * count / sum) prices for all non-negative counts, integers or not.", "quantifier": "every directory of files within the bounds, every shuffle, every feasible initial price vector; every data, counts and values for get_prices_tree", "why_tests_cant": "A run covers one directory and one seed, and takes hours; the end of every auction for all prices needs the termination proof.", "anchors": ["experiment_recpietree.py", "experiment_ascending_auction_recipetree_stock.py: experiment", "get_stocks_data.py: getStocksTreePrices, get_prices_tree", "ascending_auction_recipetree_protocol.py: budget_balanced_ascending_auction"]}
{"id": "C104", "title": "With doubles, the ascending auction's budget and individual rationality fail only by the rounding", "statement": "In IEEE doubles the traders of one deal of the ascending auction do not always pay exactly 0 together, nor at most their values (C53). But if all values are at most B in absolute value (B at least 10^8, where the prices start) and 2 * traders * B <= 2^k, then all prices are finite and the exact total of the payments of one deal differs from 0 by at most (2n+5)*2^(k-54), n the number of categories; and for every recipe a remaining agent's price exceeds its value by at most 3*2^-53*B. In figures: for values up to 10^8, at most five categories and five traders, both errors are below a millionth.", "quantifier": "every market of finite doubles within B, every recipe of at most 2^53 traders, every run of the auction", "why_tests_cant": "The worst rounding over all markets cannot be found by trying markets; the bound follows from the error of every operation.", "anchors": ["ascending_auction_protocol.py: budget_balanced_ascending_auction", "prices.py: SimplePriceVector.increase_price_up_to_balance, dot, price_sum_without_category"]}
{"id": "C105", "title": "With doubles, the trade-reduction protocol errs only by the rounding", "statement": "In IEEE doubles the budget balance and the individual rationality of budget_balanced_trade_reduction (C03, C04) fail: with the buyer 0.4 and the sellers -0.1, -0.1 the buyer pays 0.09999999999999998 and the seller gets 0.1; and when the gains of two deals are rounded to the same number, a buyer can pay more than its value. But for two categories of finite doubles, buyers (values in [0, B], B <= 2^1000) and sellers (values in [-10^8, 0]), and recipe [1,1], the protocol never fails, its prices are finite, their sum differs from 0 by at most 2^-52*B, and no trader's price exceeds its value by more than 2^-52*B. Rounding never changes the number of deals: the sellers who trade, and the buyers with at most one more, are the k best ones, any pair of them is a worthwhile deal in exact numbers, and no pair of the others is. Prices are missing only when deals of gain 0 are excluded and the best deal has gain exactly 0. With integers below 2^52 traders and prices equal those of exact arithmetic.", "quantifier": "every list of buyers and of sellers, every B, both values of including_gft_0, every iteration limit (for the traders: larger than the number of buyers)", "why_tests_cant": "The worst rounding over all markets cannot be found by trying markets, and no finite set of markets shows that a rounded comparison never changes who trades.", "anchors": ["trade_reduction_protocol.py: budget_balanced_trade_reduction", "markets.py: Market.optimal_trade, Market.best_containing_PS, Market.calculate_prices_by_external_competition", "agents.py: AgentCategory.append"]}
{"id": "C106", "title": "With doubles, the ascending auction is truthful up to the rounding", "statement": "In IEEE doubles budget_balanced_ascending_auction is not exactly truthful (unlike C14): with two buyers of value 0.200000009 and two sellers of cost 0.200000002 and 0.200000003, the second buyer gains 5.9e-9 by reporting 0.3. But the gain is never more than the rounding: for every recipe, every market of finite doubles in [-10^8, B] (B at least 10^8) and every false report in [-B, B], with 2*traders*B <= 2^k the expected utility (probability to trade times value less price) of the false report exceeds that of the true one by at most (4n+8)*2^(k-54), where n is the number of categories. For values up to 10^8, five categories and five traders per deal this is less than two millionths.", "quantifier": "every market, recipe, agent, false report, B and k (k <= 1000, at most 2^53 traders and categories)", "why_tests_cant": "The best lie over all markets and reports cannot be found by trying reports; the profitable ones found differ from the honest outcome in the ninth digit only.", "anchors": ["ascending_auction_protocol.py: budget_balanced_ascending_auction", "prices.py: SimplePriceVector.increase_price_up_to_balance, dot, price_sum_without_category", "agents.py: AgentCategory.__init__", "trade.py: TradeWithSinglePrice.num_of_deals"]}
{"id": "C107", "title": "Trade reduction in a two-sided market: who trades and at what price", "statement": "For a market of two categories and recipe [1,1], budget_balanced_trade_reduction does the following and nothing else. Sort both categories in descending order and match best with best; let k be the number of pairs worth doing (gain >= 0, or > 0 without including_gft_0; k exists and is unique). k=0: nobody trades. Otherwise let a be the k-th value of the first category and b' the (k+1)-th value of the second (-MAX_VALUE if absent). If a+b' is worth doing, the k best of both categories trade and the price of the second category is b'. Otherwise the owner of a is expelled: k-1 of the first category trade with k-1 of the k best of the second, and the price of the first category is a. The two prices add up to 0.", "quantifier": "every two-category market with values >= -MAX_VALUE, both values of including_gft_0", "why_tests_cant": "It is a closed form for the outcome on all markets, including ties and categories with nobody left out.", "anchors": ["trade_reduction_protocol.py: budget_balanced_trade_reduction", "markets.py: Market.optimal_trade"]}
{"id": "C108", "title": "Lemonade industry: sub-markets keep the optimum, lose the balance, and the order of the categories decides the sign", "statement": "trade_reduction_demo_lemonade.py builds one market for an industry and three two-sided sub-markets with virtual traders (sums of two lists, position by position). For value lists in descending order: (1) the industry and the three sub-markets have optimal trades with the same number of deals and the same gain; (2) with the buyers first, the three auctions together never collect from the drinkers more than they hand to pickers and squeezers (a deficit, strict on the script's data), and no more juice is sold than lemons picked or squeezed; (3) with the sellers first it is never a deficit, and no more lemons are picked or squeezed than juice is sold (balanced on the script's data, a strict surplus on others). For unsorted lists (1) fails.", "quantifier": "all value lists in descending order, of any (different) lengths, pickers and squeezers with values in [-MAX_VALUE/2, 0], drinkers in [-MAX_VALUE/2, MAX_VALUE/2], both values of including_gft_0", "why_tests_cant": "The script shows one data set; the sign of the imbalance is a statement about all of them.", "anchors": ["trade_reduction_demo_lemonade.py: module", "trade_reduction_protocol.py: budget_balanced_trade_reduction", "markets.py: Market.optimal_trade"]}
{"id": "C109", "title": "The order in which the categories are listed", "statement": "List the categories of a market (and the recipe with them) in another order. Market.optimal_trade gives the same number of deals, the same gain and the same remaining agents, and mcafee_trade_reduction the same deals, traders and prices. budget_balanced_trade_reduction and budget_balanced_ascending_auction are not invariant, but their numbers of deals differ by at most one; and for recipes of ones, if two neighbouring categories change places, nothing changes for the others, the category that moves back pays no more (receives no less) and keeps all its remaining agents, the one that moves forward pays no less, the two prices together stay the same, and so does the number of deals unless these are the first two categories.", "quantifier": "every market, every permutation of its categories (any recipe; recipes of ones where said), both flags; prices and deals of the two budget-balanced auctions: values small against MAX_VALUE", "why_tests_cant": "The scripts trade_reduction_demo_111.py and ascending_auction_demo_111.py list six orders of one market; the claim ranges over all markets and all permutations.", "anchors": ["markets.py: Market.optimal_trade", "mcafee_protocol.py: mcafee_trade_reduction", "trade_reduction_protocol.py: budget_balanced_trade_reduction", "ascending_auction_protocol.py: budget_balanced_ascending_auction", "trade_reduction_demo_111.py: module"]}
{"id": "C110", "title": "Numbers of the categories and order of the children of a recipe tree", "statement": "Run the recipe-tree auction on the same market with its categories listed in another order, the struct renumbered accordingly, and the children of any node listed in any order. If the initial prices are the same ones and give all recipes the same sum, the auction returns, after as many rounds, the same remaining agents, prices, number of deals (and its two bounds) and gain from trade. The integer version with agent counts is not invariant: on its own doctest market, listing the producers before the sellers changes the remaining agents and all prices; and even with unit counts, listing the buyers last makes it raise ValueError.", "quantifier": "every market, every permutation of its categories, every tree and every reordering of the children of every node, every initial prices with equal sums for all recipes", "why_tests_cant": "Tests run a few structs in one listing; there are factorially many listings of each market and tree.", "anchors": ["ascending_auction_recipetree_protocol.py: budget_balanced_ascending_auction", "recipetree.py: RecipeTree.__init__, largest_categories, num_of_deals_explained, optimal_trade_GFT", "prices.py: SimultaneousAscendingPriceVectors.increase_prices", "ascending_auction_recipetree_integer_protocol.py: budget_balanced_ascending_auction", "prices_integer.py: SimultaneousAscendingPriceVectors.calculate_initial_prices"]}
{"id": "C111", "title": "The outcome of the tree auction does not depend on the solution of the linear program", "statement": "The linear program for the initial prices may have many solutions (the slack of a short branch can be put on any of its categories), and the solver picks one. If no category of the tree is empty or has two agents with the same value, and the values are moderate compared with MAX_VALUE, then whatever initial prices meet the documented contract (each at most -MAX_VALUE, equal sums for all recipes; optimal or not), the auction ends with the same agents, the same numbers of deals, the same gain and the same price of every category of the tree. Together with C110: the outcome depends on the market and the tree only, not on the listing of categories and children nor on the solver. With ties, or with empty categories, this is false: on one market one optimal solution yields no deal and another yields one.", "quantifier": "every market with moderate values and without ties or empty categories, every tree, every pair of initial price vectors that meet the contract, every order of the categories and of the children", "why_tests_cant": "A test sees one solver's one solution; there is a continuum of solutions and every other solver version may return another.", "anchors": ["prices.py: SimultaneousAscendingPriceVectors.calculate_initial_prices, increase_prices", "ascending_auction_recipetree_protocol.py: budget_balanced_ascending_auction", "recipetree.py: RecipeTree.largest_categories"]}
{"id": "C112", "title": "When one side of the market gets better, its own agents pay more and the others pay less", "statement": "Prices react to competition in the right direction. Let a market get better: agents come or raise their values, in some categories. In the ascending auction (any recipe), the price of every category that stayed as it was does not go up (sellers do not receive less), and no agent of such a category with a value above the price is driven out; if only one category got better, its own price does not go down. The same holds for the prices of trade reduction with a recipe of ones, and the first half for McAfee's protocol without the heuristic. In the auction with a recipe tree, if one category gets better, its price does not go down, the price of every category that some recipe takes together with it (a complement) does not go up, and the price of every other category of the tree (a substitute) does not go down (values moderate and without ties, no empty category, some agent of the root category left; then some is left in the better market too). It fails for the own price in McAfee's protocol and for trade reduction with other recipes; and a better price does not mean a better expected utility, because more agents may take part in the lottery.", "quantifier": "every market, every better market (any number of new agents, any raised values in any categories), every recipe (of ones for trade reduction and McAfee), every recipe tree", "why_tests_cant": "It relates two complete runs of an auction on two markets of arbitrary sizes whose rounds differ in number and order; a test compares two literals.", "anchors": ["ascending_auction_protocol.py: budget_balanced_ascending_auction", "trade_reduction_protocol.py: budget_balanced_trade_reduction", "mcafee_protocol.py: mcafee_trade_reduction", "prices.py: AscendingPriceVector.increase_prices", "ascending_auction_recipetree_protocol.py: budget_balanced_ascending_auction", "recipetree.py: RecipeTree.largest_categories"]}
{"id": "C113", "title": "A small change of the values causes a small change of the prices", "statement": "The prices are stable against small errors in the reported values. Let two markets have the same numbers of agents, and let each value change by at most eps. Then in the ascending auction (any recipe) and in trade reduction (any recipe, when at least one procurement-set is worth while in both markets) the price of a category changes by at most eps times max(1, (R - r) / r), where r is the number of agents of this category and R the number of all agents in a procurement-set; for one buyer and one seller that is eps. In the tree auction (categories in distinct nodes, no two equal values in a category, optimal starting prices, M large against the values, and the root not exhausted), when the agents of one category raise their values by at most eps each, every price of the tree changes by at most eps. All bounds are reached. It fails for McAfee's protocol, with and without the heuristic (a price can jump however small eps is), and the number of deals and the utility of an agent can jump in the ascending auction.", "quantifier": "every two markets with the same sizes and values that differ by at most eps, every eps >= 0, every recipe, every number of rounds", "why_tests_cant": "It relates two complete runs on two markets of any sizes; the runs may remove different agents in different rounds and stop in different places, and the bound has to hold for all eps.", "anchors": ["ascending_auction_protocol.py: budget_balanced_ascending_auction", "trade_reduction_protocol.py: budget_balanced_trade_reduction", "markets.py: Market.calculate_prices_by_external_competition", "mcafee_protocol.py: mcafee_trade_reduction", "prices.py: AscendingPriceVector.increase_prices"]}
{"id": "C114", "title": "Agents whose values are below the price of their category do not matter", "statement": "Let an auction end with some prices. Add, remove and change any number of agents in all categories at once, such that their values before and after are strictly below the final price of their category (sellers with negative values: they ask for more than the sellers get). Then the ascending auction (any recipe) on the new market ends with the same prices, the same remaining agents and the same number of deals. The same holds for trade reduction (recipes of ones but for the last entry, no spare agents, zero-GFT deals included, at least one deal), and, for the prices and remaining agents of the categories in the tree, for the tree auction (categories in distinct nodes, none empty, no two equal values in a category, optimal starting prices, M large against the values, and the root not exhausted). It fails for an agent whose value is exactly the price, and for McAfee's protocol with and without the heuristic.", "quantifier": "every two markets that differ only in agents below the final prices of the first, every recipe, every number of rounds", "why_tests_cant": "It relates two complete runs on two markets of any sizes with any number of simultaneous changes; the second run removes other agents in other rounds before it reaches the same end.", "anchors": ["ascending_auction_protocol.py: budget_balanced_ascending_auction", "trade_reduction_protocol.py: budget_balanced_trade_reduction", "mcafee_protocol.py: mcafee_trade_reduction", "ascending_auction_recipetree_protocol.py: budget_balanced_ascending_auction", "prices.py: AscendingPriceVector.increase_prices"]}
{"id": "C115", "title": "The values of the agents who are left at the end do not matter, as long as they are at least the price", "statement": "Let an auction end with some prices and some remaining agents. Give new values to any number of the remaining agents, in all categories at once, such that the new values are at least the final price of their category. Then the ascending auction (any recipe) on the new market ends with the same prices and the same number of deals, and the same agents are left, with their new values: the auction learns nothing about them but that they accept the price. The same holds for trade reduction (recipes of ones but for the last entry, no spare agents, zero-GFT deals included, at least one deal), and, for new values strictly above the prices, for the categories in the tree of a tree auction (categories in distinct nodes, none empty, no two equal values in a category, optimal starting prices, M large against the values, and the root not exhausted). McAfee's protocol has the property without the heuristic (any number of categories), with it when the candidate price is refused, and with it in markets of buyers and sellers where the new values of sellers stay negative and M is more than twice the values; it fails with the heuristic for three categories, and for sellers who stop asking for money. It fails for all when a remaining agent goes below the price.", "quantifier": "every two markets that differ only in the values of the remaining agents of the first auction, every recipe, every number of rounds", "why_tests_cant": "It relates two complete runs on two markets of any sizes with any number of simultaneous changes to any values above the prices.", "anchors": ["ascending_auction_protocol.py: budget_balanced_ascending_auction", "trade_reduction_protocol.py: budget_balanced_trade_reduction", "ascending_auction_recipetree_protocol.py: budget_balanced_ascending_auction", "mcafee_protocol.py: mcafee_trade_reduction", "prices.py: AscendingPriceVector.increase_prices", "agents.py: AgentCategory.remove_lowest_agent"]}
{"id": "C116", "title": "With doubles, McAfee's protocol is truthful up to the rounding without the heuristic, and not with it", "statement": "In a market of buyers (values between 0 and B) and sellers (values at most 0) whose values are IEEE doubles, McAfee's protocol without the heuristic lets no agent gain more than B * 2^-52 by reporting another number than its value, whichever of the agents with equal reports it is in the two runs. Exact truthfulness fails (a seller traded below its cost by a rounded tie is better off when it asks for more). With the heuristic the gain of a false report is not bounded by the rounding: with buyers 4, 3.99, 0.05 and sellers 0.1, 0.10000000000000002, 0.15 the buyer 3.99 gains more than 3.8 by reporting 4, because the deal that decides on the candidate price is picked by rounded gains.", "quantifier": "every list of buyers and sellers of finite doubles with these signs, every agent, every false report (any finite double), every way to break ties", "why_tests_cant": "It compares two runs for every market and every false report, with rounding in every comparison of gains.", "anchors": ["mcafee_protocol.py: mcafee_trade_reduction", "markets.py: Market.optimal_trade", "mcafee_protocol.py: is_price_good_for_ps"]}
{"id": "C117", "title": "With doubles, the trade-reduction protocol is truthful up to the rounding, and its price is the right order statistic", "statement": "In a market of buyers (values between 0 and B, B below MAX_VALUE = 10^8) and sellers (values between -10^8 and 0) whose values are IEEE doubles, with a recipe of ones: no agent gains more than 6 * B * 2^-52 in the trade-reduction protocol by reporting another number than its value, whichever of the agents with equal reports it is in the two runs; the buyers' price is, up to 3 * B * 2^-52, the n-th highest of all valuations (buyers' values and sellers' costs), n being the number of sellers; nobody who does not trade has a value above its price by more than B * 2^-52. Exact truthfulness fails (a buyer charged more than its value by a rounded tie is better off when it reports 0), and for values above MAX_VALUE the gain of a false report can be as large as MAX_VALUE.", "quantifier": "every list of buyers and sellers of finite doubles within these bounds, every agent, every false report within the bounds, both values of including_gft_0, every way to break ties", "why_tests_cant": "It compares two runs for every market and every false report, with rounding in every comparison of gains and in the price.", "anchors": ["trade_reduction_protocol.py: budget_balanced_trade_reduction", "markets.py: Market.optimal_trade", "markets.py: Market.calculate_prices_by_external_competition"]}
{"id": "C118", "title": "With doubles, McAfee's protocol does not depend on which of two sides is listed first; with three categories the order matters", "statement": "For two categories of doubles (also infinities and NaN), with and without the heuristic, listing the other category first gives the same traders and the same prices in the other order, or the same exception. Hence the protocol has no deficit and is truthful up to rounding with the sellers first as well. With three categories the order of the categories can decide whether there is a deal: (0.01 + 0.03) - 0.04 is 0, but (0.03 - 0.04) + 0.01 is negative.", "quantifier": "every two lists of doubles, every number of iterations, both values of the heuristic flag", "why_tests_cant": "It compares two runs for every market; floating-point addition is commutative but not associative, so some orders agree on all inputs and others only on most.", "anchors": ["mcafee_protocol.py: mcafee_trade_reduction", "markets.py: Market.optimal_trade"]}
{"id": "C119", "title": "An agent who trades in McAfee's protocol with the heuristic price cannot influence the outcome", "statement": "For any number of categories and both values of the heuristic flag: if all values and reports in an agent's category are buyers' values (at least 0) or all are sellers' values (below 0), then with every two reports with which he trades the prices, the number of deals and the other agents left are the same; and a better report never throws him out. In a market with one category of buyers and one of sellers, with buyers' values below half of MAX_VALUE, the price he faces lies between every report with which he is out and every report with which he is in. With both signs in one category a better report can throw him out; with three categories the price is not the threshold.", "quantifier": "every market, every agent, every pair of reports, every iteration cap large enough for the market", "why_tests_cant": "It compares two runs for every pair of reports of every agent of every market.", "anchors": ["mcafee_protocol.py: mcafee_trade_reduction, is_price_good_for_ps", "markets.py: Market.optimal_trade"]}
{"id": "C120", "title": "With doubles, an agent who trades in McAfee's protocol without the heuristic, or in trade reduction, changes the prices by roundings only", "statement": "In a market of finite doubles with buyers between 0 and B and sellers at most 0, without the heuristic: if an agent (buyer or seller) trades with two different reports, the number of deals is the same and each of the two prices differs by at most B*2^-52. In the trade-reduction protocol (values below MAX_VALUE) each price differs by at most 6*B*2^-52. Not exactly: in McAfee's protocol a buyer's report can change the sellers' price by one unit in the last place. With the heuristic the influence is not small: a buyer who trades at 3.99 with the report 4 trades at 0.1 with the report 3.99. A better report can throw a trading seller out, by a tie of the rounded gains.", "quantifier": "every two lists of finite doubles, every agent, every pair of reports, every iteration cap large enough for the market", "why_tests_cant": "It bounds the rounding effects of every pair of reports in every market; the failures with the heuristic need values whose rounded gains tie.", "anchors": ["mcafee_protocol.py: mcafee_trade_reduction", "trade_reduction_protocol.py: budget_balanced_trade_reduction", "markets.py: Market.optimal_trade"]}
{"id": "C121", "title": "With doubles, an agent who stays in the ascending auction cannot change its prices at all", "statement": "In budget_balanced_ascending_auction with finite doubles of absolute value at most B (B at least 10^8, 2*traders*B <= 2^k): if an agent is among the remaining agents with the report v, then with every report that is not lower it remains too, the price vector is the same doubles, the other categories keep the same agents, and its own category keeps the same number and the same other agents. Hence any two reports with which it remains give the same prices (no rounding difference, unlike C120). A report with which it leaves is not above one with which it remains, and exceeds the price it would trade at by at most (4n+8)*2^(k-54): less than two millionths for reports up to 10^8, five categories and five traders per deal. The threshold is not exact: the second of two buyers leaves with 0.200000009 although it would remain with 0.3 at the price 0.200000003.", "quantifier": "every market, recipe, agent, pair of reports, B and k (k <= 1000, at most 2^53 traders and categories)", "why_tests_cant": "It compares the runs for every pair of reports in every market, through all rounded sums; a test samples a few pairs.", "anchors": ["ascending_auction_protocol.py: budget_balanced_ascending_auction", "prices.py: SimplePriceVector.increase_price_up_to_balance, dot, price_sum_without_category", "agents.py: AgentCategory.__init__", "trade.py: TradeWithSinglePrice.num_of_deals"]}
{"id": "C122", "title": "With doubles, better reports of the agents who stay in the ascending auction change nothing", "statement": "budget_balanced_ascending_auction with finite doubles of absolute value at most B (B at least 10^8, 2*traders*B <= 2^k): replace, in any categories, any of the remaining agents' values by others, each at least the value of some remaining agent of its category (so at least the lowest), and keep the agents who left. Then the same numbers of agents remain, with their new values, and the price vector is the same doubles. A value that is at least the price is not enough (with exact numbers it is, C115): five buyers remain at the price 0.6; if all of them report 0.6, two leave and the seller's price changes. And the agents who leave do matter (with exact numbers those below the final price do not, C114): with sellers of costs 0.8 and 3.4 and buyers of values 4.2 and 0.8 there is one deal; without the seller of cost 3.4, who left, there is none.", "quantifier": "every two markets, recipe, B and k (k <= 1000, at most 2^53 traders and categories)", "why_tests_cant": "It compares pairs of markets that differ in any number of values, through all rounded sums.", "anchors": ["ascending_auction_protocol.py: budget_balanced_ascending_auction", "prices.py: SimplePriceVector.increase_price_up_to_balance", "agents.py: AgentCategory.__init__"]}
{"id": "C123", "title": "With doubles, the order in which the agents of a category are listed does not matter", "statement": "For markets of finite doubles without the double -0.0: listing the agents of each category in another order gives the same result bit by bit (remaining agents or traders, prices, or the exception) in budget_balanced_ascending_auction with any recipe, in mcafee_trade_reduction with and without the heuristic, and in budget_balanced_trade_reduction with a recipe of ones. With -0.0 the sign of a price can depend on the order.", "quantifier": "every market, every reordering within the categories, every recipe (of ones for McAfee and trade reduction), every iteration cap", "why_tests_cant": "It ranges over all permutations of all markets; floating-point sums usually depend on the order of their terms.", "anchors": ["agents.py: AgentCategory.__init__", "ascending_auction_protocol.py: budget_balanced_ascending_auction", "mcafee_protocol.py: mcafee_trade_reduction", "trade_reduction_protocol.py: budget_balanced_trade_reduction"]}
{"id": "C124", "title": "With doubles, the agents who left the ascending auction have nothing to gain, up to the rounding", "statement": "budget_balanced_ascending_auction with finite doubles of absolute value at most B (B at least 10^8, 2*traders*B <= 2^k): the value of an agent who is not among the remaining ones exceeds the price of its category by at most (4n+8)*2^(k-54), where n is the number of categories (less than two millionths for values up to 10^8, five categories and five traders per deal). If there is a deal, no further deal of agents who left has a gain above (2n+5 + traders*(4n+8))*2^(k-54). Not exactly: a buyer of value 0.200000009 leaves although the buyers' price is 0.200000003.", "quantifier": "every market, recipe, agent or deal of agents who left, B and k (k <= 1000, at most 2^53 traders and categories)", "why_tests_cant": "It bounds the rounding errors of every run and every combination of agents who left.", "anchors": ["ascending_auction_protocol.py: budget_balanced_ascending_auction", "prices.py: SimplePriceVector.increase_price_up_to_balance", "trade.py: TradeWithSinglePrice.num_of_deals"]}
