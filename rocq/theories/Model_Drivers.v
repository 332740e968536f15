(** * The programs that run the experiments: what they call, with which parameters *)

From Coq Require Import String List Arith NArith ZArith QArith.
From Verif Require Import Base Model_Agents Model_Trade Model_Market Model_Ascending Model_TradeReduction Model_McAfee Model_RecipeTree
  Model_TreeAuction Model_TreeCalc Model_Experiment Model_StockExperiment Model_IntTree.
Import ListNotations.
Open Scope Q_scope.
Open Scope string_scope.

(** The argument [auction_function] of experiment.py:40. *)
Inductive mechanism : Type := Ascending | TradeReduction | McAfee (heuristic : bool).

Definition run_mechanism (x : mechanism) : market -> list nat -> result trade :=
  match x with
  | Ascending => ascending_auction
  | TradeReduction => fun m r => trade_reduction m r true      (* the default of including_gft_0 *)
  | McAfee h => fun m r => mcafee m r h
  end.

(** A call [experiment(file, mechanism, name, recipe, value_ranges, nums_of_agents, num_of_iterations)]. *)
Record call : Type := mkCall {
  c_mechanism : mechanism; c_recipe : list nat; c_ranges : list (Z * Z); c_sizes : list nat; c_iterations : nat }.

Definition sizes_11 : list nat := [2; 3; 4; 5; 10; 15; 25; 50; 100; 500; 1000]%nat.
Definition fifty_thousand : nat := N.to_nat 50000.

(** experiment_comparing_mcafee_to_sbb.py:19-49. *)
Definition comparing_mcafee : list call :=
  map (fun x => mkCall x [1; 1]%nat [(1, 1000); (-1000, -1)]%Z sizes_11 fifty_thousand)
    [McAfee true; TradeReduction; Ascending; McAfee false].

(** mcafee_experiment.py:18-34. *)
Definition mcafee_calls : list call :=
  map (fun x => mkCall x [1; 1]%nat [(1, 1000); (-1000, -1)]%Z [2; 3; 4; 5; 10]%nat 500) [McAfee true; McAfee false].

(** ascending_auction_experiment.py:17-34. *)
Definition ascending_calls : list call :=
  [mkCall Ascending [1; 1]%nat [(1, 1000); (-1000, -1)]%Z [100; 1000]%nat 50;
   mkCall Ascending [1; 1; 1]%nat [(1, 2000); (-1000, -1); (-1000, -1)]%Z [100; 1000]%nat 50;
   mkCall Ascending [2; 1]%nat [(1, 500); (-1000, -1)]%Z [100; 1000]%nat 50].

(** experiment_sbb_with_two_categories.py:15-23. *)
Definition two_categories_calls : list call :=
  map (fun k => mkCall Ascending [1%nat; k] [(1, 1000 * Z.of_nat k); (-1000, -1)]%Z sizes_11 fifty_thousand) [2; 4; 8; 16]%nat.

(** experiment_sbb_with_vectors_of_ones.py:19-34 (the sellers' values are in the range from -1000 to 1). *)
Definition ones_calls : list call :=
  flat_map (fun k => map (fun x => mkCall x (repeat 1%nat (k + 1)) ((1, 1000 * Z.of_nat k)%Z :: repeat (-1000, 1)%Z k) sizes_11 fifty_thousand)
              [Ascending; TradeReduction]) [2; 4; 8; 16]%nat.

(** stock/comparing_results_for_demo_11.py:56-86: the ranges are (1, 2) and (-1, -2); random.uniform takes the ends in any order. *)
Definition demo_11_calls : list call :=
  map (fun x => mkCall x [1; 1]%nat [(1, 2); (-2, -1)]%Z [50; 50]%nat 1) [McAfee true; TradeReduction; Ascending; McAfee false].

Definition all_calls : list call :=
  comparing_mcafee ++ mcafee_calls ++ ascending_calls ++ two_categories_calls ++ ones_calls ++ demo_11_calls.

(** comparing_sbbs.py:20-31: the recipes, the value ranges before and after the scaling of experiment_comparing_sbb.py:60-66, and the
    numbers of agents. *)
Definition sbb_recipes : list (list nat) :=
  [[1; 2]; [1; 3]; [1; 4]; [1; 8]; [1; 16]; [2; 2]; [2; 3]; [1; 1; 1]; [2; 2; 2]; [1; 2; 3; 4]; [1; 2; 3]; [1; 2; 2]]%nat.

Definition scaled_ranges (recipe : list nat) (ranges : list (Z * Z)) : list (Z * Z) :=
  match recipe, ranges with
  | r0 :: rest, (lo, hi) :: ranges' =>
      let total := Z.of_nat (nsum rest) in
      (lo * total, hi * total)%Z
        :: map (fun rg => (fst rg * Z.of_nat r0, snd rg * Z.of_nat r0)%Z) (firstn (length rest) ranges')
  | _, _ => []
  end.

Definition sbb_ranges : list (Z * Z) := (1, 1000)%Z :: repeat (-1000, 1)%Z 4.

Definition sbb_sizes : list nat :=
  [2; 3; 4; 5; 10; 15; 25; 50; 100; 200; 300; 400; 500; 600; 700; 800; 900; 1000; 1500; 2000]%nat.

(** ** experiment_recpietree.py *)

(** Line 30: [recipe_paper_example]. *)
Definition paper_struct : pystruct := SList [SInt 0; SList [SInt 1; SNone; SInt 2; SList [SInt 3; SNone]]].

(** Lines 39-44. *)
Definition tree_sizes : list nat := [2; 4; 6; 10; 16; 26; 50; 100; 500; 1000; 2000; 5000]%nat.
Definition tree_agent_counts : list Q := [1; 1 # 2; 1 # 2; 1 # 2].
Definition tree_agent_values : list Q := [2; 2; 1; 1].
Definition tree_ranges : list (Q * Q) := [(1, 1000); (-(1000), -(1))].

(** experiment_ascending_auction_recipetree_random.py:77-82: the number of agents of a category, and the ends of the interval from
    which their values are drawn. *)
Definition category_draws (n category : nat) : result (Z * Q * Q) :=
  count <- get tree_agent_counts category ;;
  value <- get tree_agent_values category ;;
  range <- get tree_ranges (if (category =? 0)%nat then 0 else 1)%nat ;;
  Ok (py_int (Qn n * count), fst range * value, snd range * value).

(** experiment_ascending_auction_recipetree_random.py:67-68 (get_agents_analyze and get_children_counts, whose results are used only
    for the number of categories) followed by the table of [tree_experiment]. *)
Definition tree_driver (auction : market -> result tree_trade) (samples : list (nat * list market)) : result (list tree_row) :=
  sizes <- get_agents_analyze paper_struct ;;
  _ <- get_children_counts paper_struct (length sizes) ;;
  tree_experiment auction paper_struct samples.

(** experiment_recpietree_integer.py:36-45 with the counts [1, 2, 1, 2]. *)
Definition int_tree_driver (auction : market -> result (nat * Q)) (samples : list (nat * list market)) : result (list tree_row) :=
  int_experiment auction paper_struct [1; 2; 1; 2]%nat samples.
