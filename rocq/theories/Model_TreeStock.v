(** * The stock part of experiment_recpietree.py: getStocksTreePrices with fractional counts, the shuffles, the call *)

From Coq Require Import String List Arith NArith ZArith QArith Qround.
From Verif Require Import Base Model_Agents Model_Trade Model_Market Model_RecipeTree Model_TreeAuction Model_TreeCalc
  Model_Experiment Model_StockExperiment Model_StockData Model_Drivers.
Import ListNotations.
Open Scope Q_scope.
Open Scope list_scope.

(** get_stocks_data.py:105: [int(len(data) / recipe_size * agents_counts[agent_index])] for numbers that need not be integers, in exact
    arithmetic ([range] of a negative number is empty). *)
Definition share_q (len : nat) (recipe_size count : Q) : nat := Z.to_nat (py_int (Qn len / recipe_size * count)).

(** get_stocks_data.py:104-108, from [agent_index] on. *)
Fixpoint deal_categories_q (counts : list Q) (agent_index : nat) (recipe_size : Q) (data : list Q) (data_index : nat) (values : list Q)
  : result (list (list Q)) :=
  match counts with
  | [] => Ok []
  | c :: counts' =>
      r <- deal_values (share_q (length data) recipe_size c) (if (0 <? agent_index)%nat then -(1) else 1) data data_index values agent_index ;;
      rest <- deal_categories_q counts' (S agent_index) recipe_size data (snd r) values ;;
      Ok (fst r :: rest)
  end.

(** get_stocks_data.py:101-109. *)
Definition split_prices_q (data : list Q) (agents_counts : list Q) (agents_values : list Q) : result (list (list Q)) :=
  match agents_counts with
  | [] => Ok []
  | _ => if Qeq_bool (Qsum agents_counts) 0 then Raise ZeroDivisionError
         else deal_categories_q agents_counts 0 (Qsum agents_counts) data 0 agents_values
  end.

(** get_stocks_data.py:93-109 [get_prices_tree]; [shuffle] is the shuffle of line 99. *)
Definition get_prices_tree (shuffle : list Z -> list Z) (f : stock_file) (counts values : list Q) : result (list (list Q)) :=
  split_prices_q (map inject_Z (shuffle (all_prices f))) counts values.

(** get_stocks_data.py:89-91 [getStocksTreePrices], without the names. *)
Fixpoint get_stocks_tree_prices (shuffles : nat -> list Z -> list Z) (i : nat) (files : list stock_file) (counts values : list Q)
  : result (list (list (list Q))) :=
  match files with
  | [] => Ok []
  | f :: files' =>
      s <- get_prices_tree (shuffles i) f counts values ;;
      rest <- get_stocks_tree_prices shuffles (S i) files' counts values ;;
      Ok (s :: rest)
  end.

(** experiment_ascending_auction_recipetree_stock.py:78-81: the prices of the [its] iterations from number [it] on; every iteration shuffles
    the lists that the iteration before has left. *)
Fixpoint shuffled_runs (shuffle : nat -> nat -> list Q -> list Q) (it its : nat) (cats : list (list Q)) : list (list (list Q)) :=
  match its with
  | O => []
  | S its' =>
      let cats' := map (fun p => shuffle it (fst p) (snd p)) (combine (seq 0 (length cats)) cats) in
      cats' :: shuffled_runs shuffle (S it) its' cats'
  end.

(** experiment_recpietree.py:18. *)
Definition tree_stock_sizes : list nat :=
  map N.to_nat [2; 4; 6; 10; 16; 26; 50; 100; 500; 1000; 2000; 5000; 10000; 20000; 50000; 100000; 200000; 500000; 1000000]%N.

(** experiment_recpietree.py:46-51, experiment_ascending_auction_recipetree_stock.py:68-155: [shuffles] are the shuffles of the files,
    [shuffle i] those of the iterations of stock [i]. *)
Definition tree_stock_program (auction : market -> result tree_trade) (shuffles : nat -> list Z -> list Z)
  (shuffle : nat -> nat -> nat -> list Q -> list Q) (files : list stock_file) : result (list (option stock_result * Q)) :=
  _ <- get_agents_analyze paper_struct ;;
  stocks <- get_stocks_tree_prices shuffles 0 files tree_agent_counts tree_agent_values ;;
  stock_experiment auction paper_struct tree_agent_counts tree_stock_sizes 50
    (map (fun p => shuffled_runs (shuffle (fst p)) 0 50 (snd p)) (combine (seq 0 (length stocks)) stocks)).
