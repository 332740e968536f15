(** * The programs in stock/ that run the experiments on the stock files: what they call, with which parameters *)

From Coq Require Import String List Arith NArith ZArith QArith.
From Verif Require Import Base Model_Agents Model_Trade Model_Market Model_Ascending Model_TradeReduction Model_McAfee
  Model_StockData Model_CompareStock Model_StockTables Model_Drivers.
Import ListNotations.
Open Scope Q_scope.
Open Scope list_scope.

(** get_stocks_data.py:84-86 [getStocksPrices], without the names: [files] are the contents of the files of the directory, in the order of
    [listdir]. *)
Fixpoint get_stocks_prices (files : list stock_file) (recipe : list nat) : result (list (list (list Q))) :=
  match files with
  | [] => Ok []
  | f :: files' =>
      s <- get_prices f recipe ;;
      rest <- get_stocks_prices files' recipe ;;
      Ok (map (map inject_Z) s :: rest)
  end.

(** get_stocks_data.py:80-82 [getStocksPricesShuffled], without the names: [names] are the names of the files, [shuffles] the two shuffles of
    every file, [cache] the dictionary keep_all_prices. *)
Fixpoint get_stocks_prices_shuffled (shuffles : nat -> (list Z -> list Z) * (list Z -> list Z)) (i : nat) (cache : list (string * list Z))
  (files : list (string * stock_file)) : list (list Q) * list (string * list Z) :=
  match files with
  | [] => ([], cache)
  | (name, f) :: files' =>
      let '(l, cache') := get_all_prices_shuffled (fst (shuffles i)) (snd (shuffles i)) cache f name in
      let '(rest, cache'') := get_stocks_prices_shuffled shuffles (S i) cache' files' in
      (map inject_Z l :: rest, cache'')
  end.

(** stock/experiment_stock.py:61-62: the call of a program, with the prices of the files. *)
Definition stock_program (x : mechanism) (recipe : list nat) (files : list stock_file) : result (list stock_row) :=
  stocks <- get_stocks_prices files recipe ;;
  stock_experiment (run_mechanism x) recipe stocks.

(** stock/ascending_auction_experiment_stock.py:17-27, stock/mcafee_experiment_stock.py:17-22,
    stock/experiment_sbb_with_vectors_of_ones_stock.py:20. *)
Definition stock_calls : list (mechanism * list nat) :=
  [(Ascending, [1; 1]); (Ascending, [1; 1; 1]); (Ascending, [1; 1; 1; 1]); (Ascending, [2; 1]); (Ascending, [1; 2]); (Ascending, [2; 1; 1]);
   (McAfee true, [1; 1]); (McAfee false, [1; 1]);
   (Ascending, [1; 1; 1; 1])]%nat.

(** stock/experiment_compare_iterations_autions_without_mcafee.py:63-64. *)
Definition size_program (recipe : list nat) (auctions : list auction) (nums : list nat) (files : list stock_file)
  : result (list (list size_row)) :=
  stocks <- get_stocks_prices files recipe ;;
  size_experiment recipe auctions nums stocks.

Definition sbb_pair (name1 name2 : string) : list auction := [(name1, run_mechanism TradeReduction); (name2, run_mechanism Ascending)].
Definition underlined_pair : list auction := sbb_pair "SBB_External_Competition" "SBB_Ascending_Prices".

(** stock/experiment_sbb_stock_vectors_multi.py:20-25 and stock/experiment_sbb_stock_vectors_ones.py:20-26: the recipes and the numbers. *)
Definition size_nums : list nat :=
  map N.to_nat [2; 3; 4; 5; 10; 15; 25; 50; 100; 500; 1000; 2000; 5000; 10000; 20000; 50000; 100000; 200000; 500000; 1000000]%N.
Definition size_recipes : list (list nat) :=
  ([[1; 2]; [1; 4]; [1; 8]; [1; 16]; [2; 2]; [2; 3]; [3; 3]; [1; 2; 2]; [2; 2; 2]; [1; 2; 3]; [4; 2; 6]; [1; 2; 3; 4]; [4; 3; 2; 1]]
   ++ map (fun k => repeat 1 (k + 1)) [2; 4; 8; 16])%nat.

(** stock/experiment_sbb_stock_vectors_multi_shuffled.py:20-36 and stock/experiment_sbb_stock_vectors_ones_shuffled.py:20-27: recipe and
    numbers; 1000 iterations. *)
Definition shuffled_calls : list (list nat * list N) :=
  (map (fun k => ([1; k]%nat, [2; 3; 4; 5; 10; 15; 25; 50; 100; 500; 1000; 2000; 5000; 10000]%N)) [2; 4; 8; 16]
   ++ map (fun k => (repeat 1 (k + 1), [2; 3; 4; 5; 10; 15; 25; 50; 100; 500; 1000; 2000; 5000]%N)) [2; 4; 8; 16])%nat.

(** stock/experiment_comparing_mcafee_to_sbb_stock.py:21-31 (1000 iterations, the default) and
    stock/experiment_comparing_all_with_all_recipes.py:20-97 (30 iterations): recipe, auctions, numbers, iterations. *)
Definition four_auctions : list auction :=
  [("McAfee", run_mechanism (McAfee true)); ("McAfeeWithoutHeuristic", run_mechanism (McAfee false));
   ("SBBExternalCompetition", run_mechanism TradeReduction); ("SBBAscendingPrices", run_mechanism Ascending)]%string.
Definition plain_pair : list auction := sbb_pair "SBBExternalCompetition" "SBBAscendingPrices".

Definition all_nums : list N := [2; 3; 4; 5; 10; 15; 25; 50; 100; 500; 1000]%N.
Definition all_recipes : list (list nat) :=
  ([[4; 3; 2; 1]; [3; 2; 1]; [2; 1]; [2; 2]; [2; 3]; [3; 3]; [3; 2; 2]; [2; 2; 2]; [1; 2; 3]; [4; 2; 6]; [10; 2; 3; 4]]
   ++ map (fun k => repeat 1 (k + 1)) [2; 4; 8; 16] ++ map (fun k => [1; k]) [2; 4; 8; 16])%nat.

Definition comparison_calls : list (list nat * list auction * list N * nat) :=
  (([1; 1], four_auctions, [2; 3; 4; 5; 10; 15; 25; 50; 100; 500; 1000; 2000; 5000]%N, N.to_nat 1000)
   :: ([1; 1], four_auctions, all_nums, 30)
   :: map (fun r => (r, plain_pair, all_nums, 30)) all_recipes)%nat.
