(** * C90 - C92: the other tables on stock prices *)

From Coq Require Import String List Arith NArith Lia ZArith QArith Lqa Permutation Sorted.
From Verif Require Import Base Model_Agents Model_Trade Model_Market Model_Ascending Model_TradeReduction Model_McAfee
  Model_Experiment Model_CompareStock Model_StockTables Spec_Market Spec_Trade Spec_Experiment Spec_StockData Spec_CompareStock Spec_StockTables
  Proof_StockTables Proof_StockTables2 Proof_StockTables3 Proof_StockTables4 Proof_StockTables5.
Import ListNotations.
Open Scope Q_scope.

(** ** C90: experiment_stock.py *)

(** C90.  One row per stock, in this order: the columns are those of the market of this stock's values (up to the rounding), no
    warning is printed, and the bounds of the documentation hold for what is printed. *)
Theorem C90_rows : forall recipe f stocks, good_recipe recipe -> meant_for recipe f -> Forall (stock_input recipe) stocks ->
  exists rows, stock_experiment f recipe stocks = Ok rows
    /\ Forall2 (fun stock row => stock_row_facts f recipe stock row /\ stock_row_bounds row
        /\ (budget_balanced f -> auction_market_gft row == auction_gft row /\ market_gft_ratio row == auction_gft_ratio row)) stocks rows.
Proof. exact stock_experiment_ok. Qed.
Print Assumptions C90_rows.

Definition tr : market -> list nat -> result trade := fun m r => trade_reduction m r true.

(** Two stocks, recipe 1:2. *)
Example C90_witness : good_recipe [1; 2]%nat /\ meant_for [1; 2]%nat tr
  /\ Forall (stock_input [1; 2]%nat) [[[40; 20]; [-5; -6; -7; -8]]; [[9; 8; 7]; [-4; -3]]].
Proof.
  split; [split; [discriminate|repeat constructor]|]. split; [repeat constructor|].
  constructor; [|constructor; [|constructor]].
  - apply stock_input_uniform with (B := 40); [reflexivity|repeat constructor|discriminate| |reflexivity|].
    + intros c v [<-|[<-|[]]] Hv; cbn in Hv; repeat (destruct Hv as [<-|Hv]; [split; discriminate|]); destruct Hv.
    + exists 0%nat, [40; 20], 1%nat. split; [reflexivity|]. split; [reflexivity|]. vm_compute. discriminate.
  - apply stock_input_uniform with (B := 40); [reflexivity|repeat constructor|discriminate| |reflexivity|].
    + intros c v [<-|[<-|[]]] Hv; cbn in Hv; repeat (destruct Hv as [<-|Hv]; [split; discriminate|]); destruct Hv.
    + exists 0%nat, [9; 8; 7], 1%nat. split; [reflexivity|]. split; [reflexivity|]. vm_compute. discriminate.
Qed.

(** What it computes: for the first stock one of two deals is done; the gain is 27 of 34, which is 79.412 percent. *)
Example C90_run : exists a b, stock_experiment tr [1; 2]%nat [[[40; 20]; [-5; -6; -7; -8]]; [[9; 8; 7]; [-4; -3]]] = Ok [a; b]
  /\ num_possible_trades a = 2%Z /\ optimal_count a == 2 /\ auction_count a == 1 /\ count_ratio a == 50
  /\ optimal_gft a == 34 /\ auction_gft a == 27 /\ auction_gft_ratio a == 79412 # 1000 /\ num_possible_trades b = 1%Z.
Proof. eexists. eexists. split; [vm_compute; reflexivity|]. vm_compute. repeat split; reflexivity. Qed.

(** A category too much, or a recipe with a zero: no table. *)
Theorem C90_bad_input : forall f,
  (forall c stock stocks, stock_experiment f [] ((c :: stock) :: stocks) = Raise IndexError)
  /\ (forall recipe stocks, stock_experiment f recipe ([] :: stocks) = Raise ValueError)
  /\ forall recipe c stock stocks, stock_experiment f (0%nat :: recipe) ((c :: stock) :: stocks) = Raise ZeroDivisionError.
Proof. intros f. split; [reflexivity|]. split; reflexivity. Qed.
Print Assumptions C90_bad_input.

(** ** C91: experiment_compare_iterations_autions_without_mcafee.py *)

(** C91.  For every stock the rows are for the numbers of agents before the second one that exceeds the size of the first
    category, and each row tells the outcomes, on the market of the first values of the stock, of the optimum and of all auctions
    (up to the rounding), with the bounds of the documentation; no warnings. *)
Theorem C91_rows : forall recipe auctions nums stocks, good_recipe recipe -> Forall (fun a => meant_for recipe (snd a)) auctions ->
  Forall (stock_input recipe) stocks ->
  exists tables, size_experiment recipe auctions nums stocks = Ok tables
    /\ Forall2 (fun stock rows => exists done, measured (length (hd [] stock)) nums done
         /\ Forall2 (size_row_facts recipe auctions stock (length (hd [] stock))) done rows) stocks tables.
Proof. exact size_experiment_ok. Qed.
Print Assumptions C91_rows.

(** C91.  With ascending numbers of agents the column num_possible_trades is: all the numbers for which there are agents, and then,
    if there are larger numbers, the number of all the agents of the first category. *)
Theorem C91_ascending : forall N nums done, StronglySorted le nums -> measured N nums done ->
  map (fun n => Nat.min n N) done
  = (filter (fun n => n <=? N)%nat nums ++ (if existsb (fun n => N <? n)%nat nums then [N] else []))%list.
Proof. exact measured_sorted. Qed.
Print Assumptions C91_ascending.

(** C91.  If every category has exactly [N] times its entry of the recipe, num_possible_trades is the number of procurement-sets
    that the agents of the row's market allow. *)
Theorem C91_possible : forall recipe stock N n part, length recipe = length stock ->
  (forall j c r, nth_error stock j = Some c -> nth_error recipe j = Some r -> length c = (N * r)%nat) ->
  taking_part recipe stock N n part ->
  forall j p r, nth_error part j = Some p -> nth_error recipe j = Some r -> length p = (Nat.min n N * r)%nat.
Proof. exact possible_exact. Qed.
Print Assumptions C91_possible.

Definition sbb : auction := ("SBBExternalCompetition"%string, tr).
Definition asc : auction := ("SBBAscendingPrices"%string, ascending_auction).

Example C91_witness : Forall (fun a => meant_for [2; 1]%nat (snd a)) [asc; sbb]
  /\ stock_input [2; 1]%nat [[5; 5; 5; 5]; [-1; -1]] /\ measured 4 [3; 6; 7]%nat [3; 6]%nat.
Proof.
  split; [repeat constructor|]. split; [apply stock_input_uniform with (B := 5); [reflexivity|repeat constructor|discriminate| |reflexivity|]|].
  - intros c v [<-|[<-|[]]] Hv; cbn in Hv; repeat (destruct Hv as [<-|Hv]; [split; discriminate|]); destruct Hv.
  - exists 1%nat, [-1; -1], 1%nat. split; [reflexivity|]. split; [reflexivity|]. vm_compute. discriminate.
  - exists [7]%nat. split; [reflexivity|]. split; [repeat constructor|]. right. exists 7%nat, []. split; [reflexivity|]. split; [repeat constructor|reflexivity].
Qed.

(** C91 (finding).  If the recipe starts with 2 the column num_possible_trades is not the number of possible procurement-sets: the
    size of the first category is not divided by its entry.  Here four buyers and two sellers allow two deals, 3 are reported. *)
Theorem C91_possible_refuted : exists row, size_experiment [2; 1]%nat [asc] [3]%nat [[[5; 5; 5; 5]; [-1; -1]]] = Ok [[row]]
  /\ sz_possible row = 3%nat /\ col (sz_columns row) 1 == 2.
Proof. eexists. split; [vm_compute; reflexivity|]. vm_compute. split; reflexivity. Qed.
Print Assumptions C91_possible_refuted.

(** ** C92: experiment_compare_sbb_shufled_stock.py *)

(** C92.  First the rows of the stocks, in this order: for each stock the first number of agents has a row, and all the others
    that its prices allow; a row tells the outcomes on the market of the stock's first prices (all iterations are alike); then one
    row of averages for each number that occurs. *)
Theorem C92_table : forall recipe auctions its nums stocks, shuffled_input recipe auctions its nums stocks ->
  exists (tables : list table) (averages : table),
    shuffled_experiment recipe auctions its nums stocks = Ok (map snd (concat tables ++ averages))
    /\ length tables = length stocks
    /\ (forall i prices t, nth_error stocks i = Some prices -> nth_error tables i = Some t ->
          map fst t = with_row (length prices / nsum recipe) nums
          /\ Forall (fun x => shuffled_row_facts recipe auctions its i prices (fst x) (snd x)) t)
    /\ map fst averages = filter (fun n => match rows_for n tables with [] => false | _ => true end) nums
    /\ Forall (fun x => average_row_facts auctions tables (fst x) (snd x)) averages.
Proof. exact shuffled_experiment_ok. Qed.
Print Assumptions C92_table.

Definition stocks92 : list (list Q) := [[20; 10; 5; 6; 7; 8]; [9; 4; 3]].

Example C92_witness : shuffled_input [1; 2]%nat [asc; sbb] 2 [2; 1; 5]%nat stocks92.
Proof.
  split; [split; [discriminate|repeat constructor]|]. split; [repeat constructor|]. split; [repeat constructor; cbn; intuition discriminate|].
  split; [repeat constructor; cbn; intuition discriminate|]. split; [|split].
  - assert (A : forall s, py_contains "mcafee" s = false -> avoids "mcafee" s).
    { intros s H X. apply Proof_CompareStock9.contains_iff in X. congruence. }
    constructor; [split; [repeat constructor|apply A; reflexivity]|]. constructor; [split; [repeat constructor|apply A; reflexivity]|constructor].
  - repeat constructor; vm_compute; discriminate.
  - exists 20. split; [discriminate|]. split; [repeat constructor; discriminate|]. split; [discriminate|intros r [<-|[]]; reflexivity].
Qed.

(** What it computes: rows for 2 and 1 agents, for the second stock also a row for 2, although its prices allow only one deal; and
    two rows of averages. *)
Example C92_run : exists a b c d e f, shuffled_experiment [1; 2]%nat [asc; sbb] 2 [2; 1; 5]%nat stocks92 = Ok [a; b; c; d; e; f]
  /\ map sh_stock [a; b; c; d; e; f] = [Some 0; Some 0; Some 1; Some 1; None; None]%nat
  /\ map sh_possible [a; b; c; d; e; f] = [2; 1; 1; 1; 2; 1]%nat
  /\ col (sh_columns a) 0 == 2 /\ col (sh_columns a) 2 == 34 /\ scol (sh_columns a) 0 2 == 27
  /\ col (sh_columns c) 2 == 11 # 2 /\ col (sh_columns d) 2 == 11 /\ col (sh_columns e) 2 == 198 # 10.
Proof. do 6 eexists. split; [vm_compute; reflexivity|]. vm_compute. repeat split; reflexivity. Qed.

(** C92 (finding).  A stock whose prices do not suffice for the first number of agents: its row is not its outcome, but the outcome
    divided by the number of iterations (only one is run).  Here one deal with the gain 11 is optimal, and the
    table says half a deal and 5.5. *)
Theorem C92_short_stock_refuted : exists row rest, shuffled_experiment [1; 2]%nat [sbb] 2 [2]%nat [[9; 4; 3]] = Ok (row :: rest)
  /\ sh_possible row = 1%nat /\ col (sh_columns row) 0 == 1 # 2 /\ col (sh_columns row) 2 == 11 # 2.
Proof. do 2 eexists. split; [vm_compute; reflexivity|]. vm_compute. repeat split; reflexivity. Qed.
Print Assumptions C92_short_stock_refuted.

(** C92 (finding).  The row of averages divides by the number of all stocks, also of those that have no row: here only one stock has a row for
    2 agents, with optimal gain 34, and the average is 17. *)
Theorem C92_average_refuted : exists a b c d e, shuffled_experiment [1; 2]%nat [sbb] 2 [1; 2]%nat stocks92 = Ok [a; b; c; d; e]
  /\ map sh_stock [a; b; c; d; e] = [Some 0; Some 0; Some 1; None; None]%nat /\ map sh_possible [a; b; c; d; e] = [1; 2; 1; 1; 2]%nat
  /\ col (sh_columns b) 2 == 34 /\ col (sh_columns e) 2 == 17.
Proof. do 5 eexists. split; [vm_compute; reflexivity|]. vm_compute. repeat split; reflexivity. Qed.
Print Assumptions C92_average_refuted.

(** C92 (finding).  If the name of the first auction contains mcafee the experiment fails, whatever the auctions do, as soon as there is
    something to do: the name of the previous auction is read before there is one. *)
Theorem C92_mcafee_first : forall before after f auctions recipe its n nums prices stocks P,
  good_recipe recipe -> (0 < its)%nat -> (N.of_nat n <= 2000000)%N ->
  0 <= P -> Forall (fun p => 0 <= p <= P) prices -> prices_fit recipe P ->
  shuffled_experiment recipe (((before ++ "mcafee" ++ after)%string, f) :: auctions) its (n :: nums) (prices :: stocks) = Raise UnboundLocalError.
Proof. exact mcafee_first. Qed.
Print Assumptions C92_mcafee_first.

(** C92 (finding).  If the name of a later auction contains mcafee, the columns of the auction before it become zero. *)
Theorem C92_mcafee_second_refuted : exists a rest,
  shuffled_experiment [1; 1]%nat [sbb; ("mcafee"%string, fun m r => mcafee m r false)] 1 [2]%nat [[20; 10; 5; 6]] = Ok (a :: rest)
  /\ col (sh_columns a) 2 == 19 /\ map (scol (sh_columns a) 0) [0; 1; 2; 3]%nat = [0; 0; 0; 0] /\ 0 < scol (sh_columns a) 1 0.
Proof. do 2 eexists. split; [vm_compute; reflexivity|]. vm_compute. repeat split; reflexivity. Qed.
Print Assumptions C92_mcafee_second_refuted.
