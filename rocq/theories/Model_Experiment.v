(** * Model of the simulation experiments (experiment.py, experiment_comparing_sbb.py,
      experiment_ascending_auction_recipetree_random.py)

    The random markets are arguments: a run is described by, for each entry of [nums_of_agents], the list of the markets
    generated in its iterations.  The writing of the csv file is not modelled; the result is the list of rows.  Numbers are
    exact rationals; strings in the rows (names, recipe) are left out. *)

From Coq Require Import String List Arith NArith ZArith QArith Qround.
From Verif Require Import Base Model_Agents Model_Trade Model_Prices Model_Market Model_Ascending Model_TradeReduction
  Model_RecipeTree Model_TreeAuction.
Import ListNotations.
Open Scope Q_scope.

(** Python's [round(q)]: the nearest integer, ties to the even one. *)
Definition py_round (q : Q) : Z :=
  let f := Qfloor q in
  let d := q - inject_Z f in
  if Qlt_bool d (1 # 2) then f
  else if Qlt_bool (1 # 2) d then (f + 1)%Z
  else if Z.even f then f else (f + 1)%Z.

(** Python's [round(q, 2)]. *)
Definition py_round2 (q : Q) : Q := inject_Z (py_round (q * 100)) / 100.

(** Python's [int(q)]: truncation towards zero. *)
Definition py_int (q : Q) : Z := if Qle_bool 0 q then Qfloor q else Qceiling q.

(** agents.py:115-119 [uniformly_random]; [draws] are the results of random.uniform. *)
Definition uniformly_random (name : string) (draws : list Q) : category :=
  new_category name (map (fun x => inject_Z (py_round x)) draws).

(** ** experiment.py *)

(** experiment.py:55-56: the five accumulators. *)
Record sums : Type := mkSums {
  s_optimal_count : nat; s_auction_count : nat;
  s_optimal_gft : Q; s_total_gft : Q; s_market_gft : Q }.

(** experiment.py:62-70: one iteration, on the market [m]. *)
Definition experiment_iteration (auction : market -> list nat -> result trade) (recipe : list nat) (s : sums) (m : market)
  : result sums :=
  o <- optimal_trade default_max_iterations m recipe true ;;
  t <- auction m recipe ;;
  total <- gain_from_trade t true ;;
  mkt <- gain_from_trade t false ;;
  Ok (mkSums (s_optimal_count s + mt_num_of_deals (fst o)) (s_auction_count s + num_of_deals t)
             (s_optimal_gft s + mt_gain_from_trade (fst o)) (s_total_gft s + total) (s_market_gft s + mkt)).

(** experiment.py:57-70: the loop over the iterations. *)
Fixpoint experiment_loop (auction : market -> list nat -> result trade) (recipe : list nat) (s : sums) (ms : list market)
  : result sums :=
  match ms with
  | [] => Ok s
  | m :: ms' => s' <- experiment_iteration auction recipe s m ;; experiment_loop auction recipe s' ms'
  end.

(** experiment.py:36-38: the numeric columns of a row. *)
Record row : Type := mkRow {
  iterations : nat; num_of_agents : nat;
  mean_optimal_count : Q; mean_auction_count : Q; count_ratio : Q;
  mean_optimal_gft : Q; mean_auction_total_gft : Q; total_gft_ratio : Q;
  mean_auction_market_gft : Q; market_gft_ratio : Q }.

(** experiment.py:74-87: the row of one [num_of_agents]; the divisions by [num_of_iterations] raise ZeroDivisionError. *)
Definition experiment_row (n its : nat) (s : sums) : result row :=
  if (its =? 0)%nat then Raise ZeroDivisionError
  else Ok (mkRow its n
    (py_round2 (Qn (s_optimal_count s) / Qn its))
    (py_round2 (Qn (s_auction_count s) / Qn its))
    (if (s_optimal_count s =? 0)%nat then 0
     else inject_Z (py_int (Qn (s_auction_count s) / Qn (s_optimal_count s) * 10000)) / 100)
    (py_round2 (s_optimal_gft s / Qn its))
    (py_round2 (s_total_gft s / Qn its))
    (if Qeq_bool (s_optimal_gft s) 0 then 0 else py_round2 (s_total_gft s / s_optimal_gft s * 100))
    (py_round2 (s_market_gft s / Qn its))
    (if Qeq_bool (s_optimal_gft s) 0 then 0 else py_round2 (s_market_gft s / s_optimal_gft s * 100))).

(** experiment.py:40-88 [experiment]: one row per entry (number of agents, markets of its iterations). *)
Fixpoint experiment (auction : market -> list nat -> result trade) (recipe : list nat) (samples : list (nat * list market))
  : result (list row) :=
  match samples with
  | [] => Ok []
  | (n, ms) :: samples' =>
      s <- experiment_loop auction recipe (mkSums 0 0 0 0 0) ms ;;
      r <- experiment_row n (length ms) s ;;
      rest <- experiment auction recipe samples' ;;
      Ok (r :: rest)
  end.

(** ** experiment_comparing_sbb.py *)

(** experiment_comparing_sbb.py:58-59: the sums for one number of agents: deals and gains of trade reduction (external
    competition) and of the ascending auction. *)
Record cmp_sums : Type := mkCS { c_ext_count : nat; c_asc_count : nat; c_ext_gft : Q; c_asc_gft : Q }.

(** experiment_comparing_sbb.py:61-76: one iteration. *)
Definition compare_iteration (recipe : list nat) (s : cmp_sums) (m : market) : result cmp_sums :=
  _ <- optimal_trade default_max_iterations m recipe true ;;
  te <- trade_reduction m recipe true ;;
  ta <- ascending_auction m recipe ;;
  ge <- gain_from_trade te true ;;
  ga <- gain_from_trade ta true ;;
  Ok (mkCS (c_ext_count s + num_of_deals te) (c_asc_count s + num_of_deals ta) (c_ext_gft s + ge) (c_asc_gft s + ga)).

Fixpoint compare_loop (recipe : list nat) (s : cmp_sums) (ms : list market) : result cmp_sums :=
  match ms with
  | [] => Ok s
  | m :: ms' => s' <- compare_iteration recipe s m ;; compare_loop recipe s' ms'
  end.

(** experiment_comparing_sbb.py:55-56: a triple (external wins, ties, ascending wins). *)
Definition wins : Type := (nat * nat * nat)%type.

(** experiment_comparing_sbb.py:78-83. *)
Definition count_wins_k (s : cmp_sums) (w : wins) : wins :=
  let '(e, t, a) := w in
  if (c_asc_count s <? c_ext_count s)%nat then (S e, t, a)
  else if (c_ext_count s =? c_asc_count s)%nat then (e, S t, a) else (e, t, S a).

(** experiment_comparing_sbb.py:85-90. *)
Definition count_wins_gft (s : cmp_sums) (w : wins) : wins :=
  let '(e, t, a) := w in
  if Qlt_bool (c_asc_gft s) (c_ext_gft s) then (S e, t, a)
  else if Qeq_bool (c_ext_gft s) (c_asc_gft s) then (e, S t, a) else (e, t, S a).

(** experiment_comparing_sbb.py:57-90: the loop over the numbers of agents. *)
Fixpoint compare_sizes (recipe : list nat) (wg wk : wins) (samples : list (list market)) : result (wins * wins) :=
  match samples with
  | [] => Ok (wg, wk)
  | ms :: samples' =>
      s <- compare_loop recipe (mkCS 0 0 0 0) ms ;;
      compare_sizes recipe (count_wins_gft s wg) (count_wins_k s wk) samples'
  end.

(** experiment_comparing_sbb.py:39-40: the numeric columns of a row: percentages for the gain and the number of deals,
    and the counters for the gain. *)
Record cmp_row : Type := mkCR {
  external_wins_gft_pct : Z; tie_gft_pct : Z; ascending_wins_gft_pct : Z;
  external_wins_k_pct : Z; tie_k_pct : Z; ascending_wins_k_pct : Z;
  external_wins : nat; ties : nat; ascending_wins : nat }.

(** [int(x*100 / num_agents)] *)
Definition percent (x num : nat) : Z := py_int (Qn (x * 100) / Qn num).

(** experiment_comparing_sbb.py:91-104. *)
Definition compare_row (num : nat) (wg wk : wins) : result cmp_row :=
  if (num =? 0)%nat then Raise ZeroDivisionError
  else
    let '(eg, tg, ag) := wg in
    let '(ek, tk, ak) := wk in
    Ok (mkCR (percent eg num) (percent tg num) (percent ag num) (percent ek num) (percent tk num) (percent ak num) eg tg ag).

(** experiment_comparing_sbb.py:42-105: one row per recipe; every recipe comes with its samples, one for each number of agents. *)
Fixpoint compare_experiment (runs : list (list nat * list (list market))) : result (list cmp_row) :=
  match runs with
  | [] => Ok []
  | (recipe, samples) :: runs' =>
      w <- compare_sizes recipe (0, 0, 0)%nat (0, 0, 0)%nat samples ;;
      r <- compare_row (length samples) (fst w) (snd w) ;;
      rest <- compare_experiment runs' ;;
      Ok (r :: rest)
  end.

(** ** experiment_ascending_auction_recipetree_random.py *)

(** Lines 70-71. *)
Record tree_sums : Type := mkTS {
  ts_optimal_count : N; ts_auction_count : nat; ts_kmin : N; ts_kmax : N; ts_optimal_gft : Q; ts_total_gft : Q }.

(** Lines 84-104: one iteration.  [auction] gives the number of deals and the gain of the tree auction. *)
Definition tree_iteration (auction : market -> result tree_trade) (struct : pystruct) (s : tree_sums) (m : market)
  : result tree_sums :=
  t <- new_tree m struct ;;
  match optimal_trade_with_counters m t with
  | (_, (count, gft, kmin, kmax)) =>
      r <- auction m ;;
      Ok (mkTS (ts_optimal_count s + count) (ts_auction_count s + tt_deals r) (ts_kmin s + kmin) (ts_kmax s + kmax)
               (ts_optimal_gft s + gft) (ts_total_gft s + tt_gft r))
  end.

Fixpoint tree_iterations (auction : market -> result tree_trade) (struct : pystruct) (s : tree_sums) (ms : list market)
  : result tree_sums :=
  match ms with
  | [] => Ok s
  | m :: ms' => s' <- tree_iteration auction struct s m ;; tree_iterations auction struct s' ms'
  end.

(** Lines 60-63: the numeric columns. *)
Record tree_row : Type := mkTR_ {
  tr_iterations : nat; tr_numofagents : nat;
  meanoptimalcount : Q; meanoptimalkmin : Q; meanoptimalkmax : Q; gftformula : Q;
  meanauctioncount : Q; countratio : Q; meanoptimalgft : Q; meanauctiontotalgft : Q; totalgftratio : Q }.

Definition QN (n : N) : Q := inject_Z (Z.of_N n).

(** Lines 114-128.  [kmin_mean + 1] is positive. *)
Definition tree_experiment_row (n its : nat) (s : tree_sums) : result tree_row :=
  if (its =? 0)%nat then Raise ZeroDivisionError
  else
    let kmin_mean := QN (ts_kmin s) / Qn its in
    let formula := (kmin_mean - 1) / (kmin_mean + 1) in
    Ok (mkTR_ its n (QN (ts_optimal_count s) / Qn its) kmin_mean (QN (ts_kmax s) / Qn its)
      (if Qlt_bool 0 formula then formula * 100 else 0)
      (Qn (ts_auction_count s) / Qn its)
      (if (ts_optimal_count s =? 0)%N then 0 else Qn (ts_auction_count s) / QN (ts_optimal_count s) * 100)
      (ts_optimal_gft s / Qn its) (ts_total_gft s / Qn its)
      (if Qeq_bool (ts_optimal_gft s) 0 then 0 else ts_total_gft s / ts_optimal_gft s * 100)).

(** Lines 48-129 [experiment]. *)
Fixpoint tree_experiment (auction : market -> result tree_trade) (struct : pystruct) (samples : list (nat * list market))
  : result (list tree_row) :=
  match samples with
  | [] => Ok []
  | (n, ms) :: samples' =>
      s <- tree_iterations auction struct (mkTS 0 0 0 0 0 0) ms ;;
      r <- tree_experiment_row n (length ms) s ;;
      rest <- tree_experiment auction struct samples' ;;
      Ok (r :: rest)
  end.
