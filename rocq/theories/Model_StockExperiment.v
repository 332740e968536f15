(** * Model of experiment_ascending_auction_recipetree_stock.py (and of experiment_ascending_auction_recipetree_integer_stock.py, which differs only in an unused
      line), and of experiment_ascending_auction_recipetree_integer_random.py

    The shuffled prices are arguments: for every stock and every iteration, the list of the categories' prices after the
    shuffles of that iteration.  Names, printing and the csv file are left out. *)

From Coq Require Import String List Arith NArith ZArith QArith Qround.
From Verif Require Import Base Model_Agents Model_Trade Model_Market Model_RecipeTree Model_TreeAuction
  Model_IntTree Model_IntAuction Model_Experiment.
Import ListNotations.
Open Scope Q_scope.

(** Lines 119-130: the numeric columns of [results]. *)
Record stock_result : Type := mkSR {
  sr_possible : nat; sr_count : Q; sr_kmin : Q; sr_kmax : Q; sr_optimal_gft : Q; sr_auction_count : Q; sr_count_ratio : Q;
  sr_gft : Q; sr_gft_ratio : Q }.

(** Lines 96-101, 119-130: the market is given; the optimal trade, the auction and the results. *)
Definition stock_process (auction : market -> result tree_trade) (struct : pystruct) (possible : nat) (m : market)
  : result stock_result :=
  t <- new_tree m struct ;;
  match optimal_trade_with_counters m t with
  | (_, (count, gft, kmin, kmax)) =>
      r <- auction m ;;
      Ok (mkSR possible (QN count) (QN kmin) (QN kmax) gft (Qn (tt_deals r))
            (if (count =? 0)%N then 0 else Qn (tt_deals r) / QN count * 100)
            (tt_gft r) (if Qeq_bool gft 0 then 0 else tt_gft r / gft * 100))
  end.

(** Lines 132-138: [total_results[str(n)]] is empty (None) or the sums; the columns with index <= 2 keep their first value. *)
Definition sr_add (s x : stock_result) : stock_result :=
  mkSR (sr_possible s) (sr_count s + sr_count x) (sr_kmin s + sr_kmin x) (sr_kmax s + sr_kmax x)
       (sr_optimal_gft s + sr_optimal_gft x) (sr_auction_count s + sr_auction_count x) (sr_count_ratio s + sr_count_ratio x)
       (sr_gft s + sr_gft x) (sr_gft_ratio s + sr_gft_ratio x).

Definition totals : Type := nat -> option stock_result.
Definition add_total (T : totals) (n : nat) (x : stock_result) : totals :=
  fun k => if (k =? n)%nat then Some (match T n with None => x | Some s => sr_add s x end) else T k.

(** Python's [l[0:z]]. *)
Definition py_slice {A} (l : list A) (z : Z) : list A :=
  if (0 <=? z)%Z then firstn (Z.to_nat z) l else firstn (length l - Z.to_nat (- z)) l.

(** Line 93: the categories cut to [int(num_of_possible_ps*agent_counts[j])] agents. *)
Fixpoint cut_categories (counts : list Q) (possible j : nat) (cats : list (list Q)) : result market :=
  match cats with
  | [] => Ok []
  | c :: cats' =>
      k <- get counts j ;;
      m <- cut_categories counts possible (S j) cats' ;;
      Ok (new_category "agent" (py_slice c (py_int (Qn possible * k))) :: m)
  end.

(** Lines 82-138: the loop over [nums_of_agents], for one stock and one iteration. *)
Fixpoint stock_sizes (auction : market -> result tree_trade) (struct : pystruct) (counts : list Q) (cats : list (list Q))
  (last_iteration : bool) (nums : list nat) (T : totals) : result totals :=
  match nums with
  | [] => Ok T
  | n :: nums' =>
      match cats with
      | [] => Raise IndexError
      | c0 :: _ =>
          let possible := Nat.min n (length c0) in
          if (possible <? n)%nat then
            if last_iteration then Ok T
            else
              x <- stock_process auction struct possible (map (new_category "agent") cats) ;;
              stock_sizes auction struct counts cats true nums' (add_total T n x)
          else
            m <- cut_categories counts possible 0 cats ;;
            x <- stock_process auction struct possible m ;;
            stock_sizes auction struct counts cats last_iteration nums' (add_total T n x)
      end
  end.

(** Lines 78-138: the loop over the iterations. *)
Fixpoint stock_iterations (auction : market -> result tree_trade) (struct : pystruct) (counts : list Q) (nums : list nat)
  (its : list (list (list Q))) (T : totals) : result totals :=
  match its with
  | [] => Ok T
  | cats :: its' => T' <- stock_sizes auction struct counts cats false nums T ;; stock_iterations auction struct counts nums its' T'
  end.

(** Lines 77-138: the loop over the stocks. *)
Fixpoint stock_stocks (auction : market -> result tree_trade) (struct : pystruct) (counts : list Q) (nums : list nat)
  (stocks : list (list (list (list Q)))) (T : totals) : result totals :=
  match stocks with
  | [] => Ok T
  | its :: stocks' => T' <- stock_iterations auction struct counts nums its T ;; stock_stocks auction struct counts nums stocks' T'
  end.

(** Line 149: every column is divided by the number of stocks and the number of iterations. *)
Definition sr_scale (stocks its : nat) (s : stock_result) : stock_result :=
  let f q := q / Qn stocks / Qn its in
  mkSR (sr_possible s) (f (sr_count s)) (f (sr_kmin s)) (f (sr_kmax s)) (f (sr_optimal_gft s)) (f (sr_auction_count s))
       (f (sr_count_ratio s)) (f (sr_gft s)) (f (sr_gft_ratio s)).

(** Lines 139-155: one row per entry of [nums_of_agents]: its columns (none if no result was collected) and "gftformula".  The
    list in [total_results] is changed in place. *)
Fixpoint stock_rows (stocks its : nat) (nums : list nat) (T : totals) : list (option stock_result * Q) :=
  match nums with
  | [] => []
  | n :: nums' =>
      match T n with
      | None => (None, 0) :: stock_rows stocks its nums' T
      | Some s =>
          let r := sr_scale stocks its s in
          let kmin := sr_kmin r in
          (Some r, if Qle_bool kmin 1 then 0 else (1 - 1 / kmin) * 100)
            :: stock_rows stocks its nums' (fun k => if (k =? n)%nat then Some r else T k)
      end
  end.

(** Lines 50-156 [experiment]; [its] is num_of_iterations. *)
Definition stock_experiment (auction : market -> result tree_trade) (struct : pystruct) (counts : list Q) (nums : list nat)
  (its : nat) (stocks : list (list (list (list Q)))) : result (list (option stock_result * Q)) :=
  T <- stock_stocks auction struct counts nums stocks (fun _ => None) ;;
  Ok (stock_rows (length stocks) its nums T).

(** ** experiment_ascending_auction_recipetree_integer_random.py *)

(** Lines 83-104: one iteration (the warning is only printed, but computes a quotient by [kmin + 2], which is positive). *)
Definition int_iteration (auction : market -> result (nat * Q)) (struct : pystruct) (counts : list nat) (s : tree_sums) (m : market)
  : result tree_sums :=
  t <- new_int_tree m counts struct ;;
  o <- int_optimal_trade_with_counters m counts t ;;
  match o with
  | (_, (count, gft, kmin, kmax)) =>
      r <- auction m ;;
      Ok (mkTS (ts_optimal_count s + N.of_nat count) (ts_auction_count s + fst r) (ts_kmin s + kmin) (ts_kmax s + kmax)
               (ts_optimal_gft s + gft) (ts_total_gft s + snd r))
  end.

Fixpoint int_iterations (auction : market -> result (nat * Q)) (struct : pystruct) (counts : list nat) (s : tree_sums) (ms : list market)
  : result tree_sums :=
  match ms with
  | [] => Ok s
  | m :: ms' => s' <- int_iteration auction struct counts s m ;; int_iterations auction struct counts s' ms'
  end.

(** Lines 48-128 [experiment].  The rounding of the columns to five digits is left out. *)
Fixpoint int_experiment (auction : market -> result (nat * Q)) (struct : pystruct) (counts : list nat) (samples : list (nat * list market))
  : result (list tree_row) :=
  match samples with
  | [] => Ok []
  | (n, ms) :: samples' =>
      s <- int_iterations auction struct counts (mkTS 0 0 0 0 0 0) ms ;;
      r <- tree_experiment_row n (length ms) s ;;
      rest <- int_experiment auction struct counts samples' ;;
      Ok (r :: rest)
  end.
