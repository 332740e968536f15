(** * Model of stock/experiment_compare_iterations_autions.py (experiment, padding_zeroes)

    The list of stocks, the shuffles and the random draws are arguments.  The first four columns of a row (iterations,
    stockname, recipe, numpossibletrades) are the arguments themselves and are left out; a row is the list of the other
    columns, as (label, value) pairs, before the numbers are turned into strings (padding_zeroes, below, is modelled as a
    function of the string).  Numbers are exact rationals.  Simplifications: stock_names and auction_names have the lengths of
    stocks_prices and auction_functions; the csv file does not exist before; the files diff_in_sbbs_*.txt are reduced to the
    decision whether a line is appended. *)

From Coq Require Import String Ascii List Arith NArith ZArith QArith Qround.
From Verif Require Import Base Model_Agents Model_Trade Model_Prices Model_Market Model_Experiment.
Import ListNotations.
Open Scope Q_scope.

(** lines 113, 116: max_iterations=10000000. *)
Definition compare_max_iterations : nat := N.to_nat 10000000.

(** lines 80-81: [recipe_sum_for_buyer = (recipe_sum - recipe[0]) / recipe[0]]. *)
Definition buyer_factor (recipe : list nat) : result Q :=
  match recipe with
  | [] => Raise IndexError
  | r0 :: _ => if (r0 =? 0)%nat then Raise ZeroDivisionError else Ok (Qn (nsum recipe - r0) / Qn r0)
  end.

(** lines 95-96: [while len(stock_prices) < n * recipe_sum: stock_prices = stock_prices + stock_prices].  [Timeout] is a loop
    that does not end (within [fuel] rounds; [fuel] = the bound is enough for a list that is not empty). *)
Fixpoint double_until (fuel need : nat) (l : list Q) : result (list Q) :=
  if (length l <? need)%nat
  then match fuel with O => Timeout | S f => double_until f need (l ++ l)%list end
  else Ok l.

(** lines 98-104: the categories; [index] is the running position in the list of prices. *)
Fixpoint stock_categories (factor : Q) (n : nat) (prices : list Q) (index : nat) (recipe : list nat) : market :=
  match recipe with
  | [] => []
  | r :: recipe' =>
      let sign := if (index =? 0)%nat then factor else -(1) in
      new_category "agent" (map (fun p => inject_Z (py_int (p * sign))) (firstn (n * r) (skipn index prices)))
      :: stock_categories factor n prices (index + n * r) recipe'
  end.

(** Where the valuations come from: the (shuffled) prices of the stocks, or random numbers (line 94 / 105).
    The indices are the positions of the stock, of the number of agents, and of the iteration; [draws] gives the results of
    random.uniform for every category. *)
Inductive source : Type :=
  | FromStock (shuffle : nat -> nat -> nat -> list Q -> list Q)
  | FromRandom (draws : nat -> nat -> nat -> list (list Q)).

(** lines 93-112: the market of one iteration, and the list of prices afterwards. *)
Definition next_market (src : source) (recipe : list nat) (factor : Q) (n i j it : nat) (prices : list Q)
  : result (list Q * market) :=
  match src with
  | FromStock shuffle =>
      l <- double_until (n * nsum recipe) (n * nsum recipe) prices ;;
      let l' := shuffle i j it l in
      Ok (l', stock_categories factor n l' 0 recipe)
  | FromRandom draws => Ok (prices, map (uniformly_random "agent") (draws i j it))
  end.

(** lines 120-128: the columns that do not depend on the auctions. *)
Definition results : Type := list (string * Q).

Definition all_equal_one (recipe : list nat) : bool := forallb (fun r => (r =? 1)%nat) recipe.

Definition ratio_formula (recipe : list nat) (k : nat) : Q :=
  if (1 <? k)%nat then (Qn k - 1) * 100 / (if all_equal_one recipe then Qn k else Qn k + 1) else 0.

Definition optimal_columns (recipe : list nat) (k k0 : nat) (opt opt0 : Q) : results :=
  [("optimalcount", Qn k); ("gftratioformula", ratio_formula recipe k); ("optimalcountwithgftzero", Qn k0);
   ("optimalgft", opt); ("optimalgftwithgftzero", opt0)]%string.

(** lines 129-147: the columns of one auction. *)
Definition auction_columns (name : string) (k k0 : nat) (opt opt0 : Q) (count : nat) (total mkt : Q) : results :=
  [((name ++ "count")%string, Qn count);
   ((name ++ "countratio")%string, if (k =? 0)%nat then 0 else Qn count / Qn k0 * 100);
   ((name ++ "totalgft")%string, total);
   ((name ++ "totalgftratio")%string, if Qeq_bool opt 0 then 0 else total / opt0 * 100);
   ((name ++ "marketgft")%string, mkt);
   ((name ++ "marketgftratio")%string, if Qeq_bool opt 0 then 0 else mkt / opt0 * 100);
   ((name ++ "withoutgftzerocountratio")%string, if (k =? 0)%nat then 0 else Qn count / Qn k * 100);
   ((name ++ "withoutgftzerototalgft")%string, total);
   ((name ++ "withoutgftzerototalgftratio")%string, if Qeq_bool opt 0 then 0 else total / opt * 100)].

Definition auction : Type := (string * (market -> list nat -> result trade))%type.

Fixpoint auctions_columns (recipe : list nat) (m : market) (k k0 : nat) (opt opt0 : Q) (auctions : list auction) : result results :=
  match auctions with
  | [] => Ok []
  | (name, f) :: auctions' =>
      t <- f m recipe ;;
      total <- gain_from_trade t true ;;
      mkt <- gain_from_trade t false ;;
      rest <- auctions_columns recipe m k k0 opt opt0 auctions' ;;
      Ok (auction_columns name k k0 opt opt0 (num_of_deals t) total mkt ++ rest)%list
  end.

(** lines 113-147: one iteration on the market [m]. *)
Definition compare_columns (recipe : list nat) (auctions : list auction) (m : market) : result results :=
  o <- optimal_trade compare_max_iterations m recipe false ;;
  o0 <- optimal_trade compare_max_iterations m recipe true ;;
  let k := mt_num_of_deals (fst o) in let k0 := mt_num_of_deals (fst o0) in
  let opt := mt_gain_from_trade (fst o) in let opt0 := mt_gain_from_trade (fst o0) in
  rest <- auctions_columns recipe m k k0 opt opt0 auctions ;;
  Ok (optimal_columns recipe k k0 opt opt0 ++ rest)%list.

(** lines 206-212: adding the columns to the totals of this number of agents. *)
Fixpoint add_columns (total new : results) : results :=
  match total, new with
  | (_, x) :: total', (l, y) :: new' => (l, x + y) :: add_columns total' new'
  | _, _ => []
  end.

Definition accumulate (total new : results) : results :=
  match total with [] => new | _ => add_columns total new end.

(** lines 85-87 [total_results]: the dictionary from numbers of agents to totals. *)
Definition totals : Type := nat -> results.
Definition set_total (T : totals) (n : nat) (r : results) : totals := fun x => if (x =? n)%nat then r else T x.

(** lines 92-212: the iterations for one number of agents; [left] iterations to go, the next is number [it]. *)
Fixpoint compare_iterations (src : source) (recipe : list nat) (factor : Q) (auctions : list auction) (n i j left it : nat)
  (prices : list Q) (T : totals) : result (list Q * totals) :=
  match left with
  | O => Ok (prices, T)
  | S left' =>
      nm <- next_market src recipe factor n i j it prices ;;
      r <- compare_columns recipe auctions (snd nm) ;;
      compare_iterations src recipe factor auctions n i j left' (S it) (fst nm) (set_total T n (accumulate (T n) r))
  end.

(** line 91: the numbers of agents. *)
Fixpoint compare_nums (src : source) (recipe : list nat) (factor : Q) (auctions : list auction) (its i j : nat)
  (nums : list nat) (prices : list Q) (T : totals) : result totals :=
  match nums with
  | [] => Ok T
  | n :: nums' =>
      s <- compare_iterations src recipe factor auctions n i j its 0 prices T ;;
      compare_nums src recipe factor auctions its i (S j) nums' (fst s) (snd s)
  end.

(** lines 89-90: the stocks. *)
Fixpoint compare_stocks (src : source) (recipe : list nat) (factor : Q) (auctions : list auction) (its i : nat)
  (nums : list nat) (stocks : list (list Q)) (T : totals) : result totals :=
  match stocks with
  | [] => Ok T
  | prices :: stocks' =>
      T' <- compare_nums src recipe factor auctions its i 0 nums prices T ;;
      compare_stocks src recipe factor auctions its (S i) nums stocks' T'
  end.

(** lines 217-229: one row per number of agents.  The row is built inside the list of totals: if a number occurs a second time
    then its columns are already strings, and dividing them raises TypeError.  [done] are the numbers already treated. *)
Fixpoint compare_rows (division : nat) (T : totals) (done nums : list nat) : result (list (nat * results)) :=
  match nums with
  | [] => Ok []
  | n :: nums' =>
      match T n with
      | [] => rest <- compare_rows division T done nums' ;; Ok ((n, []) :: rest)
      | _ =>
          if existsb (Nat.eqb n) done then Raise TypeError
          else if (division =? 0)%nat then Raise ZeroDivisionError
          else rest <- compare_rows division T (n :: done) nums' ;;
               Ok ((n, map (fun c => (fst c, snd c / Qn division)) (T n)) :: rest)
      end
  end.

(** lines 50-230 [experiment]. *)
Definition compare_experiment_stock (src : source) (recipe : list nat) (auctions : list auction) (its : nat)
  (nums : list nat) (stocks : list (list Q)) : result (list (nat * results)) :=
  factor <- buyer_factor recipe ;;
  T <- compare_stocks src recipe factor auctions its 0 nums stocks (fun _ => []) ;;
  compare_rows (its * length stocks) T [] nums.

(** ** The files with the differences (lines 148-203) *)

Fixpoint prefix_of (x s : list ascii) : bool :=
  match x, s with
  | [], _ => true
  | a :: x', b :: s' => Ascii.eqb a b && prefix_of x' s'
  | _ :: _, [] => false
  end.

(** Python's [x in s] and [s.endswith(x)]. *)
Fixpoint has_infix (x s : list ascii) : bool :=
  prefix_of x s || match s with [] => false | _ :: s' => has_infix x s' end.

Definition py_contains (x s : string) : bool := has_infix (list_ascii_of_string x) (list_ascii_of_string s).
Definition py_endswith (s x : string) : bool := prefix_of (rev (list_ascii_of_string x)) (rev (list_ascii_of_string s)).

(** The state of the loops 150-175 and 178-203: the reference values (-1: not seen yet), and whether a difference was found,
    i.e. written to the file. *)
Record diff_state : Type := mkDiff { gft_to_compare : Q; k_to_compare : Q; gft_found : bool; k_found : bool }.

(** [worse ref v] is [ref != v] in the loop for report_diff and [ref > v] in the other. *)
Definition diff_step (worse : Q -> Q -> bool) (s : diff_state) (c : string * Q) : diff_state :=
  let '(label, value) := c in
  if py_contains "SBB" label then
    if negb (gft_found s) && py_endswith label "totalgft" then
      if Qlt_bool (gft_to_compare s) 0 then mkDiff value (k_to_compare s) (gft_found s) (k_found s)
      else if worse (gft_to_compare s) value then mkDiff (gft_to_compare s) (k_to_compare s) true (k_found s)
      else s
    else if negb (k_found s) && py_endswith label "count" then
      if Qlt_bool (k_to_compare s) 0 then mkDiff (gft_to_compare s) value (gft_found s) (k_found s)
      else if worse (k_to_compare s) value then mkDiff (gft_to_compare s) (k_to_compare s) (gft_found s) true
      else s
    else s
  else s.

Definition diff_loop (worse : Q -> Q -> bool) (r : results) : diff_state :=
  fold_left (diff_step worse) r (mkDiff (-(1)) (-(1)) false false).

Definition differs (a b : Q) : bool := negb (Qeq_bool a b).
Definition exceeds (a b : Q) : bool := Qlt_bool b a.

(** (a line in diff_in_sbbs_gft.txt, a line in diff_in_sbbs_k.txt); with report_diff the first loop may write, too. *)
Definition diff_files (report_diff : bool) (r : results) : bool * bool :=
  let s := diff_loop exceeds r in
  let s' := diff_loop differs r in
  (gft_found s || report_diff && gft_found s', k_found s || report_diff && k_found s')%bool.

(** ** padding_zeroes (lines 233-236), as a function of [str(result)] *)

(** [s.index(c)], raising ValueError if there is none. *)
Fixpoint index_of (c : ascii) (s : list ascii) : option nat :=
  match s with
  | [] => None
  | a :: s' => if Ascii.eqb a c then Some 0%nat else option_map S (index_of c s')
  end.

Definition padding_zeroes (s : list ascii) (digits : nat) : result (list ascii) :=
  let zeros := repeat "0"%char digits in
  let s' := (s ++ (if existsb (Ascii.eqb ".") s then zeros else "."%char :: zeros))%list in
  match index_of "." s' with
  | None => Raise ValueError
  | Some i => Ok (firstn (i + digits + 1) s')
  end.
