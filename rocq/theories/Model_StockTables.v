(** * Model of the other experiments on stock prices: stock/experiment_stock.py,
      stock/experiment_compare_iterations_autions_without_mcafee.py, stock/experiment_compare_sbb_shufled_stock.py

    The prices of the stocks are arguments (get_stocks_data.py is in Model_StockData.v), as everywhere the numbers are exact
    rationals, and the csv file is the list of its rows.  Constant columns (names of the stock and of the auction, recipe) are
    left out, except where said; stock_names has the length of stocks_prices.  A printed warning is a field of the row. *)

From Coq Require Import String List Arith NArith ZArith QArith Qround.
From Verif Require Import Base Model_Agents Model_Trade Model_Prices Model_Market Model_Experiment Model_CompareStock.
Import ListNotations.
Open Scope Q_scope.

(** Python's [round(q, 1)] and [round(q, 3)]. *)
Definition py_round1 (q : Q) : Q := inject_Z (py_round (q * 10)) / 10.
Definition py_round3 (q : Q) : Q := inject_Z (py_round (q * 1000)) / 1000.

(** ** stock/experiment_stock.py *)

(** line 67: [min([len(stocks_prices[i][j])/recipe[j] for j in range(len(stocks_prices[i]))])]. *)
Fixpoint set_counts (stock : list (list Q)) (recipe : list nat) : result (list Q) :=
  match stock, recipe with
  | [], _ => Ok []
  | _ :: _, [] => Raise IndexError
  | c :: stock', r :: recipe' =>
      if (r =? 0)%nat then Raise ZeroDivisionError
      else rest <- set_counts stock' recipe' ;; Ok (Qn (length c) / Qn r :: rest)
  end.

Fixpoint py_min (x : Q) (l : list Q) : Q :=
  match l with [] => x | y :: l' => py_min (if Qlt_bool y x then y else x) l' end.

Definition possible_sets (stock : list (list Q)) (recipe : list nat) : result Q :=
  l <- set_counts stock recipe ;;
  match l with [] => Raise ValueError | x :: l' => Ok (py_min x l') end.

(** lines 47-48: the numeric columns; [warned]: lines 72-75. *)
Record stock_row : Type := mkSR {
  num_possible_trades : Z; optimal_count : Q; auction_count : Q; count_ratio : Q;
  optimal_gft : Q; auction_gft : Q; auction_gft_ratio : Q; auction_market_gft : Q; market_gft_ratio : Q; warned : bool }.

(** lines 86-91: the ratio of the numbers of deals, cut to three digits; the other ratios, rounded to three digits. *)
Definition cut_ratio (a k : nat) : Q := if (k =? 0)%nat then 0 else inject_Z (py_int (Qn a / Qn k * 100000)) / 1000.
Definition rounded_ratio (gft opt : Q) : Q := if Qeq_bool opt 0 then 0 else py_round3 (gft / opt * 100).

(** lines 66-92: the row of one stock (without the names). *)
Definition stock_experiment_row (auction : market -> list nat -> result trade) (recipe : list nat) (stock : list (list Q))
  : result stock_row :=
  let m := map (new_category "agent") stock in
  possible <- possible_sets stock recipe ;;
  o <- optimal_trade default_max_iterations m recipe true ;;
  t <- auction m recipe ;;
  total <- gain_from_trade t true ;;
  mkt <- gain_from_trade t false ;;
  let k := mt_num_of_deals (fst o) in let opt := mt_gain_from_trade (fst o) in let a := num_of_deals t in
  Ok (mkSR (py_round possible) (py_round2 (Qn k)) (py_round2 (Qn a)) (cut_ratio a k)
           (py_round2 opt) (py_round2 total) (rounded_ratio total opt) (py_round2 mkt) (rounded_ratio mkt opt) (k <? a)%nat).

(** lines 50-93 [experiment]. *)
Fixpoint stock_experiment (auction : market -> list nat -> result trade) (recipe : list nat) (stocks : list (list (list Q)))
  : result (list stock_row) :=
  match stocks with
  | [] => Ok []
  | s :: stocks' =>
      r <- stock_experiment_row auction recipe s ;;
      rest <- stock_experiment auction recipe stocks' ;;
      Ok (r :: rest)
  end.

(** ** stock/experiment_compare_iterations_autions_without_mcafee.py *)

(** lines 95-113: the columns of one auction, and whether a warning is printed (lines 100-106). *)
Definition size_auction_columns (name : string) (k0 : nat) (opt : Q) (count : nat) (gft : Q) : results :=
  [((name ++ "_auction_count")%string, py_round2 (Qn count));
   ((name ++ "_count_ratio")%string, cut_ratio count k0);
   ((name ++ "_gft")%string, py_round2 gft);
   ((name ++ "_gft_ratio")%string, rounded_ratio gft opt)].

Fixpoint size_auctions_columns (recipe : list nat) (m : market) (k0 : nat) (opt : Q) (auctions : list auction)
  : result (results * list bool) :=
  match auctions with
  | [] => Ok ([], [])
  | (name, f) :: auctions' =>
      t <- f m recipe ;;
      gft <- gain_from_trade t false ;;
      rest <- size_auctions_columns recipe m k0 opt auctions' ;;
      Ok ((size_auction_columns name k0 opt (num_of_deals t) gft ++ fst rest)%list, (k0 <? num_of_deals t)%nat :: snd rest)
  end.

(** A row: the column num_possible_trades, the columns after it, and the warnings. *)
Record size_row : Type := mkSize { sz_possible : nat; sz_columns : results; sz_warned : list bool }.

(** lines 85-115: the row for one market. *)
Definition size_row_of (recipe : list nat) (auctions : list auction) (possible : nat) (m : market) : result size_row :=
  o <- optimal_trade compare_max_iterations m recipe false ;;
  o0 <- optimal_trade compare_max_iterations m recipe true ;;
  let k := mt_num_of_deals (fst o) in let k0 := mt_num_of_deals (fst o0) in let opt := mt_gain_from_trade (fst o) in
  rest <- size_auctions_columns recipe m k0 opt auctions ;;
  Ok (mkSize possible
        ([("optimal_count", py_round2 (Qn k)); ("optimal_count_with_gft_zero", py_round2 (Qn k0));
          ("optimal_gft", py_round2 opt)]%string ++ fst rest)%list (snd rest)).

(** line 84: [stocks_prices[i][j][0:num_of_possible_ps*recipe[j]] for j in range(len(stocks_prices[i]))]. *)
Fixpoint cut_market (n : nat) (stock : list (list Q)) (recipe : list nat) : result market :=
  match stock, recipe with
  | [], _ => Ok []
  | _ :: _, [] => Raise IndexError
  | c :: stock', r :: recipe' =>
      rest <- cut_market n stock' recipe' ;; Ok (new_category "agent" (firstn (n * r) c) :: rest)
  end.

(** lines 72-115: the rows of one stock; [last] is last_iteration. *)
Fixpoint size_rows (recipe : list nat) (auctions : list auction) (stock : list (list Q)) (last : bool) (nums : list nat)
  : result (list size_row) :=
  match nums with
  | [] => Ok []
  | n :: nums' =>
      match stock with
      | [] => Raise IndexError
      | first :: _ =>
          let possible := Nat.min n (length first) in
          if (possible <? n)%nat then
            if last then Ok []
            else r <- size_row_of recipe auctions possible (map (new_category "agent") stock) ;;
                 rest <- size_rows recipe auctions stock true nums' ;; Ok (r :: rest)
          else m <- cut_market possible stock recipe ;;
               r <- size_row_of recipe auctions possible m ;;
               rest <- size_rows recipe auctions stock last nums' ;; Ok (r :: rest)
      end
  end.

(** lines 46-116 [experiment]: the rows, stock by stock. *)
Fixpoint size_experiment (recipe : list nat) (auctions : list auction) (nums : list nat) (stocks : list (list (list Q)))
  : result (list (list size_row)) :=
  match stocks with
  | [] => Ok []
  | s :: stocks' =>
      rs <- size_rows recipe auctions s false nums ;;
      rest <- size_experiment recipe auctions nums stocks' ;;
      Ok (rs :: rest)
  end.

(** ** stock/experiment_compare_sbb_shufled_stock.py *)

(** lines 91-99: the market of the first [n * recipe[j]] prices for each category; [index] is the position in the list. *)
Fixpoint shuffled_market (recipe_sum buyers n : nat) (prices : list Q) (index : nat) (recipe : list nat) : market :=
  match recipe with
  | [] => []
  | r :: recipe' =>
      let multiple := if (index =? 0)%nat then Qn recipe_sum - Qn buyers else -(1) * Qn buyers in
      new_category "agent" (map (fun p => inject_Z (py_int (p * multiple))) (firstn (n * r) (skipn index prices)))
      :: shuffled_market recipe_sum buyers n prices (index + n * r) recipe'
  end.

(** lines 111-135: the columns of the auctions.  [bound] is the local variable auction_name, which is not bound before the
    first auction of the first iteration has been run; it is read (lines 113-116) if the new name contains "mcafee". *)
Definition shuffled_columns (name : string) (k0 : nat) (opt : Q) (count : nat) (gft : Q) : results :=
  [((name ++ "auctioncount")%string, Qn count);
   ((name ++ "countratio")%string, if (k0 =? 0)%nat then 0 else Qn count / Qn k0 * 100);
   ((name ++ "gft")%string, gft);
   ((name ++ "gftratio")%string, if Qeq_bool opt 0 then 0 else gft / opt * 100)].

Definition zero_columns (name : string) : results :=
  [((name ++ "auctioncount")%string, 0); ((name ++ "countratio")%string, 0); ((name ++ "gft")%string, 0);
   ((name ++ "gftratio")%string, 0)].

Fixpoint shuffled_auctions (recipe : list nat) (m : market) (k0 : nat) (opt : Q) (auctions : list auction)
  (bound : option string) : result (results * option string) :=
  match auctions with
  | [] => Ok ([], bound)
  | (name, f) :: auctions' =>
      extra <- (if py_contains "mcafee" name
                then match bound with None => Raise UnboundLocalError | Some old => Ok (zero_columns old) end
                else Ok []) ;;
      t <- f m recipe ;;
      gft <- gain_from_trade t false ;;
      rest <- shuffled_auctions recipe m k0 opt auctions' (Some name) ;;
      Ok ((extra ++ shuffled_columns name k0 opt (num_of_deals t) gft ++ fst rest)%list, snd rest)
  end.

(** lines 101-135: one iteration on the market [m]; the columns from optimalcount on. *)
Definition shuffled_iteration (recipe : list nat) (auctions : list auction) (m : market) (bound : option string)
  : result (results * option string) :=
  o <- optimal_trade compare_max_iterations m recipe false ;;
  o0 <- optimal_trade compare_max_iterations m recipe true ;;
  let k := mt_num_of_deals (fst o) in let k0 := mt_num_of_deals (fst o0) in let opt := mt_gain_from_trade (fst o) in
  rest <- shuffled_auctions recipe m k0 opt auctions bound ;;
  Ok (([("optimalcount", Qn k); ("optimalcountwithgftzero", Qn k0); ("optimalgft", opt)]%string ++ fst rest)%list, snd rest).

(** An entry of the dictionaries total_results and average_total_results: the column numpossibletrades (of the first row that
    was added) and the columns after it, or nothing. *)
Definition entry : Type := option (nat * results).
Definition entries : Type := nat -> entry.
Definition set_entry (T : entries) (n : nat) (e : entry) : entries := fun x => if (x =? n)%nat then e else T x.

(** lines 138-144, 159-165.  Both lists have the same length. *)
Definition add_entry (e : entry) (row : nat * results) : entry :=
  match e with None => Some row | Some (p, cs) => Some (p, add_columns cs (snd row)) end.

(** lines 83-144: the iterations for one number of agents [n] ([left] to go); the state is (last_iteration, auction_name,
    total_results). *)
Definition shuffled_state : Type := (bool * option string * entries)%type.

Fixpoint shuffled_iterations (recipe : list nat) (auctions : list auction) (prices : list Q) (n left : nat)
  (s : shuffled_state) : result shuffled_state :=
  match left with
  | O => Ok s
  | S left' =>
      let '(last, bound, T) := s in
      if (nsum recipe =? 0)%nat then Raise ZeroDivisionError
      else
        let possible := Nat.min n (length prices / nsum recipe) in
        if last && (possible <? n)%nat then Ok s
        else match recipe with
        | [] => Raise IndexError
        | buyers :: _ =>
            r <- shuffled_iteration recipe auctions (shuffled_market (nsum recipe) buyers possible prices 0 recipe) bound ;;
            shuffled_iterations recipe auctions prices n left'
              (true, snd r, set_entry T n (add_entry (T n) (possible, fst r)))
        end
  end.

(** line 82: the numbers of agents. *)
Fixpoint shuffled_nums (recipe : list nat) (auctions : list auction) (prices : list Q) (its : nat) (nums : list nat)
  (s : shuffled_state) : result shuffled_state :=
  match nums with
  | [] => Ok s
  | n :: nums' =>
      s' <- shuffled_iterations recipe auctions prices n its s ;;
      shuffled_nums recipe auctions prices its nums' s'
  end.

(** [OrderedDict(results)]: a key that occurs twice keeps its place, and the last value. *)
Fixpoint put (key : string) (v : Q) (d : results) : results :=
  match d with
  | [] => [(key, v)]
  | (k, x) :: d' => if String.eqb k key then (k, v) :: d' else (k, x) :: put key v d'
  end.
Definition ordered_dict (r : results) : results := fold_left (fun d c => put (fst c) (snd c) d) r [].

(** A row of the table: the stock ([None]: the word Average), numpossibletrades, and the other numeric columns. *)
Record shuffled_row : Type := mkShuf { sh_stock : option nat; sh_possible : nat; sh_columns : results }.

(** lines 145-165: the rows of stock number [i].  The entries of the dictionary are divided in place (a number that is listed
    twice is divided, and added to the averages, twice). *)
Fixpoint shuffled_rows (i its : nat) (nums : list nat) (T A : entries) : list shuffled_row * entries :=
  match nums with
  | [] => ([], A)
  | n :: nums' =>
      match T n with
      | None => shuffled_rows i its nums' T A
      | Some (p, cs) =>
          let cs' := map (fun c => (fst c, snd c / Qn its)) cs in
          let rest := shuffled_rows i its nums' (set_entry T n (Some (p, cs'))) (set_entry A n (add_entry (A n) (p, cs'))) in
          (mkShuf (Some i) p (ordered_dict cs') :: fst rest, snd rest)
      end
  end.

(** lines 76-165: the stocks. *)
Fixpoint shuffled_stocks (recipe : list nat) (auctions : list auction) (its : nat) (nums : list nat) (i : nat)
  (stocks : list (list Q)) (bound : option string) (A : entries) : result (list shuffled_row * entries) :=
  match stocks with
  | [] => Ok ([], A)
  | prices :: stocks' =>
      s <- shuffled_nums recipe auctions prices its nums (false, bound, fun _ => None) ;;
      let '(_, bound', T) := s in
      let rows := shuffled_rows i its nums T A in
      rest <- shuffled_stocks recipe auctions its nums (S i) stocks' bound' (snd rows) ;;
      Ok ((fst rows ++ fst rest)%list, snd rest)
  end.

(** lines 170-177: the averages; the ratios are cut to three digits, the others rounded to one. *)
Definition average_column (n : nat) (c : string * Q) : string * Q :=
  (fst c, if py_contains "ratio" (fst c) then inject_Z (py_int (snd c / Qn n * 1000)) / 1000 else py_round1 (snd c / Qn n)).

(** lines 166-178: the rows with the averages over the stocks. *)
Fixpoint average_rows (stocks : nat) (nums : list nat) (A : entries) : list shuffled_row :=
  match nums with
  | [] => []
  | n :: nums' =>
      match A n with
      | None => average_rows stocks nums' A
      | Some (p, cs) =>
          let cs' := map (average_column stocks) cs in
          mkShuf None p (ordered_dict cs') :: average_rows stocks nums' (set_entry A n (Some (p, cs')))
      end
  end.

(** lines 47-179 [experiment]. *)
Definition shuffled_experiment (recipe : list nat) (auctions : list auction) (its : nat) (nums : list nat)
  (stocks : list (list Q)) : result (list shuffled_row) :=
  r <- shuffled_stocks recipe auctions its nums 0 stocks None (fun _ => None) ;;
  Ok (fst r ++ average_rows (length stocks) nums (snd r))%list.
