(** * Model of get_stocks_data.py: the prices read from the stock files *)

From Coq Require Import String List Arith ZArith QArith Qround.
From Verif Require Import Base Model_Experiment.
Import ListNotations.
Open Scope Q_scope.

(** get_stocks_data.py:22: the columns High, Close, Open, Low of a csv file read by pandas; the numbers are rationals here
    (binary64 in Python), and the columns of a file have equal lengths. *)
Record stock_file : Type := mkSF { high : list Q; close : list Q; open_ : list Q; low : list Q }.

(** The sum of two numpy arrays of equal length. *)
Definition array_add (a b : list Q) : list Q := map (fun p => fst p + snd p) (combine a b).

(** get_stocks_data.py:23: [-1*df[type].to_numpy()]. *)
Definition array_opp (a : list Q) : list Q := map (fun x => -1 * x) a.

(** get_stocks_data.py:57: [int(x*1000)]; the product is exact here. *)
Definition thousands (x : Q) : Z := py_int (x * 1000).

(** Line 31-32: [recipe[1:] == recipe[:-1]] for a recipe of length 3. *)
Definition three_equal (recipe : list nat) : bool :=
  match recipe with [a; b; c] => ((b =? a) && (c =? b))%nat | _ => false end.

(** [l[i] += x] for a list of lists and an index in range. *)
Fixpoint extend_nth (i : nat) (x : list Q) (l : list (list Q)) : list (list Q) :=
  match l, i with
  | [], _ => []
  | a :: l', O => (a ++ x) :: l'
  | a :: l', S i' => a :: extend_nth i' x l'
  end.

(** Lines 46-47: the loop that deals the sellers to the categories, as a fold over [range(len(sellers)*(len(recipe)-1))]. *)
Definition deal_seller (recipe : list nat) (sellers : list Q) (split : list (list Q)) (i : nat) : list (list Q) :=
  let c := (i mod (length recipe - 1) + 1)%nat in
  extend_nth c (repeat (nth (i mod length sellers) sellers 0) (nth c recipe 0%nat)) split.

(** Lines 34-48: any other recipe.  (Line 39-41, [multiple], is not used.) *)
Definition split_data (recipe : list nat) (buyers sellers : list Q) : result (list (list Q)) :=
  match recipe with
  | [] => Raise IndexError
  | r0 :: _ =>
      let sum_sellers := (nsum recipe - r0)%nat in
      let start := concat (map (fun b => repeat (b * Qn sum_sellers) r0) buyers) :: repeat [] (length recipe - 1) in
      Ok (fold_left (deal_seller recipe sellers) (seq 0 (length sellers * (length recipe - 1))) start)
  end.

(** get_stocks_data.py:20-64 [getPrices], without the printing. *)
Definition get_prices_raw (f : stock_file) (recipe : list nat) : result (list (list Q)) :=
  let d0 := high f in
  let d1 := close f in
  let d2 := array_opp (open_ f) in
  let d3 := array_opp (low f) in
  match recipe with
  | [1; 1]%nat => Ok [d0 ++ d1; d2 ++ d3]
  | [2; 1]%nat => Ok [d0 ++ d1; array_add d2 d3]
  | [1; 2]%nat => Ok [array_add d0 d1; d2 ++ d3]
  | [2; 1; 1]%nat => Ok [d0 ++ d1; d2; d3]
  | _ => if three_equal recipe then Ok [array_add d0 d1; d2; d3]
         else split_data recipe (d0 ++ d1) (d2 ++ d3)
  end.

(** get_stocks_data.py:49-57: the same with the prices in thousandths, truncated. *)
Definition get_prices (f : stock_file) (recipe : list nat) : result (list (list Z)) :=
  data <- get_prices_raw f recipe ;; Ok (map (map thousands) data).

(** get_stocks_data.py:66-77 [getAllPricesShuffled]: [cache] is the dictionary [keep_all_prices]; the two shuffles are functions
    of the list (any permutation, see the theorems).  The list that is stored is the list that is returned (one object), so the
    second shuffle also changes the stored one. *)
Definition all_prices (f : stock_file) : list Z :=
  map thousands (high f) ++ map thousands (close f) ++ map thousands (open_ f) ++ map thousands (low f).

Fixpoint lookup {A} (name : string) (cache : list (string * A)) : option A :=
  match cache with
  | [] => None
  | (n, a) :: cache' => if String.eqb n name then Some a else lookup name cache'
  end.

Definition get_all_prices_shuffled (shuffle1 shuffle2 : list Z -> list Z) (cache : list (string * list Z))
    (f : stock_file) (name : string) : list Z * list (string * list Z) :=
  match lookup name cache with
  | Some l => (l, cache)
  | None => let l := shuffle2 (shuffle1 (all_prices f)) in (l, (name, l) :: cache)
  end.
