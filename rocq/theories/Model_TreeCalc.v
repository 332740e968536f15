(** * Model of tree_calculations.py and of get_stocks_data.py:93-109 *)

From Coq Require Import List Arith QArith Qround.
From Verif Require Import Base Model_Prices Model_RecipeTree.
Import ListNotations.
Open Scope nat_scope.

(** tree_calculations.py:33-42 [get_depth_and_agents_size]; the inner function is the loop of lines 38-41, with the
    variables max_depth and max_index.  Line 39 evaluates [recipe_tree[i + 1]] first (IndexError for an odd length);
    line 40 compares ints (TypeError for None or a list); [len] of an int is a TypeError. *)
Fixpoint get_depth_and_agents_size (s : pystruct) : result (nat * nat) :=
  match s with
  | SNone => Ok (0, 0)
  | SInt _ => Raise TypeError
  | SList l =>
      (fix loop (l : list pystruct) (max_depth max_index : nat) : result (nat * nat) :=
         match l with
         | [] => Ok (max_depth + 1, max_index)
         | [_] => Raise IndexError
         | a :: b :: l' =>
             r <- get_depth_and_agents_size b ;;
             match a with
             | SInt k => loop l' (Nat.max max_depth (fst r)) (Nat.max (Nat.max max_index k) (snd r))
             | _ => Raise TypeError
             end
         end) l 0 0
  end.

(** Assignment [counts[index] = v] to an element of a list. *)
Definition assign (counts : list nat) (index : pystruct) (v : nat) : result (list nat) :=
  match index with
  | SInt k => _ <- get counts k ;; Ok (set_nth k v counts)
  | _ => Raise TypeError
  end.

(** tree_calculations.py:21-29 [analyze_recipe_tree] (the print omitted): the list agent_counts after the call.
    [depth] is only decreased along a path of the struct below its depth, so it is a natural number here
    (Python's value could be negative only for a caller that gives a smaller depth). *)
Fixpoint analyze_recipe_tree (s : pystruct) (counts : list nat) (depth : nat) : result (list nat) :=
  match s with
  | SList l =>
      (fix loop (l : list pystruct) (counts : list nat) : result (list nat) :=
         match l with
         | [] => Ok counts
         | [_] => Raise IndexError
         | a :: b :: l' =>
             counts' <- (match b with
                         | SNone => assign counts a depth
                         | _ => analyze_recipe_tree b counts (depth - 1)
                         end) ;;
             loop l' counts'
         end) l counts
  | _ => Raise TypeError
  end.

(** tree_calculations.py:11-18 [get_agents_analyze] (the prints omitted). *)
Definition get_agents_analyze (s : pystruct) : result (list nat) :=
  r <- get_depth_and_agents_size s ;;
  let max_depth := fst r in
  counts <- analyze_recipe_tree s (repeat 1 (snd r + 1)) max_depth ;;
  _ <- get counts 0 ;;
  Ok (set_nth 0 (max_depth - 1) counts).

(** tree_calculations.py:47-55 [calculate_children_counts]: the list children_counts after the call. *)
Fixpoint calculate_children_counts (s : pystruct) (counts : list nat) : result (list nat) :=
  match s with
  | SList l =>
      (fix loop (l : list pystruct) (counts : list nat) : result (list nat) :=
         match l with
         | [] => Ok counts
         | [_] => Raise IndexError
         | a :: b :: l' =>
             counts' <- (match b with
                         | SNone => assign counts a 1
                         | SInt _ => Raise TypeError
                         | SList lb => c <- assign counts a (length lb / 2) ;; calculate_children_counts b c
                         end) ;;
             loop l' counts'
         end) l counts
  | _ => Raise TypeError
  end.

(** tree_calculations.py:44-45 [get_children_counts]. *)
Definition get_children_counts (s : pystruct) (num_categories : nat) : result (list nat) :=
  calculate_children_counts s (repeat 0 num_categories).

(** ** get_stocks_data.py:93-109 [get_prices_tree], from line 100 on: [data] is the shuffled list of prices. *)

Open Scope Q_scope.

(** Lines 105-108: [n] rounds of the inner loop. *)
Fixpoint deal_values (n : nat) (sign : Q) (data : list Q) (data_index : nat) (values : list Q) (agent_index : nat)
  : result (list Q * nat) :=
  match n with
  | O => Ok ([], data_index)
  | S n' =>
      d <- get data data_index ;;
      v <- get values agent_index ;;
      r <- deal_values n' sign data (S data_index) values agent_index ;;
      Ok (sign * d * v :: fst r, snd r)
  end.

(** Line 105: [int(len(data) / recipe_size * agents_counts[agent_index])], in exact arithmetic. *)
Definition share (len recipe_size count : nat) : nat :=
  Z.to_nat (Qfloor (Qn len / Qn recipe_size * Qn count)).

(** Lines 104-108: the outer loop, from [agent_index] on. *)
Fixpoint deal_categories (counts : list nat) (agent_index recipe_size : nat) (data : list Q) (data_index : nat)
  (values : list Q) : result (list (list Q)) :=
  match counts with
  | [] => Ok []
  | c :: counts' =>
      r <- deal_values (share (length data) recipe_size c) (if (0 <? agent_index)%nat then -(1) else 1)
             data data_index values agent_index ;;
      rest <- deal_categories counts' (S agent_index) recipe_size data (snd r) values ;;
      Ok (fst r :: rest)
  end.

(** Lines 101-109; a zero sum of a non-empty list of counts is a ZeroDivisionError at line 105. *)
Definition split_prices (data : list Q) (agents_counts : list nat) (agents_values : list Q) : result (list (list Q)) :=
  match agents_counts with
  | [] => Ok []
  | _ => if (nsum agents_counts =? 0)%nat then Raise ZeroDivisionError
         else deal_categories agents_counts 0 (nsum agents_counts) data 0 agents_values
  end.
