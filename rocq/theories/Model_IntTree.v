(** * Model of recipetree_integer.py

    A tree is the [rtree] of Model_RecipeTree together with the list [counts] of agent counts given to the
    constructor ([[]] stands for None: both are false in Python). *)

From Coq Require Import String List Arith QArith NArith.
From Verif Require Import Base Model_Agents Model_Trade Model_Prices Model_RecipeTree Model_IntPrices.
Import ListNotations.
Open Scope Q_scope.

(** recipetree_integer.py:296: [self.agent_count = agent_counts[self_index] if agent_counts else 1]; the constructor
    guarantees that the index is in range. *)
Definition count_at (counts : list nat) (i : nat) : nat :=
  match counts with [] => 1%nat | _ => nth i counts 0%nat end.

(** recipetree_integer.py:282-308 [__init__].  Same as recipetree.py:154-178, except that the index of a node must
    also be in the range of [agent_counts] (line 296), if it is given; IndexError otherwise. *)
Definition new_int_tree (cats : list category) (counts : list nat) (s : pystruct) : result rtree :=
  match s with
  | SList l =>
      if Nat.even (length l) then
        match l with
        | i :: ch :: _ =>
            build_node (match counts with [] => length cats | _ => Nat.min (length counts) (length cats) end) i ch
        | _ => Raise IndexError
        end
      else Raise ValueError
  | _ => Raise TypeError
  end.

(** recipetree_integer.py:345-351 [recipes] ([paths_to_leaf] and [recipe_from_path], lines 310-343, are the same as in
    recipetree.py:182-214). *)
Definition int_recipes (num_categories : nat) (counts : list nat) (t : rtree) : result (list (list nat)) :=
  map_result (fun path => recipe_from_path path num_categories (default_counts counts num_categories)) (paths_to_leaf t).

(** recipetree_integer.py:367-372: consecutive groups of [count] values; an incomplete last group is dropped.
    [current] is the variable current_set. *)
Fixpoint groups_from (count : nat) (current : list Q) (values : list Q) : list (list Q) :=
  match values with
  | [] => []
  | v :: values' =>
      let current' := current ++ [v] in
      if (length current' =? count)%nat then current' :: groups_from count [] values'
      else groups_from count current' values'
  end.

(** Lines 363-372 (and 392-400, 424-432): the groups of the category [i].  The in-place sort of the category's values
    (line 364) has no effect on a category (its values are kept sorted), so it is not a change of state here. *)
Definition value_groups (cats : list category) (counts : list nat) (i : nat) : list (list Q) :=
  groups_from (count_at counts i) [] (sort_desc (cvalues (cat_at cats i))).

(** Python's [[[*a, *b] for (a,b) in zip(xs, ys)]]. *)
Fixpoint zip_app (xs ys : list (list Q)) : list (list Q) :=
  match xs, ys with
  | x :: xs', y :: ys' => (x ++ y) :: zip_app xs' ys'
  | _, _ => []
  end.

(** recipetree_integer.py:357-381 [combined_values]. *)
Fixpoint combined_sets (cats : list category) (counts : list nat) (t : rtree) : list (list Q) :=
  match t with
  | Node i ch =>
      let own := sort_by_desc Qsum (value_groups cats counts i) in
      match ch with
      | [] => own
      | _ => zip_app own (sort_by_desc Qsum (concat (map (combined_sets cats counts) ch)))
      end
  end.

(** recipetree_integer.py:416-445 [combined_values_detailed] (the children are asked for [combined_values]). *)
Definition detailed_sets (cats : list category) (counts : list nat) (t : rtree) : list (list Q) :=
  match t with
  | Node i ch =>
      let own := value_groups cats counts i in
      match ch with
      | [] => own
      | _ => zip_app own (sort_by_desc Qsum (concat (map (combined_sets cats counts) ch)))
      end
  end.

(** recipetree_integer.py:472-483 [optimal_trade]. *)
Definition int_optimal_trade (cats : list category) (counts : list nat) (t : rtree) : list (list Q) * nat * Q :=
  let opt := filter (fun d => Qle_bool 0 (Qsum d)) (detailed_sets cats counts t) in
  (opt, length opt, Qsum (concat opt)).

(** recipetree_integer.py:485-489 [optimal_trade_GFT]. *)
Definition int_optimal_trade_GFT (cats : list category) (counts : list nat) (t : rtree) : Q :=
  Qsum (map Qsum (filter (fun d => Qle_bool 0 (Qsum d)) (combined_sets cats counts t))).

(** recipetree_integer.py:384-414 [combined_values_detailed_with_counters].  Every group of a leaf gets a new counter
    object, so a group stands for its own counter.  For a node with children the list [children_values] (line 403)
    has one list per child, and then
    - if the node has a group, line 409 evaluates [children_values[0][0]] (IndexError if the first child has no
      group) and then unpacks a number (TypeError);
    - otherwise the sort key of line 413 evaluates [x[0]] (IndexError if the first child has no group) and then the
      sum of a tuple of a list and a dict (TypeError). *)
Fixpoint int_counted_groups (cats : list category) (counts : list nat) (t : rtree) : result (list (list Q)) :=
  match t with
  | Node i ch =>
      match ch with
      | [] => Ok (sort_by_desc Qsum (value_groups cats counts i))
      | _ =>
          cs <- map_result (int_counted_groups cats counts) ch ;;
          match cs with
          | [] :: _ => Raise IndexError
          | _ => Raise TypeError
          end
      end
  end.

(** recipetree_integer.py:447-470 [optimal_trade_with_counters].  The counter of every group is 1 after the first
    loop, since no two groups share a counter; so the second loop gives kmin = kmax = 1, the number of groups and the
    sum of their sums, unless there is no group. *)
Definition int_optimal_trade_with_counters (cats : list category) (counts : list nat) (t : rtree)
  : result (list (list Q) * (nat * Q * N * N)) :=
  values <- int_counted_groups cats counts t ;;
  let opt := filter (fun d => Qle_bool 0 (Qsum d)) values in
  Ok (opt, (length opt, Qsum (map Qsum opt),
            match opt with [] => 99999%N | _ => 1%N end, match opt with [] => 0%N | _ => 1%N end)).

(** Python's [category.size() / agent_count]. *)
Definition size_ratio (cats : list category) (counts : list nat) (i : nat) : result Q :=
  let c := count_at counts i in
  if (c =? 0)%nat then Raise ZeroDivisionError else Ok (Qn (csize (cat_at cats i)) / Qn c).

(** [ceil(size / count)] and [floor(size / count)] of non-negative ints. *)
Definition ceil_div (a b : nat) : nat := ((a + (b - 1)) / b)%nat.
Definition size_ceil (cats : list category) (counts : list nat) (i : nat) : result nat :=
  let c := count_at counts i in
  if (c =? 0)%nat then Raise ZeroDivisionError else Ok (ceil_div (csize (cat_at cats i)) c).
Definition size_floor (cats : list category) (counts : list nat) (i : nat) : result nat :=
  let c := count_at counts i in
  if (c =? 0)%nat then Raise ZeroDivisionError else Ok (csize (cat_at cats i) / c)%nat.

(** Python's [max] of two numbers. *)
Definition Qmax2 (a b : Q) : Q := if Qlt_bool a b then b else a.

(** recipetree_integer.py:492-632 [largest_categories] with indices=True. *)
Fixpoint int_largest_categories (cats : list category) (counts : list nat) (t : rtree) : result (Q * Q * list nat) :=
  match t with
  | Node i ch =>
      self_size <- size_ratio cats counts i ;;
      sizes <- map_result (fun c => size_ceil cats counts (tindex c)) ch ;;
      let children_size := nsum sizes in
      if Qlt_bool (Qn children_size) self_size || (children_size =? 0)%nat
      then Ok (self_size, self_size, [i])
      else
        rs <- map_result (int_largest_categories cats counts) ch ;;
        Ok (fold_left (fun m r => Qmax2 m (fst (fst r))) rs 0, self_size, concat (map snd rs))
  end.

(** recipetree_integer.py:635-646 [num_of_deals]. *)
Fixpoint int_num_of_deals (cats : list category) (counts : list nat) (t : rtree) : result nat :=
  match t with
  | Node i ch =>
      self <- size_floor cats counts i ;;
      match ch with
      | [] => Ok self
      | _ =>
          ns <- map_result (int_num_of_deals cats counts) ch ;;
          Ok (Nat.min (nsum ns) self)
      end
  end.

(** recipetree_integer.py:649-689 [num_of_deals_explained]: (number of deals, kmin, kmax); the text is in Model_Report.v. *)
Fixpoint int_deals_explained (cats : list category) (counts : list nat) (prices : list Q) (t : rtree)
  : result (nat * nat * nat) :=
  match t with
  | Node i ch =>
      self <- size_floor cats counts i ;;
      _ <- get prices i ;;
      match ch with
      | [] => Ok (self, self, self)
      | _ =>
          rs <- map_result (int_deals_explained cats counts prices) ch ;;
          match max_list (map snd rs) with
          | Some kmax =>
              Ok (Nat.min (nsum (map (fun r => fst (fst r)) rs)) self,
                  match min_list (filter (fun k => 0 <? k)%nat (map (fun r => snd (fst r)) rs)) with
                  | Some k => k
                  | None => 0%nat
                  end, kmax)
          | None => Raise ValueError
          end
      end
  end.
