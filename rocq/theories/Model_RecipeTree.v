(** * Model of recipetree.py *)

From Coq Require Import String List Arith QArith.
From Verif Require Import Base Model_Agents Model_Trade.
Import ListNotations.
Open Scope Q_scope.

(** The nested Python value given to the constructor: None, a non-negative int, or a list.
    (Negative ints, which Python accepts as indices from the end, strings, etc. are not modelled.) *)
Inductive pystruct : Type :=
| SNone
| SInt (n : nat)
| SList (l : list pystruct).

(** recipetree.py:29-178: a [RecipeTree] node: its [category_index] and [children].  The [category] object
    is the one at that index of the list of categories, shared with the market: functions below take the
    current list of categories as an argument and look it up. *)
Inductive rtree : Type := Node (index : nat) (children : list rtree).

Definition tindex (t : rtree) : nat := match t with Node i _ => i end.
Definition tchildren (t : rtree) : list rtree := match t with Node _ ch => ch end.

(** recipetree.py:154-178 [__init__], from line 166 on, for the two-element list [[i, ch]].
    - line 169 [categories[self_index]]: IndexError out of range, TypeError if not an int;
    - line 172-178: every pair of elements of the list of children is a child; a last odd element is a
      one-element slice, rejected by the length check at line 161. *)
Fixpoint build_node (ncats : nat) (i ch : pystruct) {struct ch} : result rtree :=
  match i with
  | SInt k =>
      if (k <? ncats)%nat then
        match ch with
        | SNone => Ok (Node k [])
        | SInt _ => Raise TypeError          (* len() of an int *)
        | SList l =>
            cs <- (fix build_children (l : list pystruct) : result (list rtree) :=
                     match l with
                     | [] => Ok []
                     | [_] => Raise ValueError
                     | a :: b :: l' =>
                         t <- build_node ncats a b ;;
                         ts <- build_children l' ;;
                         Ok (t :: ts)
                     end) l ;;
            Ok (Node k cs)
        end
      else Raise IndexError
  | _ => Raise TypeError
  end.

(** recipetree.py:154-178 [__init__], called by the user with the whole struct. *)
Definition new_tree (cats : list category) (s : pystruct) : result rtree :=
  match s with
  | SList l =>
      if Nat.even (length l) then
        match l with
        | i :: ch :: _ => build_node (length cats) i ch
        | _ => Raise IndexError
        end
      else Raise ValueError
  | _ => Raise TypeError                      (* len() of None or of an int *)
  end.

(** recipetree.py:182-196 [paths_to_leaf].  [label] maps a node's index to what is put in the path:
    the index itself (indices=True) or the name of the category. *)
Fixpoint paths_from {A} (label : nat -> A) (prefix : list A) (t : rtree) : list (list A) :=
  match t with
  | Node i [] => [prefix ++ [label i]]
  | Node i ch => concat (map (paths_from label (prefix ++ [label i])) ch)
  end.

(** The category at index [i]; [new_tree] guarantees that the index of every node is in range. *)
Definition cat_at (cats : list category) (i : nat) : category := nth i cats (mkCat "" []).

Definition paths_to_leaf (t : rtree) : list (list nat) := paths_from (fun i => i) [] t.
Definition paths_to_leaf_names (cats : list category) (t : rtree) : list (list string) :=
  paths_from (fun i => cname (cat_at cats i)) [] t.

(** recipetree.py:211-213: [for index in path: result[index] = agent_counts[index] if agent_counts else 1]. *)
Fixpoint fill_recipe (path : list nat) (counts : list nat) (recipe : list nat) : result (list nat) :=
  match path with
  | [] => Ok recipe
  | i :: path' =>
      c <- (match counts with [] => Ok 1%nat | _ => get counts i end) ;;
      _ <- get recipe i ;;
      fill_recipe path' counts (set_nth i c recipe)
  end.

(** recipetree.py:198-214 [recipe_from_path]; [counts = []] stands for None (both are false in Python). *)
Definition recipe_from_path (path : list nat) (num_categories : nat) (counts : list nat) : result (list nat) :=
  fill_recipe path counts (repeat 0%nat num_categories).

(** A list comprehension whose body may raise. *)
Section MapResult.
  Context {A B : Type} (f : A -> result B).
  Fixpoint map_result (l : list A) : result (list B) :=
    match l with
    | [] => Ok []
    | a :: l' => b <- f a ;; bs <- map_result l' ;; Ok (b :: bs)
    end.
End MapResult.

(** recipetree.py:217-223 [recipes]. *)
Definition recipes (num_categories : nat) (t : rtree) : result (list (list nat)) :=
  map_result (fun path => recipe_from_path path num_categories []) (paths_to_leaf t).

(** Python's [[a+b for (a,b) in zip(xs, ys)]]. *)
Fixpoint zip_add (xs ys : list Q) : list Q :=
  match xs, ys with
  | x :: xs', y :: ys' => (x + y) :: zip_add xs' ys'
  | _, _ => []
  end.

(** recipetree.py:229-242 [combined_values]. *)
Fixpoint combined_values (cats : list category) (t : rtree) : list Q :=
  match t with
  | Node i [] => cvalues (cat_at cats i)
  | Node i ch => zip_add (cvalues (cat_at cats i)) (sort_desc (concat (map (combined_values cats) ch)))
  end.

(** Python's [[tuple(flatten(t)) for t in zip(xs, ys)]] for numbers [xs] and (flat) tuples [ys]. *)
Fixpoint zip_cons (xs : list Q) (ys : list (list Q)) : list (list Q) :=
  match xs, ys with
  | x :: xs', y :: ys' => (x :: y) :: zip_cons xs' ys'
  | _, _ => []
  end.

(** recipetree.py:278-294 [combined_values_detailed].  For a leaf Python returns plain numbers; here a
    number is a one-element tuple (flatten and the sort key treat them alike); see [tree_optimal_trade]
    for the one place where the difference shows. *)
Fixpoint detailed_values (cats : list category) (t : rtree) : list (list Q) :=
  match t with
  | Node i [] => map (fun v => [v]) (cvalues (cat_at cats i))
  | Node i ch => zip_cons (cvalues (cat_at cats i)) (sort_by_desc Qsum (concat (map (detailed_values cats) ch)))
  end.

(** recipetree.py:321-332 [optimal_trade]: [sum(t)] of a plain number raises TypeError, so a tree with a
    single node and at least one agent raises. *)
Definition tree_optimal_trade (cats : list category) (t : rtree) : result (list (list Q) * nat * Q) :=
  let values := detailed_values cats t in
  match tchildren t, values with
  | [], _ :: _ => Raise TypeError
  | _, _ =>
      let opt := filter (fun d => Qle_bool 0 (Qsum d)) values in
      Ok (opt, length opt, Qsum (concat opt))
  end.

(** recipetree.py:334-338 [optimal_trade_GFT]. *)
Definition optimal_trade_GFT (cats : list category) (t : rtree) : Q :=
  Qsum (filter (fun v => Qle_bool 0 v) (combined_values cats t)).

(** Number of leaves, used to name the counter objects of the next function. *)
Fixpoint leaves (t : rtree) : nat :=
  match t with
  | Node _ [] => 1
  | Node _ ch => nsum (map leaves ch)
  end.

(** Python's in-place loop [children_values[i] = (children_values[i][0] + self_values[i], children_values[i][1])]
    for i < min of the two lengths, and then the slice [0:min_len]. *)
Fixpoint zip_add_counted (xs : list Q) (ys : list (Q * nat)) : list (Q * nat) :=
  match xs, ys with
  | x :: xs', y :: ys' => (fst y + x, snd y) :: zip_add_counted xs' ys'
  | _, _ => []
  end.

(** The loop over the children of a node (lines 259-261: [children_values = children_values + child....()]) with a
    running number of the first leaf of the next child. *)
Section OverChildren.
  Context {A : Type} (f : nat -> rtree -> list A).
  Fixpoint over_children (first : nat) (ch : list rtree) : list A :=
    match ch with
    | [] => []
    | c :: ch' => f first c ++ over_children (first + leaves c) ch'
    end.
End OverChildren.

(** recipetree.py:245-276 [combined_values_detailed_with_counters].  Every visit of a leaf creates a new counter
    object, shared by its values; the object is named here by the number of the leaf, counted from the left,
    starting at [first].  Line 266 sorts the category's list in place; categories are always sorted already
    (AgentCategory sorts at construction and keeps the order), so the list is left unchanged. *)
Fixpoint counted_values (cats : list category) (first : nat) (t : rtree) : list (Q * nat) :=
  match t with
  | Node i [] => map (fun v => (v, first)) (cvalues (cat_at cats i))
  | Node i ch =>
      zip_add_counted (sort_desc (cvalues (cat_at cats i)))
        (sort_by_desc fst (over_children (counted_values cats) first ch))
  end.

(** recipetree.py:304-319: the value of a counter after the first loop: how many deals share it. *)
Definition counter_of (opt : list (Q * nat)) (leaf : nat) : nat :=
  length (filter (fun v => Nat.eqb (snd v) leaf) opt).

(** recipetree.py:307-318: the second loop, from its variables (kmin, kmax, count, gft).  The numeral 99999 is the
    kmin reported for an empty trade. *)
Fixpoint counters_loop (opt l : list (Q * nat)) (kmin kmax count : N) (gft : Q) : N * Q * N * N :=
  match l with
  | [] => (count, gft, kmin, kmax)
  | v :: l' =>
      let c := N.of_nat (counter_of opt (snd v)) in
      if N.ltb 0 c then
        counters_loop opt l' (if N.ltb c kmin then c else kmin) (if N.ltb kmax c then c else kmax)
          (count + 1)%N (gft + fst v)
      else counters_loop opt l' kmin kmax count gft
  end.

(** recipetree.py:296-319 [optimal_trade_with_counters]. *)
Definition optimal_trade_with_counters (cats : list category) (t : rtree)
  : list (Q * nat) * (N * Q * N * N) :=
  let opt := filter (fun v => Qle_bool 0 (fst v)) (counted_values cats 0 t) in
  let kmin0 := match opt with [] => 99999%N | v :: _ => N.of_nat (counter_of opt (snd v)) end in
  (opt, counters_loop opt opt kmin0 0%N 0%N 0).

(** recipetree.py:341-425 [largest_categories] with indices=True: (largest size, combined size, categories). *)
Fixpoint largest_categories (cats : list category) (t : rtree) : nat * nat * list nat :=
  match t with
  | Node i ch =>
      let self_size := csize (cat_at cats i) in
      let children_size := nsum (map (fun c => csize (cat_at cats (tindex c))) ch) in
      if (children_size <? self_size)%nat || (children_size =? 0)%nat
      then (self_size, self_size, [i])
      else
        let rs := map (largest_categories cats) ch in
        (fold_left (fun m r => Nat.max m (fst (fst r))) rs 0%nat, self_size, concat (map snd rs))
  end.

(** recipetree.py:428-439 [num_of_deals]. *)
Fixpoint tree_num_of_deals (cats : list category) (t : rtree) : nat :=
  match t with
  | Node i [] => csize (cat_at cats i)
  | Node i ch => Nat.min (nsum (map (tree_num_of_deals cats) ch)) (csize (cat_at cats i))
  end.

(** Python's [max] of a list of ints; [None] stands for the ValueError on an empty list. *)
Fixpoint max_list (l : list nat) : option nat :=
  match l with
  | [] => None
  | x :: l' => match max_list l' with None => Some x | Some m => Some (Nat.max x m) end
  end.

(** recipetree.py:442-482 [num_of_deals_explained]: (number of deals, kmin, kmax).  The explanation text is
    in Model_Report.v.  Line 449 [prices[self.category_index]] raises IndexError if the list of prices is too short;
    [min]/[max] of the children's values (lines 462-463) are of non-empty lists. *)
Fixpoint deals_explained (cats : list category) (prices : list Q) (t : rtree) : result (nat * nat * nat) :=
  match t with
  | Node i ch =>
      let self := csize (cat_at cats i) in
      _ <- get prices i ;;
      match ch with
      | [] => Ok (self, self, self)
      | _ =>
          rs <- (fix go (ch : list rtree) : result (list (nat * nat * nat)) :=
                   match ch with
                   | [] => Ok []
                   | c :: ch' => r <- deals_explained cats prices c ;; rs <- go ch' ;; Ok (r :: rs)
                   end) ch ;;
          match min_list (map (fun r => snd (fst r)) rs), max_list (map snd rs) with
          | Some kmin, Some kmax =>
              Ok (Nat.min (nsum (map (fun r => fst (fst r)) rs)) self, kmin, kmax)
          | _, _ => Raise ValueError
          end
      end
  end.
