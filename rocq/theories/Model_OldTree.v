(** * Model of recipetree.old.py

    The file is an earlier version of recipetree.py.  Its constructor (lines 150-173), [paths_to_leaf] (177-191), [combined_values]
    (221-234), [combined_values_detailed] (237-253) and [num_of_deals] (363-374) have the same text as in recipetree.py, up to the
    parameter agent_counts that the new constructor never uses, and are modelled by [new_tree], [paths_to_leaf], [combined_values],
    [detailed_values] and [tree_num_of_deals] of Model_RecipeTree.v.  The rest differs. *)

From Coq Require Import String List Arith QArith.
From Verif Require Import Base Model_Agents Model_RecipeTree Model_Report.
Import ListNotations.
Open Scope Q_scope.

(** recipetree.old.py:204-205: [for index in path: result[index] = 1]. *)
Fixpoint old_fill_recipe (path : list nat) (recipe : list nat) : result (list nat) :=
  match path with
  | [] => Ok recipe
  | i :: path' => _ <- get recipe i ;; old_fill_recipe path' (set_nth i 1%nat recipe)
  end.

(** recipetree.old.py:193-206 [recipe_from_path]. *)
Definition old_recipe_from_path (path : list nat) (num_categories : nat) : result (list nat) :=
  old_fill_recipe path (repeat 0%nat num_categories).

(** recipetree.old.py:209-215 [recipes]. *)
Definition old_recipes (num_categories : nat) (t : rtree) : result (list (list nat)) :=
  map_result (fun path => old_recipe_from_path path num_categories) (paths_to_leaf t).

(** Python's [0 < v]. *)
Definition positive (v : Q) : bool := negb (Qle_bool v 0).

(** recipetree.old.py:255-266 [optimal_trade]; as in recipetree.py, [sum] of a plain number raises TypeError for a single node with
    agents. *)
Definition old_optimal_trade (cats : list category) (t : rtree) : result (list (list Q) * nat * Q) :=
  let values := detailed_values cats t in
  match tchildren t, values with
  | [], _ :: _ => Raise TypeError
  | _, _ =>
      let opt := filter (fun d => positive (Qsum d)) values in
      Ok (opt, length opt, Qsum (concat opt))
  end.

(** recipetree.old.py:268-272 [optimal_trade_GFT]. *)
Definition old_optimal_trade_GFT (cats : list category) (t : rtree) : Q :=
  Qsum (filter positive (combined_values cats t)).

(** recipetree.old.py:347-351: one round of the loop over the children, on (largest size, combined size, categories). *)
Definition old_combine (acc r : nat * nat * list nat) : nat * nat * list nat :=
  (Nat.max (fst (fst acc)) (fst (fst r)), (snd (fst acc) + snd (fst r))%nat, (snd acc ++ snd r)%list).

(** recipetree.old.py:275-360 [largest_categories] with indices=True: (largest size, combined size, categories). *)
Fixpoint old_largest_categories (cats : list category) (t : rtree) : nat * nat * list nat :=
  match t with
  | Node i ch =>
      let self := csize (cat_at cats i) in
      match ch with
      | [] => (self, self, [i])
      | _ =>
          let '(largest, combined, categories) := fold_left old_combine (map (old_largest_categories cats) ch) (0%nat, 0%nat, []) in
          if (self <=? combined)%nat then (largest, self, categories) else (self, combined, [i])
      end
  end.

Open Scope string_scope.

(** recipetree.old.py:377-409 [num_of_deals_explained]: (number of deals, text).  Unlike in recipetree.py, line 408 adds the number
    of deals at every node of the tree. *)
Fixpoint old_explained (show : Q -> string) (cats : list category) (prices : list Q) (t : rtree) : result (nat * string) :=
  match t with
  | Node i ch =>
      let self := csize (cat_at cats i) in
      let name := cname (cat_at cats i) in
      p <- get prices i ;;
      r <- match ch with
           | [] => Ok (self, name ++ ": " ++ decimal self ++ " potential deals, price=" ++ show p ++ nl)
           | _ =>
               rs <- map_result (old_explained show cats prices) ch ;;
               let total := nsum (map fst rs) in
               let names := String.concat " + " (map (fun c => cname (cat_at cats (tindex c))) ch) in
               let d := Nat.min total self in
               Ok (d,
                   String.concat "" (map snd rs)
                   ++ (if (d =? self)%nat
                       then name ++ ": all " ++ decimal self ++ " traders selected, price=" ++ show p ++ nl
                       else name ++ ": " ++ decimal d ++ " out of " ++ decimal self ++ " traders selected, price=" ++ show p ++ nl)
                   ++ (if (d =? total)%nat
                       then names ++ ": all " ++ decimal total ++ " traders selected" ++ nl
                       else names ++ ": " ++ decimal d ++ " out of " ++ decimal total ++ " traders selected" ++ nl))
           end ;;
      Ok (fst r, snd r ++ decimal (fst r) ++ " deals overall" ++ nl)
  end.
