(** * Specification notions for the old multi-recipe auction (C73, C74) *)

From Coq Require Import String List Arith QArith Permutation Sorted.
From Verif Require Import Base Model_Agents Model_Trade Model_Prices Model_Market Model_RecipeTree Model_TreeAuction Model_OldMulti
  Spec_TreeAuction.
Import ListNotations.
Open Scope Q_scope.

(** [l'] is [l] without some of its elements. *)
Inductive sublist {A : Type} : list A -> list A -> Prop :=
| sub_nil : sublist [] []
| sub_keep : forall a l' l, sublist l' l -> sublist (a :: l') (a :: l)
| sub_skip : forall a l' l, sublist l' l -> sublist l' (a :: l).

(** What the auction needs of [calculate_initial_prices] (prices.py:237-272: a linear program whose variables, the common sum
    and the prices, are all at most [bound]): a feasible point, or ValueError if it finds none. *)
Definition feasible_prices (n : nat) (recipes : list (list nat)) (bound : Q) (prices : list Q) : Prop :=
  initial_prices_ok n recipes bound prices /\ forall r, In r recipes -> dot prices r <= bound.

Definition finds_prices (n : nat) (bound : Q) (lp : list (list nat) -> result (list Q)) : Prop :=
  forall recipes, match lp recipes with
  | Ok prices => feasible_prices n recipes bound prices
  | Raise e => e = ValueError
  | Timeout => False
  end.

(** [finds_prices], and the program does find a feasible point for any non-empty part of [rs] that has one. *)
Definition solves_prices (n : nat) (bound : Q) (lp : list (list nat) -> result (list Q)) (rs : list (list nat)) : Prop :=
  finds_prices n bound lp
  /\ forall recipes, recipes <> [] -> sublist recipes rs -> (exists prices, feasible_prices n recipes bound prices) ->
       exists prices, lp recipes = Ok prices.

(** Python iterates over all elements of a set, each once, in some order. *)
Definition set_order (iter : list nat -> list nat) : Prop := forall l, Permutation (iter l) l.

(** Increasing sets are iterated in increasing order (as Python does with the sets of ints below 8). *)
Definition keeps_order (iter : list nat -> list nat) : Prop := forall l, StronglySorted lt l -> iter l = l.

(** Recipe number [k] contains category [c]. *)
Definition contains (recipes : list (list nat)) (k c : nat) : Prop :=
  (k < length recipes)%nat /\ (0 < nth c (nth k recipes []) 0)%nat.

(** No category belongs to two recipes. *)
Definition disjoint (recipes : list (list nat)) : Prop :=
  forall c j k, contains recipes j c -> contains recipes k c -> j = k.

(** Some category belongs to all recipes. *)
Definition share_a_category (recipes : list (list nat)) : Prop :=
  exists c, forall k, (k < length recipes)%nat -> contains recipes k c.

(** Category [c] belongs to recipe number [k] only. *)
Definition unshared (recipes : list (list nat)) (k c : nat) : Prop :=
  contains recipes k c /\ forall j, contains recipes j c -> j = k.

(** [deals] deals of each recipe can be made with the agents of [cats]. *)
Definition can_make (cats : list category) (recipes : list (list nat)) (deals : list nat) : Prop :=
  length deals = length recipes
  /\ forall c cat, nth_error cats c = Some cat ->
       (nsum (map (fun k => nth c (nth k recipes []) 0 * nth k deals 0)%nat (seq 0 (length recipes))) <= csize cat)%nat.

(** A recipe with 0s and 1s, not all 0. *)
Definition usable (n : nat) (r : list nat) : Prop := binary_recipe n r /\ exists c, (0 < nth c r 0)%nat.

(** What the trade [t] of the multi-recipe auction, which ended with the recipes [rest], has in common with the trade [tr] of the
    auction of [r] alone: if [r] is still there, the categories of [r] have the same agents, and the same prices if there are
    deals; if [r] was left out, the other auction has no deals. *)
Definition recipe_outcome (t : multi_trade) (rest : list (list nat)) (r : list nat) (tr : trade) : Prop :=
  (In r rest -> forall c, (0 < nth c r 0)%nat ->
     nth_error (mt_cats t) c = nth_error (tcats tr) c
     /\ ((0 < num_of_deals tr)%nat -> exists ps, tprices tr = Some ps /\ nth c (mt_prices t) 0 == nth c ps 0))
  /\ (~ In r rest -> num_of_deals tr = 0%nat).
