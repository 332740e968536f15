(** * Specification for trees that differ only in the numbers of the categories and in the order of the children (C110) *)

From Coq Require Import List Arith Permutation.
From Verif Require Import Model_RecipeTree.
Import ListNotations.

(** [renumbered order t t']: the tree [t'], whose numbers refer to a market listed in another order (place [i] of the new list
    holds the category at place [nth i order] of the old one), is the tree [t], up to the order of the children of each node. *)
Inductive renumbered (order : list nat) : rtree -> rtree -> Prop :=
| renumbered_node : forall i ch shuffled ch', i < length order -> Permutation ch shuffled ->
    Forall2 (renumbered order) shuffled ch' -> renumbered order (Node (nth i order 0) ch) (Node i ch').
