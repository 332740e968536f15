(** * Categories that complement each other (C112) *)

From Coq Require Import List.
From Verif Require Import Model_RecipeTree Spec_RecipeTree.

(** Some recipe of the tree (the categories on a path from the root to a leaf) takes both categories. *)
Definition related (x : rtree) (j c : nat) : Prop := exists a, is_path x a /\ In j a /\ In c a.
