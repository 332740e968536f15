(** * Specification: where ties can stop the tree auction (C38) *)

From Coq Require Import List QArith.
From Verif Require Import Base Model_Agents Model_RecipeTree Spec_RecipeTree.
Import ListNotations.
Open Scope Q_scope.

(** The category [i] is deep and inner: it has children, and it is neither the root nor a child of the root. *)
Definition deep_inner (t : rtree) (i : nat) : Prop :=
  exists a x ch, In a (tchildren t) /\ subtree a x /\ In (Node i ch) (tchildren x) /\ ch <> [].

(** No two agents of the category have the same value. *)
Definition distinct_values (c : category) : Prop :=
  forall l1 x l2 y l3, cvalues c = l1 ++ x :: l2 ++ y :: l3 -> ~ x == y.
