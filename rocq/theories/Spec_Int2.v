(** * Specification notions for C61 *)

From Coq Require Import List Arith.
From Verif Require Import Base Model_Agents Model_RecipeTree Model_IntTree.
Import ListNotations.
Open Scope nat_scope.

(** [k] is the smallest number of deals with [count] agents each in which [size] agents can all take part. *)
Definition deals_needed (size count k : nat) : Prop := size <= k * count /\ forall k', size <= k' * count -> k <= k'.

(** [n] is the number of deals needed for all the agents of the children's categories. *)
Definition children_deals (cats : list category) (counts : list nat) (ch : list rtree) (n : nat) : Prop :=
  exists ks, Forall2 (fun c k => deals_needed (csize (cat_at cats (tindex c))) (count_at counts (tindex c)) k) ch ks /\ n = nsum ks.
