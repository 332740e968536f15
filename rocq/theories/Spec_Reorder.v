(** * Specification for the order of the categories (C109) *)

From Coq Require Import String List Arith Permutation.
From Verif Require Import Model_Agents.
Import ListNotations.

(** [order] lists the numbers 0, 1, ..., n-1 in some order; [reorder d order l] is the list [l] in that order
    (place [c] of the new list holds what was at place [nth c order]). *)
Definition is_order (n : nat) (order : list nat) : Prop := Permutation order (seq 0 n).
Definition reorder {A} (d : A) (order : list nat) (l : list A) : list A := map (fun i => nth i l d) order.

(** Fills the argument "default" of [reorder] and [nth]; no such category is ever in a market below. *)
Definition no_category : category := mkCat "" [].
