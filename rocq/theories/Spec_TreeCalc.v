(** * Specification notions for C50 and C51 *)

From Coq Require Import List Arith.
From Verif Require Import Base Model_RecipeTree.
Import ListNotations.

(** The nested list that describes a tree: [index, None] for a leaf, [index, children] otherwise, where children is the
    concatenation of the lists of the children. *)
Fixpoint struct_list (t : rtree) : list pystruct :=
  match t with
  | Node i [] => [SInt i; SNone]
  | Node i ch => [SInt i; SList (concat (map struct_list ch))]
  end.

Definition struct_of (t : rtree) : pystruct := SList (struct_list t).

(** Largest element of a list of numbers (0 for the empty list). *)
Definition max_of (l : list nat) : nat := fold_right Nat.max 0 l.

(** Sum of the counts of some categories. *)
Definition count_sum (counts : list nat) (indices : list nat) : nat := nsum (map (fun i => nth i counts 0) indices).

(** [pieces_of l pieces]: the pieces are consecutive and disjoint parts of [l], from its start on. *)
Definition pieces_of {A} (l : list A) (pieces : list (list A)) : Prop := exists rest, l = (concat pieces ++ rest)%list.
