(** * C123: the same market, listed in another order *)

From Coq Require Import List Permutation SpecFloat.
From Verif Require Import Base Model_Float Spec_Float.
Import ListNotations.

(** The same categories, each with the same agents in any order. *)
Definition relisted (cats cats' : list (list double)) : Prop := Forall2 (@Permutation double) cats cats'.

(** Finite, and not the double -0.0 (Python's sort takes it for 0.0). *)
Definition ordinary (x : double) : Prop := finite_double x /\ x <> S754_zero true.
