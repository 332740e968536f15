(** * Specification vocabulary for floating point (C64, C65) *)

From Coq Require Import List Arith ZArith Sorted.
From Coq Require Import SpecFloat.
From Verif Require Import Base Model_Float.
Import ListNotations.

(** A finite binary64 number (no infinity, no NaN). *)
Definition finite_double (x : double) : Prop :=
  valid_binary 53 1024 x = true /\ match x with S754_zero _ | S754_finite _ _ _ => True | _ => False end.

(** A list of doubles in descending order, as AgentCategory keeps them. *)
Definition fdesc (l : list double) : Prop := StronglySorted (fun a b => fle b a = true) l.

(** The number [z], as a double: equal in Python's sense ([0.0 == -0.0]). *)
Definition is_int (z : Z) (x : double) : Prop := SFeqb x (fint z) = true.
