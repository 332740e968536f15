(** * Specification: doubles as exact numbers (C100) *)

From Coq Require Import String List Arith ZArith QArith Qpower.
From Coq Require Import SpecFloat.
From Verif Require Import Base Model_Agents Model_Market Model_Float Spec_Float.
Import ListNotations.
Open Scope Q_scope.

(** The number that a finite double stands for. *)
Definition dval (x : double) : Q :=
  match x with
  | S754_finite s m e => inject_Z (if s then Zneg m else Zpos m) * Qpower 2 e
  | _ => 0
  end.

(** The market with the same values, as exact numbers. *)
Definition exact_market (cats : list (list double)) : market := map (fun c => mkCat "agent" (map dval c)) cats.

(** An integer that is small enough. *)
Definition small_int (x : double) : Prop := finite_double x /\ exists z, dval x == inject_Z z /\ (Z.abs z < 2 ^ 52)%Z.
