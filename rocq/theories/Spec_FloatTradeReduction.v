(** * Specification: which deals are worthwhile, and equal prices (C105) *)

From Coq Require Import List QArith.
From Coq Require Import SpecFloat.
From Verif Require Import Model_Float Spec_FloatMcAfee.
Import ListNotations.
Open Scope Q_scope.

(** The exact gain of a deal is positive, or 0 if deals of gain 0 are included. *)
Definition worth (including_gft_0 : bool) (x y : double) : Prop :=
  0 < dval x + dval y \/ (including_gft_0 = true /\ dval x + dval y == 0).

(** No prices in either protocol, or the same two numbers. *)
Definition same_prices (P : option (list double)) (Q : option (list Q)) : Prop :=
  match P, Q with
  | None, None => True
  | Some p, Some q => length p = 2%nat /\ Forall2 (fun x v => v == dval x) p q
  | _, _ => False
  end.
