(** * What one agent can do to the outcome of McAfee's protocol with the heuristic price (C119) *)

From Coq Require Import List Arith QArith.
Import ListNotations.
Open Scope Q_scope.

(** All these values are values of buyers (at least 0), or all are values of sellers (less than 0). *)
Definition one_side (values : list Q) : Prop :=
  Forall (fun x => 0 <= x) values \/ Forall (fun x => x < 0) values.

(** The ones are values of buyers and the others of sellers, or the other way round. *)
Definition opposite_sides (own other : list Q) : Prop :=
  (Forall (fun x => 0 <= x) own /\ Forall (fun x => x < 0) other)
  \/ (Forall (fun x => x < 0) own /\ Forall (fun x => 0 <= x) other).
