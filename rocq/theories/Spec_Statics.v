(** * Better markets (C96) *)

From Coq Require Import List Arith QArith Permutation.
From Verif Require Import Base Model_Agents Model_Market.
Import ListNotations.
Open Scope Q_scope.

(** A category is at least as good as another one: each of the old agents is still there, with a value that is at least what it
    was, and there may be more agents. *)
Definition category_improves (c c' : category) : Prop :=
  exists kept extra, Permutation (cvalues c') (kept ++ extra) /\ Forall2 Qle (cvalues c) kept.

(** The same agents, each with a value that is at least what it was. *)
Definition category_raised (c c' : category) : Prop :=
  exists kept, Permutation (cvalues c') kept /\ Forall2 Qle (cvalues c) kept.

Definition improves (m m' : market) : Prop := Forall2 category_improves m m'.
Definition raised (m m' : market) : Prop := Forall2 category_raised m m'.

(** The sum of the values of all agents. *)
Definition total_value (m : market) : Q := Qsum (map (fun c => Qsum (cvalues c)) m).
