(** * Specification for small changes of the values (C113) *)

From Coq Require Import List QArith Qabs Permutation.
From Verif Require Import Base Model_Agents Model_Market.
Import ListNotations.
Open Scope Q_scope.

(** The same number of agents, each with a value that differs from the old one by at most [eps] (the order does not matter). *)
Definition category_near (eps : Q) (c c' : category) : Prop :=
  exists l, Permutation (cvalues c') l /\ Forall2 (fun v v' => Qabs (v' - v) <= eps) (cvalues c) l.

Definition near (eps : Q) (m m' : market) : Prop := Forall2 (category_near eps) m m'.

(** How much one category moves when all others move by one unit and the budget stays balanced:
    the others take [nsum recipe - r] agents for [r] agents of this category. *)
Definition leverage (recipe : list nat) (j : nat) : nat := Nat.max (nth j recipe 0%nat) (nsum recipe - nth j recipe 0%nat).
