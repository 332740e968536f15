(** * Specification of changes of a market by agents joining it (C83) *)

From Coq Require Import String List QArith Permutation Sorted.
From Verif Require Import Base Model_Agents Model_Market.
Import ListNotations.
Open Scope Q_scope.

(** [c'] is category [c] after the agent [v] has joined it. *)
Definition joined (c : category) (v : Q) (c' : category) : Prop :=
  cname c' = cname c /\ desc (cvalues c') /\ Permutation (cvalues c') (v :: cvalues c).

(** Two categories with the same name and the same agents in the same order. *)
Definition same_category (c c' : category) : Prop :=
  cname c = cname c' /\ Forall2 Qeq (cvalues c) (cvalues c').
