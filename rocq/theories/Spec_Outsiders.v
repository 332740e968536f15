(** * Specification for agents whose values are below the prices (C114) *)

From Coq Require Import String List Arith QArith Permutation.
From Verif Require Import Base Model_Agents Model_Market.
Import ListNotations.
Open Scope Q_scope.

(** Two categories differ only in agents with values below [p]: [common] are in both, and all others are below. *)
Definition category_differs_below (p : Q) (c c' : category) : Prop :=
  cname c' = cname c
  /\ exists common low low', Permutation (cvalues c) (common ++ low) /\ Permutation (cvalues c') (common ++ low')
     /\ Forall (fun v => v < p) low /\ Forall (fun v => v < p) low'.

(** Two markets differ only in agents with values below the price of their category. *)
Definition differ_below (prices : list Q) (m m' : market) : Prop :=
  length m' = length m
  /\ forall j, (j < length m)%nat -> category_differs_below (nth j prices 0) (nth j m (mkCat "" [])) (nth j m' (mkCat "" [])).

(** The same name and the same values. *)
Definition same_agents (c c' : category) : Prop := cname c' = cname c /\ Forall2 Qeq (cvalues c) (cvalues c').
