(** * Specification: what an agent can gain in McAfee's protocol with doubles (C116) *)

From Coq Require Import List ZArith QArith Permutation.
From Coq Require Import SpecFloat.
From Verif Require Import Base Model_Float Spec_Float Spec_FloatMcAfee.
Import ListNotations.
Open Scope Q_scope.

(** An agent with the true value [v] reports [report]; the reports of its category are [reports], the reports of those who trade are [traders],
    and the price of the category is [price]. The agent gains its value less the price if it is among those who trade, and 0 if it is among the
    others. (When several agents report the same number, it may be any of them: the gain may then be one of two.) *)
Definition possible_gain (reports traders : list double) (price report v : double) (u : Q) : Prop :=
  (In report traders /\ u == dval v - dval price)
  \/ ((exists others, Permutation (traders ++ others) reports /\ In report others) /\ u == 0).
