(** * Specification: what an agent can gain in the trade-reduction protocol with doubles (C117) *)

From Coq Require Import List ZArith QArith Permutation.
From Coq Require Import SpecFloat.
From Verif Require Import Base Model_Float Spec_Float Spec_FloatMcAfee.
Import ListNotations.
Open Scope Q_scope.

(** An agent of category number [i] with the true value [v] reports [report]; the reports of its category are [reports], the reports of those who trade
    are [traders], and the prices are [P] ([None]: the protocol found no prices). The agent gains its value less the price of its category if it is
    among those who trade, and 0 if it is among the others. (When several agents report the same number, it may be any of them: the gain may then be
    one of two.) *)
Definition reduction_gain (i : nat) (reports traders : list double) (P : option (list double)) (report v : double) (u : Q) : Prop :=
  (In report traders /\ exists prices price, P = Some prices /\ nth_error prices i = Some price /\ u == dval v - dval price)
  \/ ((exists others, Permutation (traders ++ others) reports /\ In report others) /\ u == 0).
