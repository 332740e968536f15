(** * C124: the agents who left, and the deals they could make among themselves *)

From Coq Require Import List ZArith QArith Permutation.
From Verif Require Import Base Model_Float Spec_Float Spec_FloatMcAfee.
Import ListNotations.
Open Scope Q_scope.

(** [outs] holds, category by category, the agents of the market [cats] that are not among the remaining ones [ct]. *)
Definition leavers (cats ct outs : list (list double)) : Prop :=
  length outs = length cats /\
  forall i l c o, nth_error cats i = Some l -> nth_error ct i = Some c -> nth_error outs i = Some o -> Permutation l (c ++ o).

(** A deal of agents of [outs]: as many of each category as the recipe says. *)
Definition deal_of (outs : list (list double)) (recipe : list nat) (deal : list (list double)) : Prop :=
  map (@length double) deal = recipe /\ Forall2 (@incl double) deal outs.

(** The gain of a deal: the sum of the values, not rounded. *)
Definition deal_gain (deal : list (list double)) : Q := fold_right Qplus 0 (map dval (concat deal)).
