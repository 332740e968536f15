(** * C122: markets that differ in the agents who stay in only *)

From Coq Require Import List ZArith QArith.
From Coq Require Import SpecFloat.
From Verif Require Import Base Model_Float Spec_Float Spec_FloatMcAfee.
Import ListNotations.

(** In the market [l], the agents [c] are the best ones and stay in; in [l'] there are as many agents [top] in their place, each at least as good
    as some agent of [c]; the others ([rest]) are the same.  ([f_sort]: the descending order of AgentCategory.) *)
Definition better_inside (l l' c top : list double) : Prop :=
  exists rest, f_sort l = c ++ rest /\ f_sort l' = top ++ rest /\ length top = length c
  /\ forall y, In y top -> exists x, In x c /\ (dval x <= dval y)%Q.
