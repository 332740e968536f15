(** * Specification: the agents a mechanism leaves out, and what they could still gain among themselves (C82) *)

From Coq Require Import List QArith.
From Verif Require Import Base Model_Agents Model_Market Spec_Market Spec_TradeReduction.
Import ListNotations.
Open Scope Q_scope.

(** [out] holds, category by category, the agents of the market [m] that are not in the categories [cats] (values are compared
    as numbers). *)
Definition left_out (m : market) (cats : list category) (out : market) : Prop :=
  length cats = length m /\ length out = length m
  /\ forall i c0 c e, nth_error m i = Some c0 -> nth_error cats i = Some c -> nth_error out i = Some e ->
       same_values (cvalues c ++ cvalues e) (cvalues c0).

(** No set of deals between the agents left out has a positive gain. *)
Definition nothing_left (m : market) (recipe : list nat) (cats : list category) : Prop :=
  forall out D, left_out m cats out -> feasible out recipe D -> total_gain D <= 0.

(** No agent left out would like to trade at the prices: his value is at most the price of his category. *)
Definition no_envy (m : market) (cats : list category) (prices : list Q) : Prop :=
  forall out i e p v, left_out m cats out -> nth_error out i = Some e -> nth_error prices i = Some p ->
    In v (cvalues e) -> v <= p.
