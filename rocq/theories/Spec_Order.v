(** * Specification notions for C48 *)

From Coq Require Import List QArith Permutation.
From Verif Require Import Base Model_Agents Model_Market.
Import ListNotations.

(** Two markets with the same categories, whose agents are listed in different orders. *)
Definition same_agents (m m' : market) : Prop :=
  Forall2 (fun c c' => cname c = cname c' /\ Permutation (cvalues c) (cvalues c')) m m'.

(** All values are written in lowest terms, as every rational number can be (see Qred): equal numbers are then
    identical terms, like equal Python numbers. *)
Definition lowest_terms (m : market) : Prop := Forall (fun c => canonical (cvalues c)) m.
