(** * Specification: what the experiment programs may draw (C99) *)

From Coq Require Import String List Arith NArith ZArith QArith.
From Verif Require Import Base Model_Agents Model_Market Model_RecipeTree Model_Experiment Model_Drivers Spec_Market Spec_TreeAuction Spec_Experiment.
Import ListNotations.
Open Scope Q_scope.
Open Scope string_scope.

(** The random markets of a call: for every number of agents, one market for each iteration. *)
Definition call_samples (c : call) (samples : list (nat * list market)) : Prop :=
  map fst samples = c_sizes c
  /\ Forall (fun s => length (snd s) = c_iterations c /\ Forall (random_market (fst s) (c_recipe c) (c_ranges c)) (snd s)) samples.

(** The random markets of comparing_sbbs.py for one recipe. *)
Definition sbb_samples (run : list nat * list (list market)) : Prop :=
  length (snd run) = length sbb_sizes
  /\ Forall2 (fun n ms => length ms = 10%nat /\ Forall (random_market n (fst run) (scaled_ranges (fst run) sbb_ranges)) ms) sbb_sizes (snd run).

(** The random markets of experiment_recpietree.py for [n]: [n] buyers with values between 2 and 2000; [n/2] agents in each of three
    categories, with values between -2000 and -2, and twice between -1000 and -1. *)
Definition paper_market (n : nat) (m : market) : Prop :=
  exists d0 d1 d2 d3, m = map (uniformly_random "agent") [d0; d1; d2; d3]
  /\ length d0 = n /\ length d1 = Nat.div n 2 /\ length d2 = Nat.div n 2 /\ length d3 = Nat.div n 2
  /\ (forall x, In x d0 -> 2 <= x <= 2000) /\ (forall x, In x d1 -> -(2000) <= x <= -(2))
  /\ (forall x, In x d2 -> -(1000) <= x <= -(1)) /\ (forall x, In x d3 -> -(1000) <= x <= -(1)).

Definition paper_samples (samples : list (nat * list market)) : Prop :=
  map fst samples = tree_sizes /\ Forall (fun s => length (snd s) = 50%nat /\ Forall (paper_market (fst s)) (snd s)) samples.
