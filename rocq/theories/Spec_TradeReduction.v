(** * Specification notions for trade reduction (C17 - C21, C54) *)

From Coq Require Import String List Arith QArith Permutation.
From Verif Require Import Base Model_Agents Model_Trade Model_Market.
Import ListNotations.
Open Scope Q_scope.

(** Two lists contain the same numbers, with the same multiplicities (1/2 and 2/4 are the same number). *)
Definition same_values (l l' : list Q) : Prop := exists p, Permutation l p /\ Forall2 Qeq p l'.

(** [used] is a sub-multiset of [avail]. *)
Definition included (used avail : list Q) : Prop := exists rest, same_values (used ++ rest) avail.

(** Every recipe entry is 1. *)
Definition all_ones (recipe : list nat) : Prop := Forall (fun r => r = 1%nat) recipe.

(** Every recipe entry is positive. *)
Definition all_positive (recipe : list nat) : Prop := Forall (fun r => (0 < r)%nat) recipe.

(** Every recipe entry is 1, except perhaps the last one, which is positive. *)
Definition ones_but_last (recipe : list nat) : Prop := exists n r, (0 < r)%nat /\ recipe = repeat 1%nat n ++ [r].

(** The scarcest category has no spare agent: if the agents are enough for [s] procurement sets and not
    for more, then some category has exactly the agents for [s] procurement sets. *)
Definition no_spare (m : market) (recipe : list nat) : Prop := exists s,
  (forall i c r, nth_error m i = Some c -> nth_error recipe i = Some r -> (s * r <= csize c)%nat)
  /\ exists i c r, nth_error m i = Some c /\ nth_error recipe i = Some r /\ (0 < r)%nat /\ csize c = (s * r)%nat.
