(** * Specification for C77: groups of agents who misreport together *)

From Coq Require Import List Arith QArith.
From Verif Require Import Model_Agents Model_Market.
Import ListNotations.
Open Scope Q_scope.

(** The value that agent [j] of category [i] has (or reports), in the order in which the market lists them. *)
Definition agent_value (m : market) (i j : nat) : Q := nth j (nth i (map cvalues m) []) 0.

Definition is_agent (m : market) (i j : nat) : Prop := (i < length m)%nat /\ (j < length (nth i (map cvalues m) []))%nat.

(** The same agents, with other values. *)
Definition same_agents (m m' : market) : Prop := map csize m = map csize m'.

(** A ranking of the agents of a category, from the best (0) to the worst: agents with a higher value come first; those with
    equal values may come in any order. *)
Definition ranking (values : list Q) (rank : nat -> nat) : Prop :=
  (forall j, j < length values -> rank j < length values)%nat
  /\ (forall j k, j < length values -> k < length values -> rank j = rank k -> j = k)%nat
  /\ (forall j k, (j < length values)%nat -> (k < length values)%nat -> nth j values 0 < nth k values 0 -> (rank k < rank j)%nat).

Definition rankings (m : market) (rank : nat -> nat -> nat) : Prop :=
  forall i, (i < length m)%nat -> ranking (nth i (map cvalues m) []) (rank i).

(** Agent [j] of category [i] has the value of the market [m], but reports that of [m']. *)
Definition misreports (m m' : market) (i j : nat) : Prop :=
  is_agent m i j /\ ~ agent_value m i j == agent_value m' i j.
