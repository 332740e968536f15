(** * Specification of trades in a single-recipe market (C03 - C06)

    Independent of the algorithm: a deal gives, for each category, the list of the values of
    the agents that take part in it. *)

From Coq Require Import String List Arith QArith Permutation Sorted.
From Verif Require Import Base Model_Agents Model_Market.
Import ListNotations.
Open Scope Q_scope.

Definition deal : Type := list (list Q).

(** A deal has r_i agents from category i. *)
Definition deal_ok (recipe : list nat) (d : deal) : Prop :=
  Forall2 (fun r agents => length agents = r) recipe d.

(** All agents of category [i] that take part in some deal. *)
Definition agents_of (i : nat) (deals : list deal) : list Q :=
  concat (map (fun d => nth i d []) deals).

(** [used] is a sub-multiset of [avail]. *)
Definition sub_bag (used avail : list Q) : Prop := exists rest, Permutation (used ++ rest) avail.

(** A set of deals that uses every agent at most once. *)
Definition feasible (m : market) (recipe : list nat) (deals : list deal) : Prop :=
  Forall (deal_ok recipe) deals
  /\ forall i c, nth_error m i = Some c -> sub_bag (agents_of i deals) (cvalues c).

(** Total value of the agents in a deal / in a list of deals. *)
Definition deal_gain (d : deal) : Q := Qsum (map Qsum d).
Definition total_gain (deals : list deal) : Q := Qsum (map deal_gain deals).

(** A feasible set of deals with the largest possible gain. *)
Definition optimal (m : market) (recipe : list nat) (deals : list deal) : Prop :=
  feasible m recipe deals
  /\ forall deals', feasible m recipe deals' -> total_gain deals' <= total_gain deals.

(** The iteration cap of [optimal_trade] does not matter: some category that the recipe really
    uses has at most [cap] times its recipe count agents. *)
Definition cap_suffices (cap : nat) (m : market) (recipe : list nat) : Prop :=
  exists i c r, nth_error m i = Some c /\ nth_error recipe i = Some r
    /\ (0 < r)%nat /\ (csize c <= cap * r)%nat.

(** Every category is sorted in descending order (as the constructor of AgentCategory makes it). *)
Definition sorted_market (m : market) : Prop := Forall (fun c => desc (cvalues c)) m.
