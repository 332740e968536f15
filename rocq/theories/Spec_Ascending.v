(** * Specification notions for the ascending auction (C10 - C16) *)

From Coq Require Import String List Arith QArith Permutation.
From Verif Require Import Base Model_Agents Model_Trade Model_Prices Model_Market Model_Ascending.
Import ListNotations.
Open Scope Q_scope.

(** All agents have values at least [b]. *)
Definition values_at_least (b : Q) (m : market) : Prop :=
  forall c v, In c m -> In v (cvalues c) -> b <= v.

(** No value is below [- M], and the values are so small that a category whose price is still [- M] outweighs all other
    categories at their highest values: there are upper bounds [U] of the values (per category) such that replacing the bound
    of any category used by the recipe by [- M] makes the value of a procurement-set negative. *)
Definition values_small (M : Q) (recipe : list nat) (m : market) : Prop :=
  values_at_least (- M) m
  /\ exists U, Forall2 (fun c u => - M <= u /\ forall v, In v (cvalues c) -> v <= u) m U
       /\ forall l r u, nth_error recipe l = Some r -> (0 < r)%nat -> nth_error U l = Some u ->
            dot U recipe - Qn r * u + Qn r * - M < 0.

Definition has_positive_entry (recipe : list nat) : Prop :=
  exists i r, nth_error recipe i = Some r /\ (0 < r)%nat.

(** The states between the rounds of the auction's loop. *)
Inductive visited (M : Q) (m : market) (recipe : list nat) : asc_state -> Prop :=
| visited_start : visited M m recipe (ascending_start M m recipe)
| visited_next : forall s s', visited M m recipe s -> ascending_round recipe s = Ok (false, s') ->
    visited M m recipe s'.

(** ** Strategic behaviour: agents report values *)

(** How many of [others] are strictly better than / at least as good as [v]. *)
Definition better (v : Q) (others : list Q) : nat := length (filter (fun x => Qlt_bool v x) others).
Definition at_least (v : Q) (others : list Q) : nat := length (filter (fun x => Qle_bool v x) others).

(** The possible positions, in the sorted list, of an agent who reports [v]: ties may be broken
    in any way. *)
Definition possible_position (others : list Q) (v : Q) (pos : nat) : Prop :=
  (better v others <= pos <= at_least v others)%nat.

(** Expected utility of the agent at position [pos] of category [i], with true value [v], in a trade:
    if he is among the agents left, he is selected with probability (participants / agents left). *)
Definition utility (t : trade) (i pos : nat) (v : Q) : Q :=
  match nth_error (tcats t) i, nth_error (trecipe t) i, tprices t with
  | Some c, Some r, Some prices =>
      if (pos <? csize c)%nat
      then Qn (r * num_of_deals t) / Qn (csize c) * (v - nth i prices 0)
      else 0
  | _, _, _ => 0
  end.
