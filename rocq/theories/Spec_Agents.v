(** * Specification for agent categories (C01, C02)

    Multisets of values are lists up to [Permutation]. *)

From Coq Require Import String List Arith QArith Permutation.
From Verif Require Import Base Model_Agents.
Import ListNotations.
Open Scope Q_scope.

(** The public mutating operations of a category, as a user performs them. *)
Inductive op : Type :=
| OpAppend (v : Q)
| OpAppendList (l : list Q)
| OpRemoveHighest
| OpRemoveHighestN (n : nat)
| OpRemoveLowest
| OpClone.   (* continue with a clone of the object *)

(** What each operation may do to the bag of values. *)
Inductive bag_step : list Q -> op -> list Q -> Prop :=
| BS_append : forall bag v bag',
    Permutation bag' (v :: bag) -> bag_step bag (OpAppend v) bag'
| BS_append_list : forall bag l bag',
    Permutation bag' (l ++ bag) -> bag_step bag (OpAppendList l) bag'
| BS_highest : forall bag v bag',
    Permutation bag (v :: bag') -> (forall x, In x bag -> x <= v) ->
    bag_step bag OpRemoveHighest bag'
| BS_highest_n : forall bag taken bag',
    Permutation bag (taken ++ bag') ->
    (forall x y, In x taken -> In y bag' -> y <= x) ->
    bag_step bag (OpRemoveHighestN (length taken)) bag'
| BS_lowest : forall bag v bag',
    Permutation bag (v :: bag') -> (forall x, In x bag -> v <= x) ->
    bag_step bag OpRemoveLowest bag'
| BS_clone : forall bag bag',
    Permutation bag' bag -> bag_step bag OpClone bag'.

(** A whole history. *)
Inductive bag_history : list Q -> list op -> list Q -> Prop :=
| BH_nil : forall bag bag', Permutation bag bag' -> bag_history bag [] bag'
| BH_cons : forall bag o bag1 ops bag2,
    bag_step bag o bag1 -> bag_history bag1 ops bag2 -> bag_history bag (o :: ops) bag2.

(** Performing an operation with the model of agents.py. *)
Definition perform (c : category) (o : op) : result category :=
  match o with
  | OpAppend v => Ok (append c v)
  | OpAppendList l => Ok (append_list c l)
  | OpRemoveHighest => remove_highest_agent c
  | OpRemoveHighestN n => remove_highest_agents c n
  | OpRemoveLowest => remove_lowest_agent c
  | OpClone => Ok (clone c)
  end.

Fixpoint perform_all (c : category) (ops : list op) : result category :=
  match ops with
  | [] => Ok c
  | o :: ops' => c' <- perform c o ;; perform_all c' ops'
  end.

(** Number of agents an operation takes out. *)
Definition removed_count (o : op) : nat :=
  match o with
  | OpRemoveHighest | OpRemoveLowest => 1
  | OpRemoveHighestN n => n
  | _ => 0
  end.

(** The categories a user can obtain. *)
Definition reachable_category (c : category) : Prop :=
  exists name init ops, perform_all (new_category name init) ops = Ok c.
