(** * Specification notions for C52 *)

From Coq Require Import String List Arith QArith.
From Verif Require Import Base Model_Agents Model_Heap.
Import ListNotations.
Open Scope nat_scope.

(** The references of a market point to objects of the heap (the same object may occur several times). *)
Definition valid (h : heap) (m : list ref) : Prop := Forall (fun r => r < length h) m.

(** The objects that the references point to. *)
Definition deref (h : heap) (m : list ref) : list category := map (fun r => nth r h (mkCat EmptyString [])) m.

(** Every object of the first heap is still there, and unchanged. *)
Definition preserved (h h' : heap) : Prop := forall r c, nth_error h r = Some c -> nth_error h' r = Some c.

(** The references point to new objects, all different. *)
Definition fresh (h h' : heap) (m : list ref) : Prop :=
  NoDup m /\ Forall (fun r => length h <= r < length h') m.

(** [behaves h p res]: the program [p], run in the heap [h], preserves all objects of [h] whatever happens; it has the outcome
    [res] of the functional model, where the references that it returns are to new objects, and those objects are the
    categories of the functional result. *)
Definition behaves {A} (h : heap) (p : prog (A * list ref)) (res : result (A * list category)) : Prop :=
  exists h' r, p h = (h', r) /\ preserved h h'
    /\ match r with
       | Ok (a, refs) => res = Ok (a, deref h' refs) /\ fresh h h' refs
       | Raise e => res = Raise e
       | Timeout => res = Timeout
       end.

(** A result together with the categories it contains. *)
Definition with_cats {A} (cats_of : A -> list category) (res : result A) : result (A * list category) :=
  a <- res ;; Ok (a, cats_of a).
