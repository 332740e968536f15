(** * Specification for two-sided markets and for the lemonade industry (C107, C108) *)

From Coq Require Import List Arith QArith.
From Verif Require Import Base Model_Agents Model_Trade Spec_McAfee.
Import ListNotations.
Open Scope Q_scope.

(** A deal with this gain is worth doing; with the flag, also a deal that gains exactly nothing. *)
Definition worth_doing (including_gft_0 : bool) (gain : Q) : Prop :=
  if including_gft_0 then 0 <= gain else 0 < gain.

(** Two lists of values sorted in descending order: the best of one side is matched with the best of
    the other, the second with the second, and so on; exactly the first [k] pairs are worth doing. *)
Definition profitable_pairs (including_gft_0 : bool) (A B : list Q) (k : nat) : Prop :=
  (k <= length A)%nat /\ (k <= length B)%nat
  /\ (forall t a b, nth_error A t = Some a -> nth_error B t = Some b ->
        ((t < k)%nat <-> worth_doing including_gft_0 (a + b))).

(** The value just after the first [k] of a list, or [-M] if there is none. *)
Definition next_value (M : Q) (k : nat) (l : list Q) : Q := nth k l (- M).

(** Money that a group of [n] traders hands over at a price per trader (negative: money received). *)
Definition money (n : nat) (price : Q) : Q := inject_Z (Z.of_nat n) * price.

(** The three-sided analogue: exactly the first [k] triples are worth doing. *)
Definition profitable_triples (including_gft_0 : bool) (A B C : list Q) (k : nat) : Prop :=
  (k <= length A)%nat /\ (k <= length B)%nat /\ (k <= length C)%nat
  /\ (forall t a b c, nth_error A t = Some a -> nth_error B t = Some b -> nth_error C t = Some c ->
        ((t < k)%nat <-> worth_doing including_gft_0 (a + b + c))).

(** The money that the traders of category number [i] hand over in a trade in which every deal uses one of them. *)
Definition paid (t : trade) (i : nat) : Q :=
  match tprices t with
  | Some prices => money (num_of_deals t) (nth i prices 0)
  | None => 0
  end.

(** ** Recipes of ones with any number of categories *)

(** The total of one value per category: in the first [i] categories the value of rank [j] (counting from 0, so
    [j] agents are better), in the others the value of rank [j+1]; an exhausted category counts as [-M]. *)
Definition total_after (M : Q) (m : list category) (j i : nat) : Q :=
  Qsum (map (fun c => ranked (- M) c j) (firstn i m)) + Qsum (map (fun c => ranked (- M) c (S j)) (skipn i m)).
