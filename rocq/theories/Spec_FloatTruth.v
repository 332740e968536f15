(** * Specification: the utility of an agent when the prices are doubles (C106) *)

From Coq Require Import List Arith ZArith QArith.
From Coq Require Import SpecFloat.
From Verif Require Import Base Model_Float Spec_Float Spec_FloatMcAfee.
Import ListNotations.

(** The position of the agent who reports [v], after the agents [pre] and before the agents [post], once the category is sorted:
    the number of agents who come before it.  (The sort is stable.) *)
Definition position (pre post : list double) (v : double) : nat :=
  (length (filter (fun y => fle v y) pre) + length (filter (fun y => flt v y) post))%nat.

(** The number of deals: the category with the fewest agents for its recipe entry decides. *)
Definition deals_made (cats : list (list double)) (recipe : list nat) : nat :=
  match f_deals cats recipe with
  | [] => 0
  | n :: l => fold_left Nat.min l n
  end.

(** The expected utility of the agent at position [pos] of category [i], whose true value is [v]: if it is among the remaining
    agents, it trades with probability (traders / remaining agents), and then it gains its value less the price. *)
Definition f_utility (cats : list (list double)) (prices : list double) (recipe : list nat) (i pos : nat) (v : double) : Q :=
  match nth_error cats i, nth_error prices i with
  | Some c, Some p =>
      if (pos <? length c)%nat
      then inject_Z (Z.of_nat (nth i recipe 0%nat * deals_made cats recipe)) / inject_Z (Z.of_nat (length c)) * (dval v - dval p)
      else 0
  | _, _ => 0
  end.
