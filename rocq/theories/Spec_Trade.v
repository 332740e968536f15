(** * Specification of the expected gain of a single-price trade (C07, C08) *)

From Coq Require Import String List Arith QArith.
From Verif Require Import Base Model_Agents Model_Trade.
Import ListNotations.
Open Scope Q_scope.

(** All ways to choose [p] members of a list (by position). *)
Fixpoint choose {A} (p : nat) (l : list A) : list (list A) :=
  match p, l with
  | O, _ => [[]]
  | S _, [] => []
  | S p', a :: l' => map (cons a) (choose p' l') ++ choose p l'
  end.

(** All ways to pick one member of each list. *)
Fixpoint cart {A} (ll : list (list A)) : list (list A) :=
  match ll with
  | [] => [[]]
  | l :: ll' => flat_map (fun x => map (cons x) (cart ll')) l
  end.

(** All equally likely outcomes of a trade: from every category i, [r_i * deals] of its
    agents are selected at random. An outcome lists the selected agents per category. *)
Definition outcomes (t : trade) : list (list (list Q)) :=
  cart (map (fun p => choose (snd p * tdeals t) (cvalues (fst p))) (combine (tcats t) (trecipe t))).

Definition average (l : list Q) : Q := Qsum l / Qn (length l).

(** Expected total value of the selected agents. *)
Definition expected_value (t : trade) : Q :=
  average (map (fun o => Qsum (map Qsum o)) (outcomes t)).

(** [n] complete procurement sets exist. *)
Definition supports (cats : list category) (recipe : list nat) (n : nat) : Prop :=
  forall i c r, nth_error cats i = Some c -> nth_error recipe i = Some r -> (n * r <= csize c)%nat.

(** Some category really takes part in the recipe. *)
Definition some_positive (cats : list category) (recipe : list nat) : Prop :=
  exists i c r, nth_error cats i = Some c /\ nth_error recipe i = Some r /\ (0 < r)%nat.
