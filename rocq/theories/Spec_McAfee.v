(** * Specification notions for McAfee's protocol (C22 - C27) *)

From Coq Require Import List Arith QArith Qabs.
From Verif Require Import Base Model_Agents Model_Trade Model_Market.
Import ListNotations.
Open Scope Q_scope.

(** The value of the agent with [t] better agents before him in his category (the dummy value [d]
    when the category is too small). *)
Definition ranked (d : Q) (c : category) (t : nat) : Q := nth t (sort_desc (cvalues c)) d.

(** McAfee's candidate price: the average absolute value of the best agents outside the [k] optimal deals,
    an exhausted category counting as [-M]. *)
Definition candidate_price (M : Q) (m : market) (k : nat) : Q :=
  Qsum (map (fun c => Qabs (ranked (- M) c k)) m) / Qn (length m).

(** A buyer (value at least 0) of the last optimal deal can pay the price, a seller (value at most 0) is
    willing to receive it. *)
Definition price_accepted (p : Q) (m : market) (k : nat) : Prop :=
  forall c, In c m -> (0 <= ranked 0 c (k - 1) -> p <= ranked 0 c (k - 1))
                      /\ (ranked 0 c (k - 1) <= 0 -> - p <= ranked 0 c (k - 1)).
