(** * What one agent can do to the outcome of an auction (C95)

    An outcome is what the two classes of trades share: the agents left in each category (highest value first) and the price of
    each category. *)

From Coq Require Import String List Arith QArith.
From Verif Require Import Base Model_Agents Model_Trade Model_Market.
Import ListNotations.
Open Scope Q_scope.

(** The agent at position [pos] of category [i] is among the agents left. *)
Definition still_in (cats : list category) (i pos : nat) : Prop :=
  exists c, nth_error cats i = Some c /\ (pos < length (cvalues c))%nat.

(** A list without its element number [n]. *)
Definition without (n : nat) (l : list Q) : list Q := firstn n l ++ skipn (S n) l.

(** Two outcomes differ in nothing but the value of one agent of category [i], who stands at position [pos] in the first and at
    position [pos'] in the second: the same prices, the same agents left in every other category, the same other agents left in
    his own category. *)
Definition same_outcome (i pos pos' : nat) (cats cats' : list category) (prices prices' : list Q) : Prop :=
  Forall2 Qeq prices prices'
  /\ length cats = length cats'
  /\ (forall j c c', j <> i -> nth_error cats j = Some c -> nth_error cats' j = Some c' ->
       cname c = cname c' /\ Forall2 Qeq (cvalues c) (cvalues c'))
  /\ exists c c', nth_error cats i = Some c /\ nth_error cats' i = Some c'
       /\ cname c = cname c' /\ length (cvalues c) = length (cvalues c')
       /\ Forall2 Qeq (without pos (cvalues c)) (without pos' (cvalues c')).

(** The agent trades (with the probability given by the number of deals): he is among the agents left, and there are deals. *)
Definition wins (t : trade) (i pos : nat) : Prop := still_in (tcats t) i pos /\ (0 < num_of_deals t)%nat.
