(** * Specification notions for the independence of MAX_VALUE (C49) *)

From Coq Require Import List Arith QArith.
From Verif Require Import Base Model_Agents Model_Trade Model_Market.
Import ListNotations.
Open Scope Q_scope.

(** All values of the market are, in absolute value, at most some [B]; one agent worth [- M] outweighs a whole procurement-set
    of agents worth [B]. *)
Definition well_below (M : Q) (recipe : list nat) (m : market) : Prop :=
  exists B, 0 <= B /\ B < M /\ B * Qn (nsum recipe) < M /\ forall c v, In c m -> In v (cvalues c) -> - B <= v /\ v <= B.

(** The same agents trade, in equally many deals, at the same prices (of the categories that the recipe uses). *)
Definition same_trade (recipe : list nat) (t t' : trade) : Prop :=
  tcats t' = tcats t /\ num_of_deals t' = num_of_deals t
  /\ match tprices t, tprices t' with
     | Some p, Some p' => length p' = length p
         /\ forall i r q q', nth_error recipe i = Some r -> (0 < r)%nat -> nth_error p i = Some q -> nth_error p' i = Some q' -> q' == q
     | None, None => True
     | _, _ => False
     end.
