(** * Property C09: AscendingPriceVector.increase_price_up_to_balance *)

From Coq Require Import List Arith QArith.
From Verif Require Import Base Model_Prices Proof_Prices.
Import ListNotations.
Open Scope Q_scope.

(** C09.  [target_sum] is the price-sum if the price of category [i] were simply set to the target. *)
Theorem C09_increase_up_to_balance : forall pv i new bound r p,
  nth_error (pv_recipe pv) i = Some r -> nth_error (pv_prices pv) i = Some p ->
  let target_sum := dot (set_nth i new (pv_prices pv)) (pv_recipe pv) in
  match increase_price_up_to_balance pv i new bound with
  | Ok pv' =>
      pv_recipe pv' = pv_recipe pv
      /\ length (pv_prices pv') = length (pv_prices pv)
      /\ (forall j, j <> i -> nth_error (pv_prices pv') j = nth_error (pv_prices pv) j)
      /\ price_sum pv' <= bound
      /\ ((bound <= target_sum /\ pv_status pv' = Some STOPPED_AT_ZERO_SUM
           /\ price_sum pv' == bound)
          \/ (target_sum < bound /\ pv_status pv' = Some STOPPED_AT_AGENT_VALUE
              /\ nth_error (pv_prices pv') i = Some new))
  | Raise e => e = ZeroDivisionError /\ r = 0%nat /\ bound <= price_sum pv
  | Timeout => False
  end.
Proof. exact increase_spec. Qed.
Print Assumptions C09_increase_up_to_balance.

(** C09: starting at or below the bound with a target above the price, the price never decreases
    and never exceeds the target. *)
Theorem C09_monotone : forall pv i new bound r p pv',
  nth_error (pv_recipe pv) i = Some r -> nth_error (pv_prices pv) i = Some p ->
  price_sum pv <= bound -> p <= new ->
  increase_price_up_to_balance pv i new bound = Ok pv' ->
  exists p', nth_error (pv_prices pv') i = Some p' /\ p <= p' <= new.
Proof. exact increase_monotone. Qed.
Print Assumptions C09_monotone.

(** C09: a category outside the price vector raises IndexError. *)
Theorem C09_range : forall pv i new bound,
  (length (pv_recipe pv) <= i \/ length (pv_prices pv) <= i)%nat ->
  increase_price_up_to_balance pv i new bound = Raise IndexError.
Proof. exact increase_range. Qed.
Print Assumptions C09_range.

(** prices.py doctest: recipe (4,5,6), prices -10. *)
Example C09_nonvacuous :
  let pv0 := new_price_vector [4; 5; 6]%nat (-(10)) in
  price_sum pv0 == -(150)
  /\ exists pv1 pv2,
       increase_price_up_to_balance pv0 1 (-(5)) 0 = Ok pv1
       /\ pv_status pv1 = Some STOPPED_AT_AGENT_VALUE
       /\ increase_price_up_to_balance pv1 0 30 0 = Ok pv2
       /\ pv_status pv2 = Some STOPPED_AT_ZERO_SUM
       /\ Forall2 Qeq (pv_prices pv2) [85#4; -(5); -(10)].
Proof.
  split; [reflexivity|]. eexists. eexists. split; [reflexivity|]. split; [reflexivity|].
  split; [reflexivity|]. split; [reflexivity|]. repeat constructor.
Qed.
