(** * Properties C07, C08: TradeWithSinglePrice *)

From Coq Require Import String List Arith QArith.
From Verif Require Import Base Model_Agents Model_Trade Model_Prices Spec_Trade Proof_Trade.
Import ListNotations.
Open Scope Q_scope.
Open Scope string_scope.

(** C07: the number of deals is the largest supported one. *)
Theorem C07_num_of_deals : forall cats recipe prices t, new_trade cats recipe prices = Ok t ->
  supports cats recipe (num_of_deals t)
  /\ forall n, supports cats recipe n -> (n <= num_of_deals t)%nat.
Proof. intros cats recipe prices t H. apply (deals_max _ _ _ _ H). Qed.
Print Assumptions C07_num_of_deals.

(** C07: construction raises ValueError exactly when no category has a positive recipe entry. *)
Theorem C07_errors : forall cats recipe prices,
  (new_trade cats recipe prices = Raise ValueError <-> ~ some_positive cats recipe)
  /\ (forall e, new_trade cats recipe prices = Raise e -> e = ValueError)
  /\ new_trade cats recipe prices <> Timeout.
Proof. exact new_trade_error. Qed.
Print Assumptions C07_errors.

(** C08: expected gain, and the auctioneer's share. *)
Theorem C08_expected_gain : forall cats recipe prices t z g,
  length cats = length recipe -> length prices = length recipe ->
  new_trade cats recipe (Some prices) = Ok t ->
  gain_from_trade t z = Ok g ->
  g == expected_value t - (if z then 0 else Qn (num_of_deals t) * dot prices recipe).
Proof. exact gain_expected. Qed.
Print Assumptions C08_expected_gain.

(** C08: exceptions. *)
Theorem C08_errors : forall cats recipe prices t z,
  length cats = length recipe -> length prices = length recipe ->
  new_trade cats recipe (Some prices) = Ok t ->
  (forall e, gain_from_trade t z = Raise e <->
     e = ZeroDivisionError /\ num_of_deals t <> 0%nat /\ Exists (fun c => cvalues c = []) cats)
  /\ gain_from_trade t z <> Timeout.
Proof. exact gain_raises. Qed.
Print Assumptions C08_errors.

(** A trade with random selection in both categories: 1 of 2 buyers... 2 of 5 sellers. *)
Example C07_C08_nonvacuous :
  let cats := [mkCat "buyer" [9; 8]; mkCat "seller" [-(1); -(2); -(3)]] in
  exists t, new_trade cats [1; 2]%nat (Some [6; -(3)]) = Ok t
  /\ num_of_deals t = 1%nat
  /\ length (outcomes t) = 6%nat
  /\ (exists g, gain_from_trade t true = Ok g /\ g == 9#2)
  /\ (exists g, gain_from_trade t false = Ok g /\ g == 9#2)
  /\ expected_value t == 9#2.
Proof.
  eexists. split; [reflexivity|]. split; [reflexivity|]. split; [reflexivity|].
  split; [eexists; split; [reflexivity|reflexivity]|].
  split; [eexists; split; [reflexivity|reflexivity]|]. reflexivity.
Qed.

Example C08_errors_nonvacuous :
  let cats := [mkCat "buyer" [9; 8]; mkCat "unused" []] in
  exists t, new_trade cats [1; 0]%nat (Some [6; 0]) = Ok t
    /\ gain_from_trade t true = Raise ZeroDivisionError.
Proof. eexists. split; reflexivity. Qed.
