(** * Properties C03 - C06: Market.optimal_trade *)

From Coq Require Import String List Arith QArith Permutation Sorted.
From Verif Require Import Base Model_Agents Model_Trade Model_Market Spec_Market Proof_Market.
Import ListNotations.
Open Scope Q_scope.
Open Scope string_scope.

(** C03: the deals can be cut into r_i agents per category; per category, traded plus remaining
    agents are exactly the original agents; names and sorting are kept. *)
Theorem C03_conservation : forall cap m recipe z deals rem,
  optimal_trade cap m recipe z = Ok (deals, rem) ->
  exists D, map (@concat Q) D = deals /\ Forall (deal_ok recipe) D
    /\ length rem = length m
    /\ forall i c c', nth_error m i = Some c -> nth_error rem i = Some c' ->
         cname c' = cname c /\ desc (cvalues c')
         /\ Permutation (agents_of i D ++ cvalues c') (cvalues c).
Proof. exact conservation. Qed.
Print Assumptions C03_conservation.

(** C03: the call fails only on a length mismatch, with a ValueError. *)
Theorem C03_errors : forall cap m recipe z,
  (exists r, optimal_trade cap m recipe z = Ok r /\ length recipe = length m)
  \/ (optimal_trade cap m recipe z = Raise ValueError /\ length recipe <> length m).
Proof. exact optimal_trade_errors. Qed.
Print Assumptions C03_errors.

(** C04: deals are profitable and listed in ascending order of gain; nothing profitable is left. *)
Theorem C04_profitable_sorted : forall cap m recipe z deals rem,
  optimal_trade cap m recipe z = Ok (deals, rem) ->
  Forall (fun ps => if z then 0 <= Qsum ps else 0 < Qsum ps) deals
  /\ StronglySorted (fun a b => Qsum a <= Qsum b) deals.
Proof. exact optimal_trade_acceptable. Qed.
Print Assumptions C04_profitable_sorted.

Theorem C04_exhaustive : forall cap m recipe z deals rem,
  optimal_trade cap m recipe z = Ok (deals, rem) -> cap_suffices cap m recipe ->
  forall d, feasible rem recipe [d] -> ~ (if z then 0 <= deal_gain d else 0 < deal_gain d).
Proof. exact exhaustive. Qed.
Print Assumptions C04_exhaustive.

(** C05: the deals form an optimal trade, so no feasible trade gains more. *)
Theorem C05_optimality : forall cap m recipe z deals rem,
  optimal_trade cap m recipe z = Ok (deals, rem) -> cap_suffices cap m recipe ->
  (exists D, map (@concat Q) D = deals /\ optimal m recipe D)
  /\ forall D', feasible m recipe D' -> total_gain D' <= mt_gain_from_trade deals.
Proof. exact optimality. Qed.
Print Assumptions C05_optimality.

(** C06: the flag selects the largest / smallest number of deals among all optimal trades; by
    [C05_optimality] both extremes are attained. *)
Theorem C06_zero_flag : forall cap m recipe dealsT remT dealsF remF,
  optimal_trade cap m recipe true = Ok (dealsT, remT) ->
  optimal_trade cap m recipe false = Ok (dealsF, remF) ->
  cap_suffices cap m recipe ->
  mt_gain_from_trade dealsT == mt_gain_from_trade dealsF
  /\ forall D, optimal m recipe D ->
       (mt_num_of_deals dealsF <= length D <= mt_num_of_deals dealsT)%nat.
Proof. exact zero_flag. Qed.
Print Assumptions C06_zero_flag.

(** Non-vacuity: an unsorted market with ties, recipe (1,2), a deal of gain zero, leftovers. *)
Definition ex_market : market :=
  [mkCat "buyer" [4; 9; 20; 4]; mkCat "seller" [-(2); -(2); -(9); -(2); -(2); -(5)]].

Example C03_C06_nonvacuous :
  optimal_trade default_max_iterations ex_market [1; 2]%nat true
    = Ok ([[9; -(2); -(2)]; [20; -(2); -(2)]],
          [mkCat "buyer" [4; 4]; mkCat "seller" [-(5); -(9)]])
  /\ cap_suffices default_max_iterations ex_market [1; 2]%nat.
Proof.
  split; [vm_compute; reflexivity|].
  exists 0%nat. eexists. exists 1%nat. split; [reflexivity|]. split; [reflexivity|].
  split; [repeat constructor|]. apply Nat.leb_le. vm_compute. reflexivity.
Qed.

(** The flag matters: with a deal of gain 0. *)
Example C06_nonvacuous :
  let m := [mkCat "buyer" [9; 4]; mkCat "seller" [-(3); -(4)]] in
  optimal_trade default_max_iterations m [1; 1]%nat true
    = Ok ([[4; -(4)]; [9; -(3)]], [mkCat "buyer" []; mkCat "seller" []])
  /\ optimal_trade default_max_iterations m [1; 1]%nat false
    = Ok ([[9; -(3)]], [mkCat "buyer" [4]; mkCat "seller" [-(4)]]).
Proof. split; vm_compute; reflexivity. Qed.
