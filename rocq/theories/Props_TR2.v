(** * Property C81: the gain of generalized trade reduction, for every recipe *)

From Coq Require Import String List Arith Lia QArith Lqa.
From Verif Require Import Base Model_Agents Model_Trade Model_Prices Model_Market Model_TradeReduction
  Spec_Market Spec_Trade Spec_Ascending Spec_TradeReduction Proof_TR8 Proof_TR9 Proof_TR10.
Import ListNotations.
Open Scope Q_scope.
Open Scope string_scope.

(** For every recipe (entries need not be 1) on which the gain is defined: the gain does not depend on whether the
    auctioneer is included, lies between 0 and the optimal gain OPT, and is at least OPT * d / (d + 1) where d is the number
    of deals made; so it is at least (1 - 1/k) * OPT where k is the optimal number of deals (counted with or without the
    deals of gain 0, according to the argument [z] = including_gft_0). *)
Theorem C81_gain : forall M cap m recipe z t deals rem a g, cap_suffices cap m recipe -> values_at_least (- M) m ->
  trade_reduction_M M cap m recipe z = Ok t -> optimal_trade cap m recipe true = Ok (deals, rem) ->
  gain_from_trade t a = Ok g ->
  let OPT := mt_gain_from_trade deals in
  (forall g', gain_from_trade t (negb a) = Ok g' -> g' == g)
  /\ 0 <= g <= OPT
  /\ Qn (num_of_deals t) * OPT <= (Qn (num_of_deals t) + 1) * g
  /\ (forall dealsz remz, optimal_trade cap m recipe z = Ok (dealsz, remz) ->
        (Qn (mt_num_of_deals dealsz) - 1) * OPT <= Qn (mt_num_of_deals dealsz) * g).
Proof. exact tr_gain. Qed.
Print Assumptions C81_gain.

(** *** Non-vacuity: a recipe with unequal entries, where the outcome is random. *)
Definition tr9_market : market :=
  [mkCat "seller" [-(1); -(2); -(3); -(4); -(5); -(7); -(8); -(10); -(11)]; mkCat "buyer" [17; 14; 13; 9; 6]].

Example C81_run : exists t deals rem g, trade_reduction_M MAX_VALUE 100 tr9_market [2; 1]%nat true = Ok t
  /\ optimal_trade 100 tr9_market [2; 1]%nat true = Ok (deals, rem)
  /\ num_of_deals t = 2%nat /\ mt_num_of_deals deals = 3%nat /\ mt_gain_from_trade deals == 22
  /\ gain_from_trade t true = Ok g /\ g == 58 # 3.
Proof.
  eexists. eexists. eexists. eexists. split; [vm_compute; reflexivity|]. split; [vm_compute; reflexivity|].
  split; [vm_compute; reflexivity|]. split; [vm_compute; reflexivity|]. split; [vm_compute; reflexivity|].
  split; [vm_compute; reflexivity|]. vm_compute; reflexivity.
Qed.

Example C81_hypotheses : values_at_least (- MAX_VALUE) tr9_market /\ cap_suffices 100 tr9_market [2; 1]%nat.
Proof.
  split.
  - unfold values_at_least. apply in_values. repeat constructor; unfold Qle; simpl; lia.
  - exists 1%nat, (mkCat "buyer" [17; 14; 13; 9; 6]), 1%nat. split; [reflexivity|]. split; [reflexivity|]. unfold csize; cbn; lia.
Qed.

(** The factor 1 - 1/k is best possible, already with k = 2 and a recipe with an entry 2. *)
Definition tr9_tight : market := [mkCat "buyer" [10; 10]; mkCat "seller" [0; 0; 0; 0]].
Example C81_tight : exists t deals rem g, trade_reduction_M MAX_VALUE 100 tr9_tight [1; 2]%nat true = Ok t
  /\ optimal_trade 100 tr9_tight [1; 2]%nat true = Ok (deals, rem)
  /\ num_of_deals t = 1%nat /\ mt_num_of_deals deals = 2%nat /\ gain_from_trade t true = Ok g
  /\ mt_gain_from_trade deals == 20 /\ g == 10.
Proof.
  eexists. eexists. eexists. eexists. split; [vm_compute; reflexivity|]. split; [vm_compute; reflexivity|].
  split; [vm_compute; reflexivity|]. split; [vm_compute; reflexivity|]. split; [vm_compute; reflexivity|].
  split; vm_compute; reflexivity.
Qed.

(** ** C19: the flag including_gft_0.  With a recipe of ones, only agents of deals that are acceptable under the flag can trade:
    without deals of gain 0, at most as many as there are deals with positive gain. *)
Theorem C19_flag : forall m recipe z t dealsz remz, cap_suffices default_max_iterations m recipe ->
  values_at_least (- MAX_VALUE) m -> all_ones recipe ->
  trade_reduction m recipe z = Ok t -> optimal_trade default_max_iterations m recipe z = Ok (dealsz, remz) ->
  (forall i c, nth_error (tcats t) i = Some c -> (csize c <= mt_num_of_deals dealsz)%nat)
  /\ (num_of_deals t <= mt_num_of_deals dealsz)%nat.
Proof. intros m recipe z t dealsz remz. apply tr_deals_flag. Qed.
Print Assumptions C19_flag.

(** The flag matters: two deals of gain 0. *)
Example C19_flag_witness : exists t t',
  let m := [mkCat "buyer" [3; 2; 2; 2]; mkCat "seller" [-(1); -(2); -(2); -(3)]] in
  trade_reduction m [1; 1]%nat true = Ok t /\ num_of_deals t = 2%nat
  /\ trade_reduction m [1; 1]%nat false = Ok t' /\ num_of_deals t' = 1%nat.
Proof. do 2 eexists. cbv zeta. split; [vm_compute; reflexivity|]. split; [reflexivity|]. split; [vm_compute; reflexivity|reflexivity]. Qed.
