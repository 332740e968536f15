(** * Properties C17 - C21 and C54: generalized trade reduction

    The theorems hold for every value [M] of the constant MAX_VALUE, every iteration cap [cap] of
    optimal_trade and both values [z] of including_gft_0; the function users call is the instance
    [trade_reduction]. *)

From Coq Require Import String List Arith Lia QArith Lqa Permutation.
From Verif Require Import Base Model_Agents Model_Trade Model_Prices Model_Market Model_Ascending Model_TradeReduction
  Spec_Market Spec_Trade Spec_Ascending Spec_TradeReduction Proof_Deals Proof_TR3 Proof_TR4 Proof_TR5 Proof_TR6 Proof_TR7
  Proof_TR8.
From Verif Require Proof_Ascending4.
Import ListNotations.
Open Scope Q_scope.
Open Scope string_scope.

(** ** C17 *)
Theorem C17_strong_budget_balance : forall M cap m recipe z t, trade_reduction_M M cap m recipe z = Ok t ->
  match tprices t with
  | Some prices => length prices = length recipe /\ dot prices recipe == 0
  | None => num_of_deals t = 0%nat
  end.
Proof. exact tr_sbb. Qed.
Print Assumptions C17_strong_budget_balance.

(** ** C18 *)
Theorem C18_individually_rational : forall M cap m recipe z t prices, values_at_least (- M) m ->
  trade_reduction_M M cap m recipe z = Ok t -> tprices t = Some prices ->
  forall i c p v, nth_error (tcats t) i = Some c -> nth_error prices i = Some p -> In v (cvalues c) -> p <= v.
Proof. exact tr_ir. Qed.
Print Assumptions C18_individually_rational.

(** All-ones recipes: the traders are in the optimal trade. *)
Theorem C18_optimal_traders : forall M cap m recipe z t deals rem, values_at_least (- M) m ->
  trade_reduction_M M cap m recipe z = Ok t -> optimal_trade cap m recipe true = Ok (deals, rem) ->
  all_ones recipe -> cap_suffices cap m recipe ->
  forall i c, nth_error (tcats t) i = Some c -> included (cvalues c) (map (fun ps => nth i ps 0) deals).
Proof. exact tr_optimal_traders. Qed.
Print Assumptions C18_optimal_traders.

(** Any recipe: the traders of a category are its best agents, at most (k+1) times the recipe entry. *)
Theorem C18_best_traders : forall M cap m recipe z t deals rem, values_at_least (- M) m ->
  trade_reduction_M M cap m recipe z = Ok t -> optimal_trade cap m recipe true = Ok (deals, rem) ->
  length (tcats t) = length m /\
  forall i c0 c r, nth_error m i = Some c0 -> nth_error (tcats t) i = Some c -> nth_error recipe i = Some r ->
    cname c = cname c0 /\ desc (cvalues c)
    /\ (csize c <= (mt_num_of_deals deals + 1) * r)%nat
    /\ (all_ones recipe -> cap_suffices cap m recipe -> (csize c <= mt_num_of_deals deals)%nat)
    /\ exists gone, same_values (cvalues c ++ gone) (cvalues c0)
        /\ (forall x y, In x (cvalues c) -> In y gone -> y <= x).
Proof. exact tr_kept. Qed.
Print Assumptions C18_best_traders.

(** With a recipe entry above 1, agents outside the optimal trade may trade. *)
Theorem C18_multi_recipe_refuted : exists m recipe t deals rem c,
  trade_reduction m recipe true = Ok t /\ optimal_trade 100 m recipe true = Ok (deals, rem)
  /\ cap_suffices 100 m recipe /\ (0 < num_of_deals t)%nat
  /\ nth_error (tcats t) 1 = Some c /\ mt_num_of_deals deals = 1%nat /\ nth 1 recipe 0%nat = 2%nat /\ csize c = 3%nat.
Proof.
  exists [mkCat "buyer" [10; 9]; mkCat "seller" [-(1); -(2); -(3); -(20)]], [1; 2]%nat.
  eexists. eexists. eexists. eexists.
  split; [vm_compute; reflexivity|]. split; [vm_compute; reflexivity|].
  split. { exists 0%nat, (mkCat "buyer" [10; 9]), 1%nat. split; [reflexivity|]. split; [reflexivity|]. unfold csize; cbn; lia. }
  split; [vm_compute; lia|]. split; [reflexivity|]. split; [reflexivity|]. split; reflexivity.
Qed.
Print Assumptions C18_multi_recipe_refuted.

(** ** C19 *)
Theorem C19_number_of_deals : forall M cap m recipe z t deals rem, cap_suffices cap m recipe -> values_at_least (- M) m ->
  trade_reduction_M M cap m recipe z = Ok t -> optimal_trade cap m recipe true = Ok (deals, rem) ->
  (num_of_deals t <= mt_num_of_deals deals)%nat
  /\ (forall dealsz remz, optimal_trade cap m recipe z = Ok (dealsz, remz) ->
        (mt_num_of_deals dealsz - 1 <= num_of_deals t)%nat).
Proof. exact tr_deals. Qed.
Print Assumptions C19_number_of_deals.

(** ** C20 *)
Theorem C20_truthful : forall M cap m recipe z i name pre post v v' pos pos' t t', 0 < M -> all_ones recipe ->
  (i < length m)%nat ->
  possible_position (pre ++ post) v pos -> possible_position (pre ++ post) v' pos' ->
  let honest := set_nth i (mkCat name (pre ++ v :: post)) m in
  let lying := set_nth i (mkCat name (pre ++ v' :: post)) m in
  values_small M recipe honest -> values_small M recipe lying ->
  cap_suffices cap honest recipe -> cap_suffices cap lying recipe ->
  trade_reduction_M M cap honest recipe z = Ok t -> trade_reduction_M M cap lying recipe z = Ok t' ->
  utility t' i pos' v <= utility t i pos v.
Proof. exact tr_truthful. Qed.
Print Assumptions C20_truthful.

(** With a recipe entry of 2 a buyer gains by reporting 11 instead of 9. *)
Theorem C20_multi_recipe_refuted : exists m recipe i name pre post v v' pos pos' t t',
  (i < length m)%nat
  /\ possible_position (pre ++ post) v pos /\ possible_position (pre ++ post) v' pos'
  /\ values_small MAX_VALUE recipe (set_nth i (mkCat name (pre ++ v :: post)) m)
  /\ values_small MAX_VALUE recipe (set_nth i (mkCat name (pre ++ v' :: post)) m)
  /\ trade_reduction (set_nth i (mkCat name (pre ++ v :: post)) m) recipe true = Ok t
  /\ trade_reduction (set_nth i (mkCat name (pre ++ v' :: post)) m) recipe true = Ok t'
  /\ utility t i pos v < utility t' i pos' v.
Proof.
  exists [mkCat "buyer" []; mkCat "seller" [-(1); -(2); -(3)]], [1; 2]%nat, 0%nat, "buyer", [10], [], 9, 11, 1%nat, 0%nat.
  eexists. eexists. split; [cbn; lia|]. split; [vm_compute; lia|]. split; [vm_compute; lia|].
  split. { apply Proof_Ascending4.small_uniform; [discriminate|exists 0%nat, 1%nat; split; [reflexivity|lia]|reflexivity|]. exists 20. split; [lra|]. split; [reflexivity|]. apply in_values. repeat constructor; unfold Qle; simpl; lia. }
  split. { apply Proof_Ascending4.small_uniform; [discriminate|exists 0%nat, 1%nat; split; [reflexivity|lia]|reflexivity|]. exists 20. split; [lra|]. split; [reflexivity|]. apply in_values. repeat constructor; unfold Qle; simpl; lia. }
  split; [vm_compute; reflexivity|]. split; [vm_compute; reflexivity|]. reflexivity.
Qed.
Print Assumptions C20_multi_recipe_refuted.

(** ** C21 *)
Theorem C21_errors : forall M cap m recipe z,
  ((exists t, trade_reduction_M M cap m recipe z = Ok t) /\ length recipe = length m /\ has_positive_entry recipe)
  \/ (trade_reduction_M M cap m recipe z = Raise ValueError
      /\ (length recipe <> length m \/ ~ has_positive_entry recipe)).
Proof. exact tr_errors. Qed.
Print Assumptions C21_errors.

Theorem C21_gain_errors : forall M cap m recipe z a t, values_at_least (- M) m ->
  trade_reduction_M M cap m recipe z = Ok t ->
  (forall e, gain_from_trade t a = Raise e <->
     e = ZeroDivisionError /\ (0 < num_of_deals t)%nat /\ In 0%nat recipe)
  /\ gain_from_trade t a <> Timeout.
Proof. exact tr_gain_errors. Qed.
Print Assumptions C21_gain_errors.

(** ** C54 *)
Theorem C54_same_as_ascending : forall M cap rounds m recipe t ta, 0 < M -> all_ones recipe -> values_small M recipe m ->
  cap_suffices cap m recipe ->
  trade_reduction_M M cap m recipe true = Ok t -> ascending_auction_M M rounds m recipe = Ok ta ->
  num_of_deals t = num_of_deals ta
  /\ ((0 < num_of_deals t)%nat ->
      Forall2 (fun c c' => cname c = cname c' /\ Forall2 Qeq (cvalues c) (cvalues c')) (tcats t) (tcats ta)
      /\ exists P Pa, tprices t = Some P /\ tprices ta = Some Pa /\ Forall2 Qeq P Pa).
Proof. exact tr_ascending. Qed.
Print Assumptions C54_same_as_ascending.

(** ** Non-vacuity *)

(** The first doctest of the function (lines 43-47). *)
Definition tr_ex_market : market :=
  [mkCat "seller" [-(1); -(2); -(3); -(4); -(5); -(7); -(8); -(10); -(11)]; mkCat "buyer" [17; 14; 13; 9; 6]].

Example C17_C19_run : exists t prices deals rem, trade_reduction tr_ex_market [2; 1]%nat true = Ok t
  /\ num_of_deals t = 2%nat /\ tprices t = Some prices /\ prices = [-(5); 10]
  /\ map (fun c => cvalues c) (tcats t) = [[-(1); -(2); -(3); -(4)]; [17; 14; 13]]
  /\ optimal_trade 100 tr_ex_market [2; 1]%nat true = Ok (deals, rem) /\ mt_num_of_deals deals = 3%nat
  /\ trade_reduction_M MAX_VALUE 100 tr_ex_market [2; 1]%nat true = Ok t.
Proof.
  eexists. eexists. eexists. eexists. split; [vm_compute; reflexivity|]. split; [reflexivity|]. split; [reflexivity|].
  split; [vm_compute; reflexivity|]. split; [vm_compute; reflexivity|]. split; [vm_compute; reflexivity|].
  split; [reflexivity|]. vm_compute; reflexivity.
Qed.

Example C17_C19_hypotheses : values_at_least (- MAX_VALUE) tr_ex_market /\ cap_suffices 100 tr_ex_market [2; 1]%nat.
Proof.
  split.
  - unfold values_at_least. apply in_values. repeat constructor; unfold Qle; simpl; lia.
  - exists 1%nat, (mkCat "buyer" [17; 14; 13; 9; 6]), 1%nat. split; [reflexivity|]. split; [reflexivity|]. unfold csize; cbn; lia.
Qed.

(** All ones: the doctest of lines 200-204; C20 with a misreport; C54 with the ascending auction. *)
Definition tr_ex_ones : market :=
  [mkCat "buyer" [9; 8; 7]; mkCat "mediator" [-(1); -(2); -(3)]; mkCat "seller" [-(2); -(3); -(4)]].
Definition tr_ex_lie : market := set_nth 2 (mkCat "seller" ([-(2)] ++ -(5) :: [-(4)])) tr_ex_ones.

Example C54_run : exists t ta, trade_reduction_M MAX_VALUE 10 tr_ex_ones [1; 1; 1]%nat true = Ok t
  /\ ascending_auction tr_ex_ones [1; 1; 1]%nat = Ok ta /\ num_of_deals t = 2%nat /\ num_of_deals ta = 2%nat
  /\ map (fun c => cvalues c) (tcats t) = [[9; 8]; [-(1); -(2)]; [-(2); -(3); -(4)]]
  /\ tprices t = Some [7; -(3); -(4)].
Proof.
  eexists. eexists. split; [vm_compute; reflexivity|]. split; [vm_compute; reflexivity|].
  split; [reflexivity|]. split; [reflexivity|]. split; reflexivity.
Qed.

Example C20_nonvacuous : exists t t',
  all_ones [1; 1; 1]%nat
  /\ trade_reduction_M MAX_VALUE 10 (set_nth 2 (mkCat "seller" ([-(2)] ++ -(3) :: [-(4)])) tr_ex_ones) [1; 1; 1]%nat true = Ok t
  /\ trade_reduction_M MAX_VALUE 10 tr_ex_lie [1; 1; 1]%nat true = Ok t'
  /\ possible_position ([-(2)] ++ [-(4)]) (-(3)) 1 /\ possible_position ([-(2)] ++ [-(4)]) (-(5)) 2
  /\ utility t 2 1 (-(3)) == 2#3 /\ utility t' 2 2 (-(3)) == 0 /\ (0 < num_of_deals t')%nat
  /\ values_small MAX_VALUE [1; 1; 1]%nat tr_ex_ones /\ values_small MAX_VALUE [1; 1; 1]%nat tr_ex_lie
  /\ cap_suffices 10 tr_ex_ones [1; 1; 1]%nat /\ cap_suffices 10 tr_ex_lie [1; 1; 1]%nat.
Proof.
  eexists. eexists. split; [repeat constructor|]. split; [vm_compute; reflexivity|]. split; [vm_compute; reflexivity|].
  split; [vm_compute; lia|]. split; [vm_compute; lia|]. split; [reflexivity|]. split; [reflexivity|]. split; [vm_compute; lia|].
  split. { apply Proof_Ascending4.small_uniform; [discriminate|exists 0%nat, 1%nat; split; [reflexivity|lia]|reflexivity|]. exists 20. split; [lra|]. split; [reflexivity|]. apply in_values. repeat constructor; unfold Qle; simpl; lia. }
  split. { apply Proof_Ascending4.small_uniform; [discriminate|exists 0%nat, 1%nat; split; [reflexivity|lia]|reflexivity|]. exists 20. split; [lra|]. split; [reflexivity|]. apply in_values. repeat constructor; unfold Qle; simpl; lia. }
  split; exists 0%nat, (mkCat "buyer" [9; 8; 7]), 1%nat; (split; [reflexivity|]); (split; [reflexivity|]); unfold csize; cbn; lia.
Qed.

(** C21: a zero entry and a deal. *)
Example C21_zero_entry : exists t, trade_reduction [mkCat "a" [5; 4]; mkCat "b" [1]] [1; 0]%nat true = Ok t
  /\ num_of_deals t = 2%nat /\ gain_from_trade t true = Raise ZeroDivisionError.
Proof. eexists. split; [vm_compute; reflexivity|]. split; reflexivity. Qed.
