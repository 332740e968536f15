(** * Property C80: coalitions in McAfee's trade reduction

    As C77 - C79: any number of agents, of any categories, misreport together; at least one of them does not gain.
    C26 is the case of a single agent (and C26_three_categories_refuted shows that with the heuristic and three categories not
    even that holds). *)

From Coq Require Import String List Arith Lia QArith Lqa.
From Verif Require Import Base Model_Agents Model_Trade Model_Prices Model_Market Model_McAfee
  Spec_Market Spec_Ascending Spec_TradeReduction Spec_McAfee Spec_Group Proof_Gsp1 Proof_Gsp5 Proof_Gsp6 Props_Group2.
Import ListNotations.
Open Scope Q_scope.
Open Scope string_scope.

(** Without the heuristic: any number of categories, any values, any reports. *)
Theorem C80_group_no_heuristic : forall M cap m m' recipe t t' rank rank',
  same_agents m m' -> rankings m rank -> rankings m' rank' ->
  cap_suffices cap m recipe -> cap_suffices cap m' recipe ->
  mcafee_M M cap m recipe false = Ok t -> mcafee_M M cap m' recipe false = Ok t' ->
  (exists i j, misreports m m' i j) ->
  exists i j, misreports m m' i j
    /\ utility t' i (rank' i j) (agent_value m i j) <= utility t i (rank i j) (agent_value m i j).
Proof. exact mcafee_group_plain. Qed.
Print Assumptions C80_group_no_heuristic.

(** With or without the heuristic: two categories, category [b] of buyers (true values at least 0 and below M/2), the other of
    sellers (true values below 0).  The reports are arbitrary. *)
Theorem C80_group_two_sided : forall M cap m m' recipe h t t' rank rank' b, 0 < M -> length m = 2%nat -> (b < 2)%nat ->
  (forall x, In x (nth b (map cvalues m) []) -> 0 <= x /\ 2 * x < M) ->
  (forall x, In x (nth (1 - b) (map cvalues m) []) -> x < 0) ->
  same_agents m m' -> rankings m rank -> rankings m' rank' ->
  cap_suffices cap m recipe -> cap_suffices cap m' recipe ->
  mcafee_M M cap m recipe h = Ok t -> mcafee_M M cap m' recipe h = Ok t' ->
  (exists i j, misreports m m' i j) ->
  exists i j, misreports m m' i j
    /\ utility t' i (rank' i j) (agent_value m i j) <= utility t i (rank i j) (agent_value m i j).
Proof. exact mcafee_group_two. Qed.
Print Assumptions C80_group_two_sided.

(** ** A concrete coalition

    Buyers 9, 8 and 4, sellers -3, -4 and -6: two deals at the price 5 (the average of 4 and 6).  The buyer 8 reports 7, the
    seller -6 reports -5: the price becomes 9/2.  The buyer gains 1/2; the seller stays out.  So the stronger form, "if one
    gains then another loses", is false. *)
Definition mc_truth : market := [mkCat "buyer" [9; 8; 4]; mkCat "seller" [-(3); -(4); -(6)]].
Definition mc_lie : market := [mkCat "buyer" [9; 7; 4]; mkCat "seller" [-(3); -(4); -(5)]].

Example C80_hypotheses : same_agents mc_truth mc_lie /\ rankings mc_truth in_order /\ rankings mc_lie in_order
  /\ cap_suffices 10 mc_truth [1; 1]%nat /\ cap_suffices 10 mc_lie [1; 1]%nat
  /\ (forall x, In x (nth 0 (map cvalues mc_truth) []) -> 0 <= x /\ 2 * x < MAX_VALUE)
  /\ (forall x, In x (nth (1 - 0) (map cvalues mc_truth) []) -> x < 0)
  /\ misreports mc_truth mc_lie 0 1 /\ misreports mc_truth mc_lie 1 2.
Proof.
  split; [reflexivity|].
  split; [apply in_order_rankings; repeat constructor|]. split; [apply in_order_rankings; repeat constructor|].
  split; [exists 0%nat, (mkCat "buyer" [9; 8; 4]), 1%nat; repeat split; cbn; lia|].
  split; [exists 0%nat, (mkCat "buyer" [9; 7; 4]), 1%nat; repeat split; cbn; lia|].
  split. { intros x [<-|[<-|[<-|[]]]]; (split; [vm_compute; discriminate|reflexivity]). }
  split. { intros x [<-|[<-|[<-|[]]]]; reflexivity. }
  split; (split; [split; cbn; lia|vm_compute; discriminate]).
Qed.

Theorem C80_strong_refuted : exists t t',
  mcafee_M MAX_VALUE 10 mc_truth [1; 1]%nat true = Ok t /\ mcafee_M MAX_VALUE 10 mc_lie [1; 1]%nat true = Ok t'
  /\ (forall i j, misreports mc_truth mc_lie i j -> (i = 0 /\ j = 1 \/ i = 1 /\ j = 2)%nat)
  /\ utility t 0 1 8 == 3 /\ utility t' 0 1 8 == 7 # 2
  /\ utility t 1 2 (-(6)) == 0 /\ utility t' 1 2 (-(6)) == 0.
Proof.
  do 2 eexists. split; [vm_compute; reflexivity|]. split; [vm_compute; reflexivity|].
  split.
  { intros i j [[Hi Hj] H]. cbn in Hi. destruct i as [|[|i]]; [| |lia]; cbn in Hj;
    destruct j as [|[|[|j]]]; try lia; exfalso; apply H; vm_compute; reflexivity. }
  split; [vm_compute; reflexivity|]. split; [vm_compute; reflexivity|]. split; vm_compute; reflexivity.
Qed.
Print Assumptions C80_strong_refuted.
