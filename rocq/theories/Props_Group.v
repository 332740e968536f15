(** * Property C77: the single-recipe ascending auction and groups of misreporting agents

    C14 says that no single agent gains by misreporting.  Here any number of agents, of any categories, misreport together:
    at least one of them does not gain.  (So no coalition can make all its members better off: weak group-strategy-proofness.)

    The markets [m] and [m'] list the agents in the same, arbitrary order, which need not be sorted: [AgentCategory.__init__]
    sorts the values, and the auction works on a clone, so sorting first makes no difference ([C77_sorted]).  The rankings say
    at which position of the sorted list each agent then is; among equal values every order is allowed. *)

From Coq Require Import String List Arith Lia QArith Lqa.
From Verif Require Import Base Model_Agents Model_Trade Model_Prices Model_Market Model_Ascending
  Spec_Market Spec_Ascending Spec_Group Proof_Agents Proof_Gsp1 Proof_Gsp2.
Import ListNotations.
Open Scope Q_scope.
Open Scope string_scope.

Theorem C77_group : forall M fuel m m' recipe t t' rank rank', 0 < M ->
  same_agents m m' -> rankings m rank -> rankings m' rank' ->
  ascending_auction_M M fuel m recipe = Ok t -> ascending_auction_M M fuel m' recipe = Ok t' ->
  (exists i j, misreports m m' i j) ->
  exists i j, misreports m m' i j
    /\ utility t' i (rank' i j) (agent_value m i j) <= utility t i (rank i j) (agent_value m i j).
Proof. exact ascending_group. Qed.
Print Assumptions C77_group.

(** The function users call. *)
Theorem C77_group_api : forall m m' recipe t t' rank rank',
  same_agents m m' -> rankings m rank -> rankings m' rank' ->
  ascending_auction m recipe = Ok t -> ascending_auction m' recipe = Ok t' ->
  (exists i j, misreports m m' i j) ->
  exists i j, misreports m m' i j
    /\ utility t' i (rank' i j) (agent_value m i j) <= utility t i (rank i j) (agent_value m i j).
Proof.
  intros m m' recipe t t' rank rank' S R R' A A'.
  assert (E : total_agents m' = total_agents m).
  { unfold total_agents. unfold same_agents in S. rewrite S. reflexivity. }
  unfold ascending_auction in *. rewrite E in A'. eapply ascending_group; eauto. reflexivity.
Qed.
Print Assumptions C77_group_api.

(** Sorting the categories first, as [AgentCategory.__init__] does, changes nothing. *)
Theorem C77_sorted : forall M fuel m recipe, ascending_auction_M M fuel (clone_market m) recipe = ascending_auction_M M fuel m recipe.
Proof.
  intros M fuel m recipe.
  assert (E : clone_market (clone_market m) = clone_market m).
  { unfold clone_market. rewrite map_map. apply map_ext. intros [n l]. unfold clone, new_category. cbn. f_equal.
    apply sort_desc_id. apply sort_desc_desc. }
  unfold ascending_auction_M, ascending_start. rewrite E. unfold clone_market at 1. rewrite map_length. reflexivity.
Qed.
Print Assumptions C77_sorted.

(** ** A concrete coalition

    Buyers 9, 8 and 4; sellers -3, -4 and -7; one buyer and one seller per deal: 2 deals at the price 7.  The buyers 9 and 8
    report 6 and 5 and the seller -7 reports -5, and so bring down the price to 5: the two buyers gain, but the seller does not. *)
Definition group_truth : market := [mkCat "buyer" [9; 8; 4]; mkCat "seller" [-3; -4; -7]].
Definition group_lie : market := [mkCat "buyer" [6; 5; 4]; mkCat "seller" [-3; -4; -5]].
Definition same_order (i j : nat) : nat := j.

Definition outcome (m : market) : option (list (list Q) * option (list Q) * nat) :=
  match ascending_auction m [1; 1]%nat with
  | Ok t => Some (map cvalues (tcats t), option_map (map Qred) (tprices t), num_of_deals t)
  | _ => None
  end.

Example C77_coalition : outcome group_truth = Some ([[9; 8]; [-3; -4]], Some [7; -7], 2%nat)
  /\ outcome group_lie = Some ([[6; 5]; [-3; -4]], Some [5; -5], 2%nat).
Proof. split; vm_compute; reflexivity. Qed.

Example C77_coalition_hypotheses : same_agents group_truth group_lie /\ rankings group_truth same_order
  /\ rankings group_lie same_order /\ misreports group_truth group_lie 0 0 /\ misreports group_truth group_lie 0 1
  /\ misreports group_truth group_lie 1 2.
Proof.
  split; [reflexivity|].
  assert (R : forall m, m = group_truth \/ m = group_lie -> rankings m same_order).
  { intros m Hm i Hi. split; [|split]; unfold same_order; auto.
    intros j k Hj Hk H. destruct (Nat.ltb_spec k j) as [|C]; [assumption|exfalso].
    destruct Hm as [-> | ->]; cbn in Hi; destruct i as [|[|i]]; try lia; cbn in Hj, Hk;
    destruct j as [|[|[|j]]], k as [|[|[|k]]]; try lia; vm_compute in H; discriminate. }
  split; [apply R; auto|]. split; [apply R; auto|].
  split; [|split]; (split; [split; cbn; lia|vm_compute; discriminate]).
Qed.

(** ** "Weak" cannot be dropped

    A coalition may make one member better off and none worse off: the buyer 6 of 9, 6, who does not trade but whose value is
    the price, reports 4, and the buyer 9 reports 10; the price goes down from 6 to 4. *)
Theorem C77_strong_refuted : exists m m' t t', same_agents m m' /\ rankings m same_order /\ rankings m' same_order
  /\ ascending_auction m [1; 1]%nat = Ok t /\ ascending_auction m' [1; 1]%nat = Ok t'
  /\ misreports m m' 0 0 /\ misreports m m' 0 1
  /\ (forall i j, misreports m m' i j -> i = 0%nat /\ (j = 0 \/ j = 1)%nat)
  /\ utility t 0 0 (agent_value m 0 0) < utility t' 0 0 (agent_value m 0 0)
  /\ utility t 0 1 (agent_value m 0 1) == utility t' 0 1 (agent_value m 0 1).
Proof.
  exists [mkCat "buyer" [9; 6]; mkCat "seller" [-3; -4]], [mkCat "buyer" [10; 4]; mkCat "seller" [-3; -4]].
  do 2 eexists.
  assert (R : forall a b, b < a -> rankings [mkCat "buyer" [a; b]; mkCat "seller" [-3; -4]] same_order).
  { intros a b Hab i Hi. split; [|split]; unfold same_order; auto.
    intros j k Hj Hk H. destruct (Nat.ltb_spec k j) as [|C]; [assumption|exfalso].
    cbn in Hi; destruct i as [|[|i]]; try lia; cbn in Hj, Hk;
    destruct j as [|[|j]], k as [|[|k]]; try lia; cbn in H; lra. }
  split; [reflexivity|]. split; [apply R; reflexivity|]. split; [apply R; reflexivity|].
  split; [vm_compute; reflexivity|]. split; [vm_compute; reflexivity|].
  split; [split; [split; cbn; lia|vm_compute; discriminate]|]. split; [split; [split; cbn; lia|vm_compute; discriminate]|].
  split.
  { intros i j [[Hi Hj] H]. cbn in Hi. destruct i as [|[|i]]; [|exfalso|lia].
    - cbn in Hj. split; [reflexivity|lia].
    - cbn in Hj. destruct j as [|[|j]]; try lia; apply H; vm_compute; reflexivity. }
  split; vm_compute; reflexivity.
Qed.
Print Assumptions C77_strong_refuted.
