(** * Properties C78 and C79: coalitions in the recipe-tree auction and in the trade reduction

    As C77, for the other two mechanisms: any number of agents, of any categories, misreport together; at least one of them
    does not gain.  C39 (tree) and C20 (trade reduction) are the cases of a single agent. *)

From Coq Require Import String List Arith Lia QArith Lqa.
From Verif Require Import Base Model_Agents Model_Trade Model_Prices Model_Market Model_Ascending Model_TradeReduction
  Model_RecipeTree Model_TreeAuction Spec_Market Spec_Ascending Spec_TradeReduction Spec_RecipeTree Spec_TreeAuction Spec_Group
  Proof_Gsp1 Proof_Gsp3 Proof_Gsp4 Props_TreeAuction.
From Verif Require Proof_Ascending4.
Import ListNotations.
Open Scope Q_scope.
Open Scope string_scope.

(** ** C78: the recipe-tree ascending auction *)

Theorem C78_tree_group : forall M p0 fuel fuel' m m' st r r' rs sel rank rank', 0 < M ->
  same_agents m m' -> rankings m rank -> rankings m' rank' -> values_within M m -> values_within M m' ->
  (forall j sizes, 0 <= sel j sizes) ->
  tree_auction M p0 fuel m st = Ok r -> tree_auction M p0 fuel' m' st = Ok r' ->
  recipes (length m) (tt_tree r) = Ok rs -> initial_prices_ok (length m) rs (- M) p0 ->
  (exists i j, misreports m m' i j) ->
  exists i j, misreports m m' i j
    /\ tree_utility sel r' i (rank' i j) (agent_value m i j) <= tree_utility sel r i (rank i j) (agent_value m i j).
Proof. exact tree_group. Qed.
Print Assumptions C78_tree_group.

(** ** C79: the trade reduction, one agent of each category per deal *)

Theorem C79_trade_reduction_group : forall M cap m m' recipe z t t' rank rank', 0 < M -> all_ones recipe ->
  same_agents m m' -> rankings m rank -> rankings m' rank' ->
  values_small M recipe m -> values_small M recipe m' ->
  cap_suffices cap m recipe -> cap_suffices cap m' recipe ->
  trade_reduction_M M cap m recipe z = Ok t -> trade_reduction_M M cap m' recipe z = Ok t' ->
  (exists i j, misreports m m' i j) ->
  exists i j, misreports m m' i j
    /\ utility t' i (rank' i j) (agent_value m i j) <= utility t i (rank i j) (agent_value m i j).
Proof. exact tr_group. Qed.
Print Assumptions C79_trade_reduction_group.

(** ** Concrete coalitions *)

Definition in_order (i j : nat) : nat := j.

(** A market whose lists are strictly decreasing is ranked by the position in the lists. *)
Fixpoint decreasing (l : list Q) : Prop :=
  match l with
  | a :: ((b :: _) as l') => b < a /\ decreasing l'
  | _ => True
  end.

Lemma decreasing_nth : forall l j k, decreasing l -> (j < k < length l)%nat -> nth k l 0 < nth j l 0.
Proof.
  induction l as [|a l IH]; intros j k D H; [simpl in H; lia|].
  assert (D' : decreasing l) by (destruct l; simpl in D |- *; tauto).
  destruct k as [|k]; [lia|]. destruct j as [|j].
  - destruct l as [|b l]; [simpl in H; lia|]. destruct D as [D _]. destruct k as [|k]; [exact D|].
    assert (X := IH 0%nat (S k) D' ltac:(simpl in H |- *; lia)). simpl in X |- *. lra.
  - apply (IH j k D'). simpl in H. lia.
Qed.

Lemma in_order_rankings : forall m, Forall (fun c => decreasing (cvalues c)) m -> rankings m in_order.
Proof.
  intros m H i Hi. unfold in_order. split; [|split]; auto. intros j k Hj Hk L.
  destruct (lt_eq_lt_dec k j) as [[X|X]|X]; [assumption| |].
  - subst k. exfalso. lra.
  - exfalso. assert (D : decreasing (nth i (map cvalues m) [])).
    { rewrite Forall_forall in H. rewrite (nth_indep _ _ (cvalues (mkCat "" []))) by (rewrite map_length; assumption).
      rewrite map_nth. apply H. apply nth_In. assumption. }
    assert (Y := decreasing_nth _ j k D ltac:(lia)). lra.
Qed.

(** The market of Props_TreeAuction.v: there the buyers 27, 21, 17 and 11 remain, the price of a seller is -5 and that of
    producer A is -3.  The seller -5 reports -7 and the producer -3 reports -4. *)
Definition ex_coalition : market :=
  [mkCat "buyer" [27; 21; 17; 11; 3]; mkCat "seller" [-(4); -(7); -(11)];
   mkCat "producerA" [-(2); -(4); -(11)]; mkCat "producerB" [-(1); -(2); -(8)]].

Lemma ex_coalition_who : forall i j, misreports ex_market ex_coalition i j -> (i = 1 \/ i = 2)%nat /\ j = 1%nat.
Proof.
  intros i j [[Hi Hj] H]. cbn in Hi.
  destruct i as [|[|[|[|i]]]]; try lia; cbn in Hj;
  destruct j as [|[|[|[|[|j]]]]]; try lia; try (exfalso; apply H; vm_compute; reflexivity); lia.
Qed.

Example C78_hypotheses : same_agents ex_market ex_coalition /\ rankings ex_market in_order /\ rankings ex_coalition in_order
  /\ values_within MAX_VALUE ex_market /\ values_within MAX_VALUE ex_coalition
  /\ initial_prices_ok 4 ex_recipes (- MAX_VALUE) ex_p0 /\ recipes 4 ex_tree = Ok ex_recipes
  /\ misreports ex_market ex_coalition 1 1 /\ misreports ex_market ex_coalition 2 1.
Proof.
  split; [reflexivity|].
  split; [apply in_order_rankings; repeat constructor|]. split; [apply in_order_rankings; repeat constructor|].
  split; [apply ex_within|].
  split; [unfold values_within; apply in_values; repeat constructor; unfold Qle; simpl; lia|].
  split; [exact ex_p0_ok|]. split; [reflexivity|].
  split; (split; [split; cbn; lia|vm_compute; discriminate]).
Qed.

(** Both runs, and the reason why "at least one does not gain" cannot become "one of them loses or none gains": here the
    producer gains (he enters and receives 5 for what costs him 3) and the seller stays at 0. *)
Theorem C78_strong_refuted : exists r r', tree_auction MAX_VALUE ex_p0 20 ex_market ex_struct = Ok r
  /\ tree_auction MAX_VALUE ex_p0 20 ex_coalition ex_struct = Ok r'
  /\ Forall2 Qeq (tt_prices r) [5; -(5); -(3); -(2)] /\ Forall2 Qeq (tt_prices r') [7; -(7); -(5); -(2)]
  /\ (forall i j, misreports ex_market ex_coalition i j -> (i = 1 \/ i = 2)%nat /\ j = 1%nat)
  /\ tree_utility (fun _ _ => 1) r 1 1 (-(5)) == 0 /\ tree_utility (fun _ _ => 1) r' 1 1 (-(5)) == 0
  /\ tree_utility (fun _ _ => 1) r 2 1 (-(3)) == 0 /\ tree_utility (fun _ _ => 1) r' 2 1 (-(3)) == 2.
Proof.
  do 2 eexists. split; [vm_compute; reflexivity|]. split; [vm_compute; reflexivity|].
  split; [repeat constructor|]. split; [repeat constructor|]. split; [exact ex_coalition_who|].
  split; [vm_compute; reflexivity|]. split; [vm_compute; reflexivity|]. split; vm_compute; reflexivity.
Qed.
Print Assumptions C78_strong_refuted.

(** Buyers 9, 8 and 4, sellers -3, -4 and -7: two deals at the price 7.  The buyers 9 and 8 report 6 and 5 and the seller -7
    reports -5; the price becomes 5, and the seller does not gain. *)
Definition tr_truth : market := [mkCat "buyer" [9; 8; 4]; mkCat "seller" [-(3); -(4); -(7)]].
Definition tr_lie : market := [mkCat "buyer" [6; 5; 4]; mkCat "seller" [-(3); -(4); -(5)]].

Definition tr_outcome (m : market) : option (list (list Q) * option (list Q) * nat) :=
  match trade_reduction_M MAX_VALUE 10 m [1; 1]%nat true with
  | Ok t => Some (map cvalues (tcats t), option_map (map Qred) (tprices t), num_of_deals t)
  | _ => None
  end.

Example C79_coalition : tr_outcome tr_truth = Some ([[9; 8]; [-(3); -(4)]], Some [7; -(7)], 2%nat)
  /\ tr_outcome tr_lie = Some ([[6; 5]; [-(3); -(4)]], Some [5; -(5)], 2%nat).
Proof. split; vm_compute; reflexivity. Qed.

Lemma small_if : forall m, length m = 2%nat -> Forall (fun c => Forall (fun v => - (10) <= v <= 10) (cvalues c)) m -> values_small MAX_VALUE [1; 1]%nat m.
Proof.
  intros m L H. apply Proof_Ascending4.small_uniform; [discriminate|exists 0%nat, 1%nat; split; [reflexivity|lia]|symmetry; exact L|].
  exists 10. split; [lra|]. split; [reflexivity|]. intros c v Hc Hv. rewrite Forall_forall in H.
  specialize (H c Hc). rewrite Forall_forall in H. apply H. assumption.
Qed.

Example C79_hypotheses : same_agents tr_truth tr_lie /\ rankings tr_truth in_order /\ rankings tr_lie in_order
  /\ all_ones [1; 1]%nat /\ values_small MAX_VALUE [1; 1]%nat tr_truth /\ values_small MAX_VALUE [1; 1]%nat tr_lie
  /\ cap_suffices 10 tr_truth [1; 1]%nat /\ cap_suffices 10 tr_lie [1; 1]%nat
  /\ misreports tr_truth tr_lie 0 0 /\ misreports tr_truth tr_lie 0 1 /\ misreports tr_truth tr_lie 1 2.
Proof.
  split; [reflexivity|].
  split; [apply in_order_rankings; repeat constructor|]. split; [apply in_order_rankings; repeat constructor|].
  split; [repeat constructor|].
  split; [apply small_if; [reflexivity|]; repeat constructor; unfold Qle; simpl; lia|].
  split; [apply small_if; [reflexivity|]; repeat constructor; unfold Qle; simpl; lia|].
  split; [exists 0%nat, (mkCat "buyer" [9; 8; 4]), 1%nat; repeat split; cbn; lia|].
  split; [exists 0%nat, (mkCat "buyer" [6; 5; 4]), 1%nat; repeat split; cbn; lia|].
  split; [|split]; (split; [split; cbn; lia|vm_compute; discriminate]).
Qed.

(** The buyer 6, who does not trade but whose value is the price, reports 5, and the buyer 9 reports 10: the buyer 9 gains
    and the buyer 6 loses nothing. *)
Theorem C79_strong_refuted : exists m m' t t', same_agents m m' /\ rankings m in_order /\ rankings m' in_order
  /\ trade_reduction_M MAX_VALUE 10 m [1; 1]%nat true = Ok t /\ trade_reduction_M MAX_VALUE 10 m' [1; 1]%nat true = Ok t'
  /\ misreports m m' 0 0 /\ misreports m m' 0 1
  /\ (forall i j, misreports m m' i j -> i = 0%nat /\ (j = 0 \/ j = 1)%nat)
  /\ utility t 0 0 (agent_value m 0 0) < utility t' 0 0 (agent_value m 0 0)
  /\ utility t 0 1 (agent_value m 0 1) == utility t' 0 1 (agent_value m 0 1).
Proof.
  exists [mkCat "buyer" [9; 6]; mkCat "seller" [-(3); -(4)]], [mkCat "buyer" [10; 5]; mkCat "seller" [-(3); -(4)]].
  do 2 eexists. split; [reflexivity|].
  split; [apply in_order_rankings; repeat constructor|]. split; [apply in_order_rankings; repeat constructor|].
  split; [vm_compute; reflexivity|]. split; [vm_compute; reflexivity|].
  split; [split; [split; cbn; lia|vm_compute; discriminate]|]. split; [split; [split; cbn; lia|vm_compute; discriminate]|].
  split.
  { intros i j [[Hi Hj] H]. cbn in Hi. destruct i as [|[|i]]; [|exfalso|lia].
    - cbn in Hj. split; [reflexivity|lia].
    - cbn in Hj. destruct j as [|[|j]]; try lia; apply H; vm_compute; reflexivity. }
  split; vm_compute; reflexivity.
Qed.
Print Assumptions C79_strong_refuted.
