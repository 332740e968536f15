(** * C20, C54, C79, C88: trade reduction for other recipes than vectors of ones *)

From Coq Require Import String List Arith Lia QArith Lqa Permutation.
From Verif Require Import Base Model_Agents Model_Trade Model_Market Model_Ascending Model_TradeReduction Model_Experiment Model_CompareStock
  Spec_Market Spec_Trade Spec_Ascending Spec_TradeReduction Spec_CompareStock Proof_TR8 Proof_TR13 Proof_TR14 Proof_Gsp7 Proof_CompareStock9 Spec_Group Props_Group2.
Import ListNotations.
Open Scope string_scope.
Open Scope Q_scope.

(** ** C20 *)

(** C20.  For every recipe of positive integers, if the scarcest category has no spare agent, an agent does not gain by
    reporting something else than his value. *)
Theorem C20_truthful_no_spare : forall M cap m recipe z i name pre post v v' pos pos' t t', 0 < M -> all_positive recipe ->
  (i < length m)%nat ->
  possible_position (pre ++ post) v pos -> possible_position (pre ++ post) v' pos' ->
  let honest := set_nth i (mkCat name (pre ++ v :: post)%list) m in
  let lying := set_nth i (mkCat name (pre ++ v' :: post)%list) m in
  no_spare honest recipe ->
  values_small M recipe honest -> values_small M recipe lying ->
  cap_suffices cap honest recipe -> cap_suffices cap lying recipe ->
  trade_reduction_M M cap honest recipe z = Ok t -> trade_reduction_M M cap lying recipe z = Ok t' ->
  utility t' i pos' v <= utility t i pos v.
Proof. exact tr_truthful_full. Qed.
Print Assumptions C20_truthful_no_spare.

(** In particular for the markets of the experiments, with n r agents in the category with the entry r, and for vectors of
    ones with any numbers of agents. *)
Theorem C20_no_spare_markets : forall m recipe, recipe <> [] -> length recipe = length m ->
  (all_positive recipe -> (exists n, forall i c r, nth_error m i = Some c -> nth_error recipe i = Some r -> csize c = (n * r)%nat) -> no_spare m recipe)
  /\ (all_ones recipe -> no_spare m recipe).
Proof.
  intros m recipe NE L. split; [intros P [n H]; eapply exact_no_spare; eassumption|intros O; apply ones_no_spare; assumption].
Qed.
Print Assumptions C20_no_spare_markets.

(** ** C79 *)

(** C79.  The same for coalitions: somebody who misreports does not gain. *)
Theorem C79_group_no_spare : forall M cap m m' recipe z t t' rank rank', 0 < M -> all_positive recipe -> no_spare m recipe ->
  same_agents m m' -> rankings m rank -> rankings m' rank' ->
  values_small M recipe m -> values_small M recipe m' ->
  cap_suffices cap m recipe -> cap_suffices cap m' recipe ->
  trade_reduction_M M cap m recipe z = Ok t -> trade_reduction_M M cap m' recipe z = Ok t' ->
  (exists i j, misreports m m' i j) ->
  exists i j, misreports m m' i j
    /\ utility t' i (rank' i j) (agent_value m i j) <= utility t i (rank i j) (agent_value m i j).
Proof. exact tr_group_full. Qed.
Print Assumptions C79_group_no_spare.

(** ** C54 *)

(** C54.  For recipes of ones except for the last entry, if the scarcest category has no spare agent, trade reduction returns
    the same number of deals, the same agents and the same prices as the ascending auction. *)
Theorem C54_same_as_ascending_last : forall M cap rounds m recipe t ta, 0 < M -> ones_but_last recipe -> no_spare m recipe ->
  values_small M recipe m -> cap_suffices cap m recipe ->
  trade_reduction_M M cap m recipe true = Ok t -> ascending_auction_M M rounds m recipe = Ok ta ->
  num_of_deals t = num_of_deals ta
  /\ ((0 < num_of_deals t)%nat ->
      Forall2 (fun c c' => cname c = cname c' /\ Forall2 Qeq (cvalues c) (cvalues c')) (tcats t) (tcats ta)
      /\ exists P Pa, tprices t = Some P /\ tprices ta = Some Pa /\ Forall2 Qeq P Pa).
Proof. exact tr_ascending_last. Qed.
Print Assumptions C54_same_as_ascending_last.

(** Not if the scarcest category has a spare agent: ... *)
Definition spare_market : market := [mkCat "buyer" [10; 9]; mkCat "seller" [-(1); -(2); -(3)]].

Lemma small_two : forall a b m, (0 < a)%nat -> (a + b <= 1000)%nat -> length m = 2%nat ->
  Forall (fun c => Forall (fun v => - (20) <= v <= 20) (cvalues c)) m -> values_small MAX_VALUE [a; b] m.
Proof.
  intros a b m Ha Hab L H. apply Proof_Ascending4.small_uniform; [discriminate|exists 0%nat, a; split; [reflexivity|exact Ha]|symmetry; exact L|].
  exists 20. split; [lra|]. split.
  - unfold nsum. cbn [fold_right]. rewrite Nat.add_0_r. unfold Qn. change 20 with (inject_Z 20). rewrite <- inject_Z_mult.
    change MAX_VALUE with (inject_Z 100000000). rewrite <- Zlt_Qlt. lia.
  - intros c v Hc Hv. rewrite Forall_forall in H. specialize (H c Hc). rewrite Forall_forall in H. apply H. exact Hv.
Qed.

Theorem C54_spare_refuted : exists t ta, ones_but_last [1; 2]%nat /\ ~ no_spare spare_market [1; 2]%nat
  /\ values_small MAX_VALUE [1; 2]%nat spare_market
  /\ trade_reduction spare_market [1; 2]%nat true = Ok t /\ ascending_auction spare_market [1; 2]%nat = Ok ta
  /\ num_of_deals t = 1%nat /\ num_of_deals ta = 1%nat
  /\ tprices t = Some [6; -(3)] /\ tprices ta = Some [9; -(9#2)]
  /\ map cvalues (tcats t) = [[10]; [-(1); -(2)]] /\ map cvalues (tcats ta) = [[10]; [-(1); -(2); -(3)]].
Proof.
  eexists. eexists. split; [exists 1%nat, 2%nat; split; [lia|reflexivity]|].
  split.
  { intros [s [H1 [i [c [r [Hc [Hr [Hp Hz]]]]]]]].
    assert (A := H1 1%nat _ 2%nat eq_refl eq_refl). assert (B := H1 0%nat _ 1%nat eq_refl eq_refl). cbn in A, B.
    destruct i as [|[|i]]; cbn in Hc, Hr; [| |destruct i; discriminate]; injection Hc as <-; injection Hr as <-; cbn in Hz; lia. }
  split; [apply small_two; [lia|lia|reflexivity|]; repeat constructor; unfold Qle; simpl; lia|].
  split; [vm_compute; reflexivity|]. split; [vm_compute; reflexivity|]. split; [reflexivity|]. split; [reflexivity|].
  split; [vm_compute; reflexivity|]. split; [vm_compute; reflexivity|]. split; vm_compute; reflexivity.
Qed.
Print Assumptions C54_spare_refuted.

(** ... nor with the recipe 2:1, on a market without spare sellers. *)
Definition no_spare_market : market :=
  [mkCat "seller" [-(1); -(2); -(3); -(4); -(5); -(7); -(8); -(10)]; mkCat "buyer" [17; 14; 13; 9; 6]].

Lemma no_spare_example : no_spare no_spare_market [2; 1]%nat.
Proof.
  exists 4%nat. split.
  - intros [|[|i]] c r Hc Hr; cbn in Hc, Hr; [| |destruct i; discriminate]; injection Hc as <-; injection Hr as <-; cbn; lia.
  - exists 0%nat. eexists. exists 2%nat. split; [reflexivity|]. split; [reflexivity|]. split; [lia|reflexivity].
Qed.

Theorem C54_two_to_one_refuted : exists t ta, no_spare no_spare_market [2; 1]%nat /\ values_small MAX_VALUE [2; 1]%nat no_spare_market
  /\ trade_reduction no_spare_market [2; 1]%nat true = Ok t /\ ascending_auction no_spare_market [2; 1]%nat = Ok ta
  /\ tprices t = Some [-(5); 10] /\ tprices ta = Some [-(13#2); 13]
  /\ map cvalues (tcats t) = [[-(1); -(2); -(3); -(4)]; [17; 14; 13]]
  /\ map cvalues (tcats ta) = [[-(1); -(2); -(3); -(4); -(5)]; [17; 14]].
Proof.
  eexists. eexists. split; [exact no_spare_example|].
  split; [apply small_two; [lia|lia|reflexivity|]; repeat constructor; unfold Qle; simpl; lia|].
  split; [vm_compute; reflexivity|]. split; [vm_compute; reflexivity|].
  split; [vm_compute; reflexivity|]. split; [vm_compute; reflexivity|]. split; vm_compute; reflexivity.
Qed.
Print Assumptions C54_two_to_one_refuted.

Definition last_market : market := [mkCat "buyer" [17; 14; 9]; mkCat "seller" [-(1); -(2); -(3); -(4); -(5); -(6)]].

Example C54_last_witness : exists t ta, ones_but_last [1; 2]%nat /\ no_spare last_market [1; 2]%nat
  /\ values_small MAX_VALUE [1; 2]%nat last_market /\ cap_suffices 10 last_market [1; 2]%nat
  /\ trade_reduction_M MAX_VALUE 10 last_market [1; 2]%nat true = Ok t /\ ascending_auction_M MAX_VALUE 10 last_market [1; 2]%nat = Ok ta
  /\ num_of_deals t = 2%nat /\ tprices t = Some [10; -(5)] /\ tprices ta = Some [10; -(5)].
Proof.
  eexists. eexists. split; [exists 1%nat, 2%nat; split; [lia|reflexivity]|].
  split.
  { exists 3%nat. split.
    - intros [|[|i]] c r Hc Hr; cbn in Hc, Hr; [| |destruct i; discriminate]; injection Hc as <-; injection Hr as <-; cbn; lia.
    - exists 0%nat. eexists. exists 1%nat. split; [reflexivity|]. split; [reflexivity|]. split; [lia|reflexivity]. }
  split; [apply small_two; [lia|lia|reflexivity|]; repeat constructor; unfold Qle; simpl; lia|].
  split; [exists 0%nat; eexists; exists 1%nat; split; [reflexivity|]; split; [reflexivity|]; cbn; lia|].
  split; [vm_compute; reflexivity|]. split; [vm_compute; reflexivity|]. split; [reflexivity|].
  split; vm_compute; reflexivity.
Qed.

(** C20, C79: the recipe 2:1; the seller of cost 4 reports 6 and loses his part. *)
Definition no_spare_lie : market := set_nth 0 (mkCat "seller" ([-(1); -(2); -(3)] ++ -(6) :: [-(5); -(7); -(8); -(10)])%list) no_spare_market.

Example C20_no_spare_witness : exists t t', all_positive [2; 1]%nat /\ no_spare no_spare_market [2; 1]%nat
  /\ no_spare_market = set_nth 0 (mkCat "seller" ([-(1); -(2); -(3)] ++ -(4) :: [-(5); -(7); -(8); -(10)])%list) no_spare_market
  /\ possible_position ([-(1); -(2); -(3)] ++ [-(5); -(7); -(8); -(10)])%list (-(4)) 3
  /\ possible_position ([-(1); -(2); -(3)] ++ [-(5); -(7); -(8); -(10)])%list (-(6)) 4
  /\ values_small MAX_VALUE [2; 1]%nat no_spare_market /\ values_small MAX_VALUE [2; 1]%nat no_spare_lie
  /\ cap_suffices 10 no_spare_market [2; 1]%nat /\ cap_suffices 10 no_spare_lie [2; 1]%nat
  /\ trade_reduction_M MAX_VALUE 10 no_spare_market [2; 1]%nat true = Ok t
  /\ trade_reduction_M MAX_VALUE 10 no_spare_lie [2; 1]%nat true = Ok t'
  /\ num_of_deals t = 2%nat /\ num_of_deals t' = 2%nat
  /\ utility t 0 3 (-(4)) == 1 /\ utility t' 0 4 (-(4)) == 0.
Proof.
  eexists. eexists. split; [repeat constructor|]. split; [exact no_spare_example|]. split; [reflexivity|].
  split; [vm_compute; lia|]. split; [vm_compute; lia|].
  split; [apply small_two; [lia|lia|reflexivity|]; repeat constructor; unfold Qle; simpl; lia|].
  split; [apply small_two; [lia|lia|reflexivity|]; repeat constructor; unfold Qle; simpl; lia|].
  split; [exists 1%nat; eexists; exists 1%nat; split; [reflexivity|]; split; [reflexivity|]; cbn; lia|].
  split; [exists 1%nat; eexists; exists 1%nat; split; [reflexivity|]; split; [reflexivity|]; cbn; lia|].
  split; [vm_compute; reflexivity|]. split; [vm_compute; reflexivity|]. split; [reflexivity|]. split; [reflexivity|].
  split; vm_compute; reflexivity.
Qed.

(** A coalition on the same market: the sellers of cost 4 and 5 report 9/2 and 6; the one of cost 5 does not gain. *)
Definition no_spare_coalition : market :=
  [mkCat "seller" [-(1); -(2); -(3); -(9#2); -(6); -(7); -(8); -(10)]; mkCat "buyer" [17; 14; 13; 9; 6]].

Example C79_no_spare_witness : exists t t', same_agents no_spare_market no_spare_coalition
  /\ rankings no_spare_market in_order /\ rankings no_spare_coalition in_order
  /\ misreports no_spare_market no_spare_coalition 0 3 /\ misreports no_spare_market no_spare_coalition 0 4
  /\ trade_reduction_M MAX_VALUE 10 no_spare_market [2; 1]%nat true = Ok t
  /\ trade_reduction_M MAX_VALUE 10 no_spare_coalition [2; 1]%nat true = Ok t'
  /\ utility t 0 3 (-(4)) == 1 /\ utility t' 0 3 (-(4)) == 2
  /\ utility t 0 4 (-(5)) == 0 /\ utility t' 0 4 (-(5)) == 0.
Proof.
  eexists. eexists. split; [reflexivity|].
  split; [apply in_order_rankings; repeat constructor|]. split; [apply in_order_rankings; repeat constructor|].
  split; [split; [split; cbn; lia|vm_compute; discriminate]|]. split; [split; [split; cbn; lia|vm_compute; discriminate]|].
  split; [vm_compute; reflexivity|]. split; [vm_compute; reflexivity|].
  split; [vm_compute; reflexivity|]. split; [vm_compute; reflexivity|]. split; vm_compute; reflexivity.
Qed.

(** ** C88 *)

(** C88.  The files with the differences stay empty for every recipe of ones except for the last entry. *)
Theorem C88_last : forall report recipe m n1 n2 cs, ones_but_last recipe -> no_spare m recipe ->
  length recipe = length m -> values_small MAX_VALUE recipe m -> values_at_least (- MAX_VALUE) m ->
  cap_suffices default_max_iterations m recipe -> sorted_market m ->
  compare_columns recipe [(n1, fun m r => trade_reduction m r true); (n2, ascending_auction)] m = Ok cs ->
  diff_files report cs = (false, false).
Proof.
  intros report recipe m n1 n2 cs O NS A B C D E. apply diff_last; [assumption|assumption|].
  split; [exact A|]. split; [exact B|]. split; [exact C|]. split; assumption.
Qed.
Print Assumptions C88_last.
