(** * Trade reduction and the ascending auction, recipes of ones except for the last entry (C54) *)

From Coq Require Import String List Arith Lia QArith Lqa Permutation Sorted Bool.
From Verif Require Import Base Model_Agents Model_Trade Model_Prices Model_Market Model_Ascending Model_TradeReduction
  Spec_Market Spec_Trade Spec_Ascending Spec_TradeReduction Proof_Market Proof_Trade Proof_Prices Proof_Ascending
  Proof_Ascending2 Proof_Strategy Proof_Ascending3 Proof_Ascending4 Proof_Deals Proof_TR Proof_TR2 Proof_TR3 Proof_TR4 Proof_TR5 Proof_TR6 Proof_TR7
  Proof_TR11 Proof_TR12 Proof_TR13.
Import ListNotations.
Open Scope Q_scope.

Theorem tr_ascending_last : forall M cap fuel m recipe t ta, 0 < M -> ones_but_last recipe -> no_spare m recipe -> values_small M recipe m ->
  cap_suffices cap m recipe -> trade_reduction_M M cap m recipe true = Ok t -> ascending_auction_M M fuel m recipe = Ok ta ->
  num_of_deals t = num_of_deals ta
  /\ ((0 < num_of_deals t)%nat -> Forall2 cat_eq (tcats t) (tcats ta)
      /\ exists P Pa, tprices t = Some P /\ tprices ta = Some Pa /\ Forall2 Qeq P Pa).
Proof.
  intros M cap fuel m recipe t ta HM [n [r [Hr Erec]]] Full Hsm Hcap Ht Hta.
  assert (Hta' : ascending_auction_M M (fuel + total_agents m) m recipe = Ok ta).
  { unfold ascending_auction_M in *. destruct (length recipe =? length m)%nat; [|discriminate].
    apply bind_Ok in Hta. destruct Hta as [s [Hs Hta]]. rewrite (ascending_loop_mono _ (total_agents m) _ _ _ Hs). exact Hta. }
  destruct (auction_outcome _ _ _ _ _ Hta') as [Hl [Hp [ns [stop [Ho [Ha [Eta [Hsup Hmax]]]]]]]].
  assert (Lm : length recipe = length m) by (rewrite Hl; apply clone_length).
  destruct (no_spare_scarce m recipe Lm Full) as [s [j0 Sc]].
  set (m' := clone_market m) in *.
  assert (Pos : positive recipe) by (rewrite Erec; apply last_positive; exact Hr).
  assert (Hne : recipe <> []) by (rewrite Erec; destruct n; discriminate).
  destruct (path_reach_block recipe s Pos Hne (fuel + total_agents m) (sizes0 m')) as [o1 [f [Ep [Eo Ef]]]].
  { unfold sizes0. rewrite map_length. symmetry. exact Hl. }
  { intros j Hj. rewrite sizes0_nth. apply (proj1 (enough_nth s m' recipe Hl) (proj1 Sc) j Hj). }
  { unfold m'. rewrite nsum_sizes0_clone. lia. }
  destruct (tr_front M cap m recipe true t s j0 o1 HM Hsm Hcap Ht Sc Eo) as [_ [_ Hw]]. fold m' in Hw.
  assert (Eb : path f recipe (at_block s recipe) = tr_order s recipe).
  { rewrite Erec in Ef |- *. apply path_blocks_last; assumption. }
  rewrite Eb in Ep. rewrite <- Ep in Hw.
  assert (W := abs_loop_walk _ _ _ _ _ _ _ Ha).
  destruct stop as [i|]; rewrite W in Hw; cbn [front] in Hw.
  - destruct Hw as [Hok [T1 [T2 T3]]].
    assert (D : num_of_deals t = num_of_deals ta) by (apply Nat.le_antisymm; [apply Hmax|apply T2]; assumption).
    split; [exact D|]. intros X. destruct (T3 X) as [P [C1 [C2 [C3 C4]]]].
    assert (Ec : tcats ta = shrink m' ns) by (rewrite Eta; reflexivity). rewrite Ec. split; [exact C1|].
    exists P, (final_prices M m' recipe ns (Some i)). split; [assumption|]. split; [rewrite Eta; reflexivity|assumption].
  - rewrite Hw.
    assert (D0 : num_of_deals ta = 0%nat).
    { destruct (num_of_deals ta) as [|d] eqn:E; [reflexivity|exfalso].
      destruct (deals_zero_stop M m' recipe ns None (S d) HM Hl Hp Ho Hsup ltac:(lia)) as [main X]. discriminate. }
    split; [auto|]. intros X. lia.
Qed.

(** Recipes of ones are the simplest case. *)
Lemma ones_repeat : forall recipe, all_ones recipe -> recipe = repeat 1%nat (length recipe).
Proof. induction recipe as [|r recipe IH]; intros H; [reflexivity|]. inversion H; subst. cbn [length repeat]. f_equal. apply IH. assumption. Qed.

Lemma ones_are_last : forall recipe, recipe <> [] -> all_ones recipe -> ones_but_last recipe.
Proof.
  intros recipe Hne H. exists (pred (length recipe)), 1%nat. split; [lia|]. rewrite (ones_repeat recipe H) at 1.
  destruct recipe as [|r recipe]; [congruence|]. cbn [length pred repeat]. apply repeat_cons.
Qed.

Lemma last_all_positive : forall recipe, ones_but_last recipe -> all_positive recipe.
Proof.
  intros recipe [n [r [Hr ->]]]. unfold all_positive. apply Forall_app. split; [|constructor; [exact Hr|constructor]].
  apply Forall_forall. intros x Hx. apply repeat_spec in Hx. lia.
Qed.

Lemma ones_no_spare : forall m recipe, recipe <> [] -> all_ones recipe -> length recipe = length m -> no_spare m recipe.
Proof.
  intros m recipe Hne H Hl. destruct (smallest_size m recipe Hl Hne H) as [s [Hen [j [Hj Es]]]].
  exists s. split; [exact Hen|]. exists j, (nth j m dcat), 1%nat.
  split; [apply nth_error_nth'; exact Hj|]. split; [rewrite (nth_error_nth' recipe 0%nat) by lia; rewrite (all_ones_nth recipe j H) by lia; reflexivity|].
  split; [lia|]. rewrite Nat.mul_1_r. exact Es.
Qed.

(** Markets with [n * r] agents in every category. *)
Lemma exact_no_spare : forall m recipe n, recipe <> [] -> all_positive recipe -> length recipe = length m ->
  (forall i c r, nth_error m i = Some c -> nth_error recipe i = Some r -> csize c = (n * r)%nat) -> no_spare m recipe.
Proof.
  intros m recipe n Hne Hp Hl H. exists n. split.
  - intros i c r Hc Hr. rewrite (H i c r Hc Hr). lia.
  - destruct recipe as [|r recipe]; [congruence|]. destruct m as [|c m]; [discriminate|]. inversion Hp; subst.
    exists 0%nat, c, r. split; [reflexivity|]. split; [reflexivity|]. split; [assumption|]. apply (H 0%nat); reflexivity.
Qed.
