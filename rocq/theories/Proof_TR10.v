(** * Trade reduction and the flag including_gft_0 (C19) *)

From Coq Require Import String List Arith Lia QArith Lqa Permutation Sorted.
From Verif Require Import Base Model_Agents Model_Prices Model_Trade Model_Market Model_Ascending Model_TradeReduction
  Spec_Market Spec_Trade Spec_Ascending Spec_TradeReduction Proof_Market Proof_Trade Proof_Prices Proof_Ascending
  Proof_Ascending2 Proof_Ascending3 Proof_Ascending4 Proof_Deals
  Proof_TR Proof_TR2 Proof_TR3 Proof_TR4 Proof_TR5.
Import ListNotations.
Open Scope Q_scope.

(** Recipes of ones: only procurement sets that are acceptable under the flag can be traded. *)
Theorem tr_deals_flag : forall M cap m recipe z t dealsz remz, cap_suffices cap m recipe -> values_at_least (- M) m ->
  all_ones recipe ->
  trade_reduction_M M cap m recipe z = Ok t -> optimal_trade cap m recipe z = Ok (dealsz, remz) ->
  (forall i c, nth_error (tcats t) i = Some c -> (csize c <= mt_num_of_deals dealsz)%nat)
  /\ (num_of_deals t <= mt_num_of_deals dealsz)%nat.
Proof.
  intros M cap m recipe z t dealsz remz Hcap Hv H1 Ht Ez.
  destruct (tr_errors M cap m recipe z) as [[_ [Hl Hp]]|[X _]]; [|congruence].
  apply has_positive in Hp.
  destruct (tr_spec M cap m recipe z Hl Hp Hv) as [k [deals' [rem' [t' [Eo' [Ek [Hst [Et [Hnt Hres]]]]]]]]].
  assert (t' = t) by congruence. subst t'.
  set (m' := clone_market m) in *.
  assert (Hl' : length recipe = length m') by (unfold m'; rewrite clone_length; assumption).
  assert (Hs' : sorted_market m') by apply clone_sorted.
  assert (Hv' : values_at_least (- M) m') by (apply values_at_least_clone; assumption).
  assert (Hcap' : cap_suffices cap m' recipe) by (apply cap_clone; assumption).
  destruct (optimal_trade_spec cap m recipe z Hl) as [kz [Ez' Hz]]. fold m' in Ez', Hz.
  assert (X : mt_num_of_deals dealsz = kz).
  { rewrite Ez in Ez'. inversion Ez'. unfold mt_num_of_deals.
    rewrite (Permutation_length (sort_by_perm _ Qsum _)), map_length, seq_length. reflexivity. }
  rewrite X. clear Ez Ez' X.
  assert (LZ : (kz <= k)%nat).
  { destruct (le_lt_dec kz k) as [L|L]; [assumption|exfalso].
    apply (later_unacceptable cap k m' recipe true Hs' Hcap' Hst k (le_n _)).
    - eapply enough_le; [|apply (proj1 (proj2 Hz))]. lia.
    - assert (A := proj1 (proj2 (proj2 Hz)) k L). destruct z; simpl in *; lra. }
  assert (Empty : tcats t = empty_agent_categories m ->
     forall i c, nth_error (tcats t) i = Some c -> (csize c <= kz)%nat).
  { intros E i c Hc. rewrite E in Hc. apply nth_error_In in Hc. unfold csize. rewrite (empty_cats m c Hc). simpl. lia. }
  unfold tr_result in Hres. fold m' in Hres. destruct Hres as [[E0 Et0]|[E0 [u [Hu Hw]]]].
  { split; [apply Empty|]; rewrite Et0; [reflexivity|apply Nat.le_0_l]. }
  assert (Henu : enough u m' recipe).
  { destruct Hu as [[A ->]|[_ ->]]; [assumption|apply (proj1 (proj2 Hst))]. }
  assert (Hku : (k <= u)%nat) by (destruct Hu as [[_ ->]|[_ ->]]; lia).
  destruct Hw as [[Ew Et0]|[i [ns [P [Ew [Hcat [_ [_ [_ [Hi [Hri [Hni [Hb Hacc]]]]]]]]]]]]].
  { split; [apply Empty|]; rewrite Et0; [reflexivity|apply Nat.le_0_l]. }
  assert (W : walk M m' recipe z (tr_order u recipe) (at_block u recipe)
            = walk M m' recipe z (tr_order kz recipe) (at_block kz recipe)).
  { destruct (Nat.eq_dec u kz) as [->|Hne]; [reflexivity|].
    replace u with ((u - kz) + kz)%nat at 1 2 by lia. rewrite tr_order_split, walk_app.
    rewrite walk_reject; [rewrite decs_order; reflexivity|].
    intros ns' L Hn Ha. rewrite decs_order in Hn.
    assert (He1 : enough (S kz) m' recipe) by (eapply enough_le; [|exact Henu]; lia).
    assert (Q := later_unacceptable cap kz m' recipe z Hs' Hcap' Hz kz (le_n _) He1).
    apply Q. eapply acceptable_le; [|exact Ha].
    apply psum_le_gain; try assumption. intros j Hj Hr. specialize (Hn j).
    rewrite at_block_nth, (all_ones_nth recipe j H1 Hj) in Hn. rewrite (all_ones_nth recipe j H1 Hj). lia. }
  rewrite W in Ew. apply walk_last in Ew. destruct Ew as [_ [_ B]].
  assert (Sz : forall j c, nth_error (tcats t) j = Some c -> (csize c <= kz)%nat).
  { intros j c Hc. destruct (Forall2_cat_nth _ _ _ _ Hcat Hc) as [c' [Hc' E]].
    rewrite (cat_eq_size _ _ E). apply shrink_nth in Hc'. destruct Hc' as [Hj ->].
    unfold csize. cbn [cvalues]. rewrite firstn_length. specialize (B j).
    rewrite at_block_nth, (all_ones_nth recipe j H1) in B by lia. lia. }
  split; [exact Sz|].
  destruct (deals_max _ _ _ _ Hnt) as [_ [Hsup Hmax]]. fold (num_of_deals t) in Hsup.
  destruct (nth_error (tcats t) i) as [c|] eqn:Ec.
  - assert (Hr : nth_error recipe i = Some 1%nat).
    { rewrite (nth_error_nth' recipe 0%nat) by lia. rewrite (all_ones_nth recipe i H1) by lia. reflexivity. }
    specialize (Hsup i c 1%nat Ec Hr). specialize (Sz i c Ec). lia.
  - apply nth_error_None in Ec. rewrite (Forall2_length _ _ _ _ _ Hcat), shrink_length in Ec. lia.
Qed.
