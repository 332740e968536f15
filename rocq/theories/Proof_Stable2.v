(** * Agents left out: the ascending auction, the recipe-tree auction and trade reduction (C82) *)

From Coq Require Import String List Arith Lia QArith Lqa Permutation Sorted.
From Verif Require Import Base Model_Agents Model_Trade Model_Prices Model_Market Model_Ascending Model_TradeReduction
  Spec_Market Spec_Trade Spec_Ascending Spec_TradeReduction Spec_Stable Proof_Market Proof_Trade Proof_Prices Proof_Ascending
  Proof_Ascending2 Proof_Ascending3 Proof_Ascending4 Proof_Ascending5 Proof_Deals Proof_TR Proof_TR2 Proof_TR3 Proof_TR4 Proof_TR5
  Proof_TR9 Proof_Stable.
Import ListNotations.
Open Scope Q_scope.

Lemma perm_same : forall l l', Permutation l l' -> same_values l l'.
Proof. intros l l' H. apply same_values_red. apply Permutation_map. assumption. Qed.

Lemma shrink_size : forall m ns j, sizes_ok m ns -> (j < length m)%nat -> csize (nth j (shrink m ns) dcat) = nth j ns 0%nat.
Proof.
  intros m ns j Hok Hj.
  assert (E : nth_error (shrink m ns) j = Some (mkCat (cname (nth j m dcat)) (firstn (nth j ns 0%nat) (vals m j)))).
  { unfold shrink. rewrite nth_error_map_seq by assumption. reflexivity. }
  rewrite (nth_error_nth _ _ dcat E). unfold csize. cbn [cvalues]. apply firstn_length_le. apply (proj2 Hok).
Qed.

(** ** Ascending auction *)
Lemma ascending_kept : forall M fuel m recipe t, 0 < M -> ascending_auction_M M fuel m recipe = Ok t -> best_kept m (tcats t).
Proof.
  intros M fuel m recipe t HM H.
  assert (HP : exists P, tprices t = Some P /\ length P = length m).
  { apply auction_outcome in H. destruct H as [Hl [Hpos [ns [stop [Ho [_ [Et _]]]]]]]. rewrite Et. cbn [tprices].
    eexists. split; [reflexivity|]. rewrite final_length. apply clone_length. }
  destruct HP as [P [HP LP]]. destruct (ascending_weakest M fuel m recipe t P HM H HP) as [L W]. split; [assumption|].
  intros i c0 c H0 Hc.
  destruct (nth_error P i) as [p|] eqn:Ep.
  2:{ apply nth_error_None in Ep. assert (i < length m)%nat by (apply nth_error_Some; congruence). lia. }
  destruct (W _ _ _ _ H0 Hc Ep) as [_ [Hd [gone [G1 [G2 _]]]]]. split; [assumption|].
  exists gone. split; [apply perm_same; assumption|assumption].
Qed.

Theorem ascending_stable : forall M fuel m recipe t, 0 < M -> ascending_auction_M M fuel m recipe = Ok t ->
  nothing_left m recipe (tcats t) /\ (forall prices, tprices t = Some prices -> no_envy m (tcats t) prices).
Proof.
  intros M fuel m recipe t HM H. assert (Hb := ascending_kept _ _ _ _ _ HM H).
  apply auction_outcome in H. destruct H as [Hl [Hpos [ns [stop [Ho [_ [Et _]]]]]]]. set (m' := clone_market m) in *.
  assert (Hlm : length m' = length m) by apply clone_length.
  assert (Hok : sizes_ok m' ns) by (destruct (outcome_inv _ _ _ HM Hl Hpos _ _ Ho); assumption).
  assert (Hsz : forall j, (j < length m)%nat -> csize (nth j (tcats t) dcat) = nth j ns 0%nat).
  { intros j Hj. rewrite Et. cbn [tcats]. apply shrink_size; [assumption|lia]. }
  assert (G : forall j y, (j < length m)%nat -> In y (skipn (csize (nth j (tcats t) dcat)) (vals m' j)) -> y <= fp M m' recipe ns stop j).
  { intros j y Hj Hy. rewrite Hsz in Hy by assumption.
    apply (gone_bounded M m' recipe HM Hl Hpos ns stop j y Ho); [apply clone_sorted|lia|assumption]. }
  split.
  - apply stable_prices with (p := fp M m' recipe ns stop); [lia|assumption| |].
    + destruct stop as [i|].
      * rewrite (final_zero_wdot M m' recipe HM Hl Hpos ns i Ho). lra.
      * destruct (outcome_inv _ _ _ HM Hl Hpos _ _ Ho) as [_ [Hneg _]]. unfold psum in Hneg.
        rewrite (wdot_ext _ (pr M m' ns)); [lra|]. intros j Hj _. rewrite fp_other by (lia || discriminate). reflexivity.
    + intros j y Hj _ Hy. apply G; assumption.
  - intros prices HP. rewrite Et in HP. cbn [tprices] in HP. inversion HP; subst prices.
    apply no_envy_of; [assumption|]. intros j p y Hp Hj Hy.
    assert (E : p = fp M m' recipe ns stop j) by (unfold fp; symmetry; apply nth_error_nth; assumption).
    rewrite E. apply G; assumption.
Qed.

(** ** Trade reduction, every recipe *)
Lemma tr_best_kept : forall M cap m recipe z t, values_at_least (- M) m -> trade_reduction_M M cap m recipe z = Ok t ->
  best_kept m (tcats t).
Proof.
  intros M cap m recipe z t Hv Ht.
  destruct (tr_errors M cap m recipe z) as [[_ [Hl Hp]]|[X _]]; [|congruence]. apply has_positive in Hp.
  destruct (tr_spec M cap m recipe z Hl Hp Hv) as [k [deals [rem [t' [Eo _]]]]].
  destruct (tr_kept M cap m recipe z t deals rem Hv Ht Eo) as [L K]. split; [assumption|].
  intros i c0 c H0 Hc. assert (Hi : (i < length recipe)%nat) by (rewrite Hl; apply nth_error_Some; congruence).
  destruct (nth_error recipe i) as [r|] eqn:Er; [|apply nth_error_None in Er; lia].
  destruct (K _ _ _ _ H0 Hc Er) as [_ [Hd [_ [_ G]]]]. split; assumption.
Qed.

Lemma empty_size : forall m j, csize (nth j (empty_agent_categories m) dcat) = 0%nat.
Proof.
  intros m j. unfold csize. destruct (le_lt_dec (length (empty_agent_categories m)) j) as [L|L].
  - rewrite nth_overflow by assumption. reflexivity.
  - rewrite (empty_cats m (nth j (empty_agent_categories m) dcat)); [reflexivity|]. apply nth_In. assumption.
Qed.

Lemma skipn_le_pr : forall M m ns j y, sorted_market m -> In y (skipn (nth j ns 0%nat) (vals m j)) -> y <= pr M m ns j.
Proof.
  intros M m ns j y Hs Hy. unfold pr. apply desc_skipn_le; [apply vals_desc; assumption| |assumption].
  destruct (le_lt_dec (length (vals m j)) (nth j ns 0%nat)) as [L|L]; [|assumption].
  rewrite skipn_all2 in Hy by assumption. destruct Hy.
Qed.

Lemma walk_none : forall M m recipe z o ns, walk M m recipe z o ns = None -> o <> [] -> ~ acceptable z (psum M m recipe (decs o ns)).
Proof.
  intros M m recipe z o ns W Ho X. destruct (walk_accept M m recipe z o ns Ho X) as [r E]. congruence.
Qed.

Theorem tr_stable : forall M cap m recipe z t, cap_suffices cap m recipe -> values_at_least (- M) m ->
  trade_reduction_M M cap m recipe z = Ok t -> nothing_left m recipe (tcats t).
Proof.
  intros M cap m recipe z t Hcap Hv Ht. assert (Hb := tr_best_kept _ _ _ _ _ _ Hv Ht).
  destruct (tr_errors M cap m recipe z) as [[_ [Hl Hp]]|[X _]]; [|congruence]. apply has_positive in Hp.
  destruct (tr_spec M cap m recipe z Hl Hp Hv) as [k [deals [rem [t' [Eo [Ek [Hst [Et [Hnt Hres]]]]]]]]].
  assert (t' = t) by congruence. subst t'. set (m' := clone_market m) in *.
  assert (Hlm : length m' = length m) by apply clone_length.
  assert (Hl' : length recipe = length m') by lia.
  assert (Hs' : sorted_market m') by apply clone_sorted.
  assert (Hv' : values_at_least (- M) m') by (apply values_at_least_clone; assumption).
  unfold tr_result in Hres. fold m' in Hres.
  destruct Hres as [[E0 Et0]|[E0 [u [Hu [[Ew Et0]|[i [ns [P [Ew [Hcat [Hrec [EP [HPq [Hi [Hri [Hni [Hbl Hacc]]]]]]]]]]]]]]]]].
  - apply (stable_optimal cap k); try assumption. intros j Hj. rewrite Et0, E0. cbn [tcats]. rewrite empty_size. reflexivity.
  - assert (Hne : tr_order u recipe <> []).
    { apply order_nonempty; [|assumption]. destruct Hu as [[_ ->]|[_ ->]]; lia. }
    apply walk_none in Ew; [|assumption].
    replace (at_block u recipe) with (at_block (u + 0) recipe) in Ew by (rewrite Nat.add_0_r; reflexivity). rewrite decs_order in Ew.
    apply stable_prices with (p := pr M m' (at_block 0 recipe)); try assumption.
    + apply not_acceptable in Ew. exact Ew.
    + intros j y Hj _ Hy. apply skipn_le_pr; [assumption|]. rewrite Et0 in Hy. cbn [tcats] in Hy. rewrite empty_size in Hy.
      rewrite at_block_nth. exact Hy.
  - assert (Henu : enough u m' recipe).
    { destruct Hu as [[A ->]|[_ ->]]; [assumption|apply (proj1 (proj2 Hst))]. }
    assert (Hok := below_ok m' recipe _ Hl' (block_sizes_ok m' recipe u Hl' Henu) ns Hbl).
    assert (Hsz : forall j, (j < length m)%nat -> csize (nth j (tcats t) dcat) = nth j ns 0%nat).
    { intros j Hj. destruct (nth_error (tcats t) j) as [c|] eqn:Ec.
      2:{ apply nth_error_None in Ec. rewrite (Forall2_length _ _ _ _ _ Hcat), shrink_length in Ec. lia. }
      destruct (Forall2_cat_nth _ _ _ _ Hcat Ec) as [c' [Hc' Hq]]. rewrite (nth_error_nth _ _ dcat Ec).
      rewrite (cat_eq_size _ _ Hq). rewrite <- (nth_error_nth _ _ dcat Hc'). apply shrink_size; [assumption|lia]. }
    destruct (walk_last _ _ _ _ _ _ _ _ Ew) as [_ [[En|En] _]].
    + (* nobody was put back *)
      destruct Hu as [[A ->]|[A ->]].
      * (* the extra procurement set would have been profitable *)
        exfalso. apply (stop_reason cap k m' recipe true (cap_clone _ _ _ Hcap) Hst A). apply acceptable_nonneg in Hacc. simpl. eapply Qle_trans; [exact Hacc|].
        subst ns. apply psum_le_gain; try assumption. intros j Hj Hrj.
        assert (Z : (nth j (at_block (S k) recipe) 0 - 1 <= nth j (dec i (at_block (S k) recipe)) 0)%nat).
        { unfold dec. destruct (Nat.eq_dec i j) as [->|N].
          - rewrite nth_set_nth_same; [lia|]. unfold at_block. rewrite map_length. lia.
          - rewrite nth_set_nth_other by assumption. lia. }
        rewrite at_block_nth in Z. exact Z.
      * apply (stable_optimal cap k); try assumption. intros j Hj. rewrite Hsz by assumption. subst ns. apply at_block_nth.
    + apply stable_prices with (p := pr M m' ns); try assumption.
      * apply not_acceptable in En. exact En.
      * intros j y Hj _ Hy. apply skipn_le_pr; [assumption|]. rewrite Hsz in Hy by assumption. exact Hy.
Qed.
