(** * Agents left out: prices of trade reduction, McAfee's mechanism (C82) *)

From Coq Require Import String List Arith Lia QArith Lqa Qabs Permutation Sorted Bool.
From Verif Require Import Base Model_Agents Model_Trade Model_Prices Model_Market Model_Ascending Model_TradeReduction Model_McAfee
  Spec_Market Spec_Trade Spec_Ascending Spec_TradeReduction Spec_McAfee Spec_Stable Proof_Market Proof_Trade Proof_Prices Proof_Ascending
  Proof_Ascending2 Proof_Ascending3 Proof_Ascending4 Proof_Ascending5 Proof_Deals Proof_TR Proof_TR2 Proof_TR3 Proof_TR4 Proof_TR5
  Proof_TR9 Proof_McAfee Proof_McAfee2 Proof_Stable Proof_Stable2.
Import ListNotations.
Open Scope Q_scope.

Lemma not_enough_exhausted : forall k m recipe, length recipe = length m -> all_ones recipe -> enough k m recipe ->
  ~ enough (S k) m recipe -> exists j, (j < length m)%nat /\ length (vals m j) = k.
Proof.
  intros k m recipe Hl H1 He Hn.
  assert (X : ~ forall j, (j < length m)%nat -> (S k <= length (vals m j))%nat).
  { intros X. apply Hn. apply enough_nth; [assumption|]. intros j Hj. rewrite (all_ones_nth recipe j H1 Hj), Nat.mul_1_r.
    apply X. lia. }
  assert (D : (forall j, (j < length m)%nat -> (S k <= length (vals m j))%nat)
     \/ exists j, (j < length m)%nat /\ (length (vals m j) < S k)%nat).
  { clear. generalize (length m). induction n as [|n IH]; [left; intros; lia|].
    destruct IH as [IH|[j [A B]]]; [|right; exists j; lia].
    destruct (le_lt_dec (S k) (length (vals m n))) as [L|L].
    - left. intros j Hj. destruct (Nat.eq_dec j n) as [->|N]; [assumption|apply IH; lia].
    - right. exists n. lia. }
  destruct D as [D|[j [Hj Hlt]]]; [contradiction|]. exists j. split; [assumption|].
  assert (Y := proj1 (enough_nth _ _ _ Hl) He j ltac:(lia)). rewrite (all_ones_nth recipe j H1 ltac:(lia)) in Y. lia.
Qed.

Lemma ones_wdot : forall f recipe, all_ones recipe -> wdot f recipe == Qsum (map f (seq 0 (length recipe))).
Proof.
  intros f recipe H. unfold wdot. apply Qsum_map_ext. intros j Hj. apply in_seq in Hj.
  rewrite (all_ones_nth recipe j H) by lia. rewrite Qn_1. ring.
Qed.

Lemma sum_one_low : forall (f : nat -> Q) B M n j, (j < n)%nat -> 0 <= B -> (forall i, (i < n)%nat -> f i <= B) -> f j <= - M ->
  Qsum (map f (seq 0 n)) <= - M + B * Qn n.
Proof.
  intros f B M n j Hj HB Hf Hlow.
  replace n with (j + (1 + (n - 1 - j)))%nat at 1 by lia. rewrite !seq_app, !map_app, !Qsum_app. simpl seq at 2. simpl map at 2.
  assert (U : forall l, (forall i, In i l -> (i < n)%nat) -> Qsum (map f l) <= B * Qn (length l)).
  { induction l as [|a l IH]; intros Hl; [simpl; rewrite Qn_0; lra|].
    cbn [map length]. rewrite Qsum_cons. assert (IH' := IH (fun i Hi => Hl i (or_intror Hi))). specialize (Hf a (Hl a (or_introl eq_refl))).
    replace (S (length l)) with (length l + 1)%nat by lia. rewrite Qn_plus, Qn_1. lra. }
  assert (U1 := U (seq 0 j) ltac:(intros i Hi; apply in_seq in Hi; lia)).
  assert (U2 := U (seq (0 + j + 1) (n - 1 - j)) ltac:(intros i Hi; apply in_seq in Hi; lia)).
  rewrite seq_length in U1, U2.
  assert (E : Qn n == Qn j + (1 + Qn (n - 1 - j))).
  { rewrite <- Qn_1, <- !Qn_plus. apply Qn_eq. lia. }
  rewrite E. rewrite Qsum_cons. simpl (Qsum []). simpl (0 + j)%nat in *. lra.
Qed.

Theorem tr_no_envy : forall M cap m recipe z t prices, all_ones recipe -> values_small M recipe m ->
  cap_suffices cap m recipe -> trade_reduction_M M cap m recipe z = Ok t -> (0 < num_of_deals t)%nat ->
  tprices t = Some prices -> no_envy m (tcats t) prices.
Proof.
  intros M cap m recipe z t prices H1 Hsm Hcap Ht Hd HP.
  assert (Hpos : has_positive_entry recipe).
  { destruct Hcap as [i [c [r [_ [Hr [Hr0 _]]]]]]. exists i, r. split; assumption. }
  assert (Hv : values_at_least (- M) m) by exact (proj1 Hsm).
  assert (HM : 0 <= M).
  { destruct (tr_errors M cap m recipe z) as [[_ [Hl _]]|[X _]]; [|congruence].
    apply Qlt_le_weak, (Proof_Ascending4.small_M_pos M recipe m Hpos Hl Hsm). }
  assert (Hb := tr_best_kept _ _ _ _ _ _ Hv Ht).
  destruct (tr_errors M cap m recipe z) as [[_ [Hl Hp]]|[X _]]; [|congruence]. apply has_positive in Hp.
  destruct (tr_spec M cap m recipe z Hl Hp Hv) as [k [deals [rem [t' [Eo [Ek [Hst [Et [Hnt Hres]]]]]]]]].
  assert (t' = t) by congruence. subst t'. set (m' := clone_market m) in *.
  assert (Hlm : length m' = length m) by apply clone_length.
  assert (Hl' : length recipe = length m') by lia.
  assert (Hs' : sorted_market m') by apply clone_sorted.
  assert (Hv' : values_at_least (- M) m') by (apply values_at_least_clone; assumption).
  unfold tr_result in Hres. fold m' in Hres.
  destruct Hres as [[E0 Et0]|[E0 [u [Hu [[Ew Et0]|[i [ns [P [Ew [Hcat [Hrec [EP [HPq [Hi [Hri [Hni [Hbl Hacc]]]]]]]]]]]]]]]]].
  - rewrite Et0 in Hd. unfold num_of_deals in Hd. simpl in Hd. lia.
  - rewrite Et0 in Hd. unfold num_of_deals in Hd. simpl in Hd. lia.
  - assert (Henu : enough u m' recipe).
    { destruct Hu as [[A ->]|[_ ->]]; [assumption|apply (proj1 (proj2 Hst))]. }
    assert (Hok := below_ok m' recipe _ Hl' (block_sizes_ok m' recipe u Hl' Henu) ns Hbl).
    assert (Hsz : forall j, (j < length m)%nat -> csize (nth j (tcats t) dcat) = nth j ns 0%nat).
    { intros j Hj. destruct (nth_error (tcats t) j) as [c|] eqn:Ec.
      2:{ apply nth_error_None in Ec. rewrite (Forall2_length _ _ _ _ _ Hcat), shrink_length in Ec. lia. }
      destruct (Forall2_cat_nth _ _ _ _ Hcat Ec) as [c' [Hc' Hq]]. rewrite (nth_error_nth _ _ dcat Ec).
      rewrite (cat_eq_size _ _ Hq). rewrite <- (nth_error_nth _ _ dcat Hc'). apply shrink_size; [assumption|lia]. }
    assert (Hneg : psum M m' recipe ns <= 0).
    { destruct (walk_last _ _ _ _ _ _ _ _ Ew) as [_ [[En|En] _]]; [|apply not_acceptable in En; exact En].
      destruct Hu as [[A ->]|[A ->]].
      - exfalso. apply (stop_reason cap k m' recipe true (cap_clone _ _ _ Hcap) Hst A). apply acceptable_nonneg in Hacc. simpl.
        eapply Qle_trans; [exact Hacc|]. subst ns. apply psum_le_gain; try assumption. intros j Hj Hrj.
        assert (Z : (nth j (at_block (S k) recipe) 0 - 1 <= nth j (dec i (at_block (S k) recipe)) 0)%nat).
        { unfold dec. destruct (Nat.eq_dec i j) as [->|N].
          - rewrite nth_set_nth_same; [lia|]. unfold at_block. rewrite map_length. lia.
          - rewrite nth_set_nth_other by assumption. lia. }
        rewrite at_block_nth in Z. exact Z.
      - destruct (not_enough_exhausted k m' recipe Hl' H1 Henu A) as [j [Hj Ej]].
        apply Qlt_le_weak. apply (Proof_Ascending4.untouched_negative M m' recipe Hl' ns j (Proof_Ascending4.small_clone_market _ _ _ Hsm)).
        + lia.
        + rewrite (all_ones_nth recipe j H1) by lia. lia.
        + subst ns. rewrite at_block_nth, (all_ones_nth recipe j H1) by lia. lia. }
    assert (P = prices) by congruence. subst P.
    apply no_envy_of; [assumption|]. intros j p y Hpj Hj Hy. rewrite Hsz in Hy by assumption.
    assert (Ep : p == fp M m' recipe ns (Some i) j).
    { unfold fp. rewrite <- (qeq_nth _ _ j 0 HPq). rewrite (nth_error_nth _ _ _ Hpj). reflexivity. }
    rewrite Ep. eapply Qle_trans; [apply (skipn_le_pr M); eassumption|].
    destruct (Nat.eq_dec i j) as [->|N].
    + rewrite fp_main by assumption. apply bal_lower; assumption.
    + rewrite fp_other by (try lia; congruence). apply Qle_refl.
Qed.

(** ** McAfee *)
Lemma mc_kept : forall M cap m recipe h t deals rem, mcafee_M M cap m recipe h = Ok t ->
  optimal_trade cap m recipe true = Ok (deals, rem) ->
  best_kept m (tcats t) /\ forall j, (j < length m)%nat -> csize (nth j (tcats t) dcat) = num_of_deals t.
Proof.
  intros M cap m recipe h t deals rem H Ho.
  destruct (mcafee_traders M cap m recipe h t deals rem H Ho) as (_ & _ & _ & L & K & _).
  split.
  - split; [assumption|]. intros i c0 c H0 Hc. destruct (K _ _ _ H0 Hc) as (_ & Hd & _ & G). split; assumption.
  - intros j Hj. destruct (nth_error m j) as [c0|] eqn:E0; [|apply nth_error_None in E0; lia].
    destruct (nth_error (tcats t) j) as [c|] eqn:Ec; [|apply nth_error_None in Ec; lia].
    destruct (K _ _ _ E0 Ec) as (_ & _ & S & _). rewrite (nth_error_nth _ _ dcat Ec). assumption.
Qed.

(** When all optimal deals are made nothing is left; otherwise what is left is at most the gain of the deal given up, which
    is the surplus of the prices. *)
Theorem mcafee_stable : forall M cap m recipe h t deals rem prices, cap_suffices cap m recipe ->
  mcafee_M M cap m recipe h = Ok t -> optimal_trade cap m recipe true = Ok (deals, rem) -> tprices t = Some prices ->
  (num_of_deals t = mt_num_of_deals deals -> nothing_left m recipe (tcats t))
  /\ (num_of_deals t <> mt_num_of_deals deals ->
        forall out D, left_out m (tcats t) out -> feasible out recipe D -> total_gain D <= Qsum prices).
Proof.
  intros M cap m recipe h t deals rem prices Hcap H Ho HP.
  destruct (mc_kept _ _ _ _ _ _ _ _ H Ho) as [Hb Hsz].
  destruct (mcafee_result _ _ _ _ _ _ _ _ H Ho) as [Hne [Hl [H1 [Hst [Er [Eg R]]]]]].
  set (k := mt_num_of_deals deals) in *. set (m' := clone_market m) in *.
  assert (Hlm : length m' = length m) by apply clone_length.
  assert (Hl' : length recipe = length m') by lia.
  split.
  - intros Hk. apply (stable_optimal cap k); try assumption. intros j Hj. rewrite Hsz by assumption.
    rewrite (all_ones_nth recipe j H1) by lia. lia.
  - intros Hk out D Hout HD.
    assert (Dl := mc_deals _ _ _ _ _ R). destruct (mc_prices _ _ _ _ _ R) as [P' [HP' [LP Hp]]].
    assert (P' = prices) by congruence. subst P'.
    destruct k as [|k']; [congruence|]. cbv zeta in Hp.
    destruct (accepted M m' (S k') h (row 0 m' k')) eqn:EA; [congruence|].
    assert (Qp : qeq prices (row 0 m' k')).
    { apply qeq_of_nth; [rewrite row_length; assumption|]. intros x Hx. rewrite Hp by lia. unfold row.
      rewrite (nth_indep (map (fun c => nth k' (cvalues c) 0) m') 0 ((fun c => nth k' (cvalues c) 0) dcat)) by (rewrite map_length; lia).
      rewrite (map_nth (fun c => nth k' (cvalues c) 0)). reflexivity. }
    rewrite (qeq_sum _ _ Qp). rewrite <- (ones_gain m' recipe k') by (try assumption; apply (proj1 (proj2 Hst))).
    destruct (out_bound m recipe (tcats t) out D Hl Hb Hout HD) as [Hn Hg]. eapply Qle_trans; [exact Hg|]. fold m'.
    assert (En : enough (k' + length D) m' recipe).
    { apply enough_nth; [assumption|]. intros j Hj. specialize (Hn j Hj). rewrite Hsz in Hn by lia. fold m' in Hn.
      assert (X := proj1 (enough_nth _ _ _ Hl') (proj1 (proj2 Hst)) j Hj).
      rewrite (all_ones_nth recipe j H1) in * by lia. lia. }
    assert (X := top_gain_max cap (S k') m' recipe true (clone_sorted m) (cap_clone _ _ _ Hcap) Hst _ En).
    rewrite (top_gain_S m' recipe k') in X. rewrite !top_gain_seq in X by assumption.
    rewrite (Qsum_map_ext _ (fun j => Qsum (firstn ((k' + length D) * nth j recipe 0%nat) (vals m' j)))
       (fun j => Qsum (firstn (k' * nth j recipe 0%nat) (vals m' j)) + Qsum (firstn (length D * nth j recipe 0%nat)
          (skipn (csize (nth j (tcats t) dcat)) (vals m' j))))) in X.
    + rewrite Qsum_map_plus in X. lra.
    + intros j Hj. apply in_seq in Hj. rewrite Hsz by lia. rewrite Dl.
      rewrite (Qsum_firstn_split (k' * nth j recipe 0%nat) ((k' + length D) * nth j recipe 0%nat)) by nia.
      replace ((k' + length D) * nth j recipe 0 - k' * nth j recipe 0)%nat with (length D * nth j recipe 0)%nat by nia.
      rewrite (all_ones_nth recipe j H1) by lia. rewrite !Nat.mul_1_r. reflexivity.
Qed.

(** Without the heuristic (or when its price is refused) nobody left out would like to trade at the prices. *)
Theorem mcafee_no_envy : forall M cap m recipe h t deals rem prices,
  mcafee_M M cap m recipe h = Ok t -> optimal_trade cap m recipe true = Ok (deals, rem) -> tprices t = Some prices ->
  num_of_deals t <> mt_num_of_deals deals -> no_envy m (tcats t) prices.
Proof.
  intros M cap m recipe h t deals rem prices H Ho HP Hk.
  destruct (mc_kept _ _ _ _ _ _ _ _ H Ho) as [Hb Hsz].
  destruct (mcafee_result _ _ _ _ _ _ _ _ H Ho) as [Hne [Hl [H1 [Hst [Er [Eg R]]]]]].
  set (k := mt_num_of_deals deals) in *. set (m' := clone_market m) in *.
  assert (Hlm : length m' = length m) by apply clone_length.
  assert (Dl := mc_deals _ _ _ _ _ R). destruct (mc_prices _ _ _ _ _ R) as [P' [HP' [LP Hp]]].
  assert (P' = prices) by congruence. subst P'.
  destruct k as [|k']; [congruence|]. cbv zeta in Hp.
  destruct (accepted M m' (S k') h (row 0 m' k')) eqn:EA; [congruence|].
  apply no_envy_of; [assumption|]. intros j p y Hpj Hj Hy. rewrite Hsz in Hy by assumption.
  apply (nth_error_nth _ _ 0) in Hpj. rewrite <- Hpj, Hp by lia. rewrite Dl in Hy.
  apply desc_skipn_le; [apply vals_desc; apply clone_sorted| |assumption].
  destruct (le_lt_dec (length (vals m' j)) k') as [L|L]; [|assumption].
  fold m' in Hy. rewrite skipn_all2 in Hy by assumption. destruct Hy.
Qed.

Lemma two_sum : forall (f : nat -> Q) b, (b < 2)%nat -> Qsum (map f (seq 0 2)) == f b + f (1 - b)%nat.
Proof. intros f b Hb. destruct b as [|[|b]]; [| |lia]; cbn [seq map]; rewrite !Qsum_cons; simpl (Qsum []); simpl Nat.sub; ring. Qed.

Lemma two_index : forall j b, (j < 2)%nat -> (b < 2)%nat -> j = b \/ j = (1 - b)%nat.
Proof. intros. lia. Qed.

(** The heuristic price in a two-sided market: nobody left out would like to trade at it. *)
Theorem mcafee_no_envy_two : forall M cap m recipe h t deals rem prices b, 0 < M -> length m = 2%nat -> (b < 2)%nat ->
  (forall x, In x (nth b (map cvalues m) []) -> 0 <= x /\ 2 * x < M) ->
  (forall x, In x (nth (1 - b) (map cvalues m) []) -> x < 0) ->
  cap_suffices cap m recipe ->
  mcafee_M M cap m recipe h = Ok t -> optimal_trade cap m recipe true = Ok (deals, rem) -> tprices t = Some prices ->
  (0 < num_of_deals t)%nat -> no_envy m (tcats t) prices.
Proof.
  intros M cap m recipe h t deals rem prices b HM H2 Hb Hbuy Hsell Hcap H Ho HP Hd.
  destruct (Nat.eq_dec (num_of_deals t) (mt_num_of_deals deals)) as [Ek|Ek]; [|eapply mcafee_no_envy; eassumption].
  destruct (mc_kept _ _ _ _ _ _ _ _ H Ho) as [Hbk Hsz].
  destruct (mcafee_result _ _ _ _ _ _ _ _ H Ho) as [Hne [Hl [H1 [Hst [Er [Eg R]]]]]].
  set (k := mt_num_of_deals deals) in *. set (m' := clone_market m) in *.
  assert (Hlm : length m' = length m) by apply clone_length.
  assert (Hl' : length recipe = length m') by lia.
  assert (Dl := mc_deals _ _ _ _ _ R). destruct (mc_prices _ _ _ _ _ R) as [P' [HP' [LP Hp]]].
  assert (P' = prices) by congruence. subst P'.
  assert (Hin : forall j x, (j < 2)%nat -> In x (vals m' j) -> In x (nth j (map cvalues m) [])).
  { intros j x Hj Hx. unfold m', vals in Hx. destruct (nth_error m j) as [c|] eqn:Ec; [|apply nth_error_None in Ec; lia].
    rewrite (nth_error_nth _ _ dcat (clone_nth' _ _ _ Ec)) in Hx. cbn [cvalues] in Hx.
    change (@nil Q) with (cvalues dcat). rewrite map_nth, (nth_error_nth _ _ dcat Ec).
    eapply Permutation_in; [apply sort_desc_perm|exact Hx]. }
  destruct k as [|k'] eqn:Ekk; [lia|]. cbv zeta in Hp. fold k in Ekk.
  destruct (accepted M m' (S k') h (row 0 m' k')) eqn:EA; [|lia].
  apply accepted_inv in EA. destruct EA as [_ G].
  assert (Hlen : forall j, (j < 2)%nat -> (S k' <= length (vals m' j))%nat).
  { intros j Hj. apply (ones_enough m' recipe (S k') j H1 Hl'); [apply (proj1 (proj2 Hst))|lia]. }
  set (cand := candidate M m' (S k')) in *.
  assert (Hrow : forall j, (j < 2)%nat -> In (nth k' (vals m' j) 0) (row 0 m' k')).
  { intros j Hj. unfold row. apply in_map_iff. exists (nth j m' dcat). split; [reflexivity|]. apply nth_In. lia. }
  assert (Hvb : 0 <= nth k' (vals m' b) 0 /\ 2 * nth k' (vals m' b) 0 < M).
  { apply Hbuy. apply Hin; [assumption|]. apply nth_In. specialize (Hlen b Hb). lia. }
  assert (Hs2 : (1 - b < 2)%nat) by lia.
  assert (Hvs : nth k' (vals m' (1 - b)) 0 < 0).
  { apply Hsell. apply Hin; [assumption|]. apply nth_In. specialize (Hlen (1 - b)%nat Hs2). lia. }
  assert (Hc1 : 2 * cand < M). { destruct (G _ (Hrow b Hb)) as [G1 _]. specialize (G1 (proj1 Hvb)). lra. }
  assert (Ec2 : 2 * cand == Qabs (nth (S k') (vals m' b) (- M)) + Qabs (nth (S k') (vals m' (1 - b)) (- M))).
  { unfold cand, candidate. rewrite Hlm, H2.
    assert (E : map Qabs (row (- M) m' (S k')) = map (fun j => Qabs (nth (S k') (vals m' j) (- M))) (seq 0 2)).
    { unfold row. rewrite map_map. rewrite <- H2, <- Hlm. clear. 
      apply nth_ext with (d := 0) (d' := 0); [rewrite !map_length, seq_length; reflexivity|].
      intros x Hx. rewrite map_length in Hx.
      rewrite (nth_indep _ 0 ((fun c => Qabs (nth (S k') (cvalues c) (- M))) dcat)) by (rewrite map_length; lia).
      rewrite (map_nth (fun c => Qabs (nth (S k') (cvalues c) (- M)))).
      rewrite (nth_indep (map _ (seq 0 (length m'))) 0 ((fun j => Qabs (nth (S k') (vals m' j) (- M))) 0%nat)) by (rewrite map_length, seq_length; lia).
      rewrite (map_nth (fun j => Qabs (nth (S k') (vals m' j) (- M)))). rewrite seq_nth by lia. reflexivity. }
    rewrite E, (two_sum (fun j => Qabs (nth (S k') (vals m' j) (- M))) b Hb). change (Qn 2) with (2 # 1). field. }
  assert (Hreal : forall j, (j < 2)%nat -> (S k' < length (vals m' j))%nat).
  { intros j Hj. destruct (le_lt_dec (length (vals m' j)) (S k')) as [L|L]; [|assumption]. exfalso.
    assert (X : M <= Qabs (nth (S k') (vals m' j) (- M))).
    { rewrite nth_overflow by assumption. rewrite Qabs_opp, Qabs_pos by lra. lra. }
    assert (Y1 := Qabs_nonneg (nth (S k') (vals m' b) (- M))). assert (Y2 := Qabs_nonneg (nth (S k') (vals m' (1 - b)) (- M))).
    destruct (two_index j b Hj Hb) as [->| ->]; lra. }
  assert (Bk : 0 <= nth (S k') (vals m' b) (- M)).
  { apply Hbuy. apply Hin; [assumption|]. apply nth_In. apply Hreal. assumption. }
  assert (Sk : nth (S k') (vals m' (1 - b)) (- M) < 0).
  { apply Hsell. apply Hin; [assumption|]. apply nth_In. apply Hreal. assumption. }
  rewrite Qabs_pos in Ec2 by assumption. rewrite Qabs_neg in Ec2 by lra.
  assert (En : enough (S (S k')) m' recipe).
  { apply enough_nth; [assumption|]. intros j Hj. rewrite (all_ones_nth recipe j H1 Hj). specialize (Hreal j ltac:(lia)). lia. }
  assert (Neg : nth (S k') (vals m' b) (- M) + nth (S k') (vals m' (1 - b)) (- M) < 0).
  { assert (X := stop_reason cap (S k') m' recipe true (cap_clone _ _ _ Hcap) Hst En). simpl in X.
    rewrite ps_gain_seq in X by assumption.
    rewrite (Qsum_map_ext _ _ (fun j => nth (S k') (vals m' j) (- M))) in X.
    - replace (length recipe) with 2%nat in X by lia. rewrite (two_sum (fun j => nth (S k') (vals m' j) (- M)) b Hb) in X. lra.
    - intros j Hj. apply in_seq in Hj. rewrite (all_ones_nth recipe j H1) by lia. unfold block. rewrite Nat.mul_1_r.
      assert (HL : (S k' < length (vals m' j))%nat) by (apply Hreal; lia). generalize dependent (vals m' j). clear. intros l HL.
      revert HL. generalize (S k'). intros n. revert l. induction n as [|n IH]; intros [|a l] HL; simpl in HL; try lia.
      + simpl. ring.
      + simpl. apply IH. lia. }
  apply no_envy_of; [assumption|]. intros j p y Hpj Hj Hy. rewrite Hsz in Hy by assumption. fold m' in Hy.
  apply (nth_error_nth _ _ 0) in Hpj. rewrite <- Hpj, Hp by lia. rewrite Dl in Hy.
  assert (Hy' : y <= nth (S k') (vals m' j) (- M)).
  { apply desc_skipn_le; [apply vals_desc; apply clone_sorted|apply Hreal; lia|assumption]. }
  destruct (two_index j b ltac:(lia) Hb) as [->| ->].
  - destruct (Qlt_bool_reflect (nth k' (vals m' b) 0) 0) as [Y|Y]; lra.
  - destruct (Qlt_bool_reflect (nth k' (vals m' (1 - b)) 0) 0) as [Y|Y]; lra.
Qed.
