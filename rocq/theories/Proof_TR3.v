(** * Trade reduction: what it returns *)

From Coq Require Import String List Arith Lia QArith Lqa Permutation Sorted Bool.
From Verif Require Import Base Model_Agents Model_Trade Model_Prices Model_Market Model_Ascending Model_TradeReduction
  Spec_Market Spec_Trade Spec_Ascending Proof_Market Proof_Trade Proof_Prices Proof_Ascending
  Proof_Ascending2 Proof_Ascending3 Proof_Ascending4 Proof_Deals Proof_TR Proof_TR2.
Import ListNotations.
Open Scope Q_scope.

Definition cat_eq (c c' : category) : Prop := cname c = cname c' /\ qeq (cvalues c) (cvalues c').

Lemma vals_nth_error : forall m j c, nth_error m j = Some c -> vals m j = cvalues c.
Proof. intros m j c H. unfold vals. rewrite (nth_error_nth _ _ _ H). reflexivity. Qed.

Lemma vals_drop : forall u m recipe j, length recipe = length m -> (j < length m)%nat ->
  vals (drop_ps u m recipe) j = skipn (u * nth j recipe 0%nat) (vals m j).
Proof.
  intros u m recipe j Hl Hj. unfold drop_ps. rewrite map2_seq by assumption. unfold vals.
  rewrite nth_map_seq by lia. reflexivity.
Qed.

Lemma add_dummies_ok : forall M m recipe u, length recipe = length m ->
  rem_ok M m (at_block u recipe) (at_block u recipe) (add_dummies M (drop_ps u m recipe)).
Proof.
  intros M m recipe u Hl. split.
  - unfold add_dummies. rewrite map_length. apply drop_length. assumption.
  - intros j Hj. unfold dummy. rewrite at_block_nth.
    assert (E : vals (add_dummies M (drop_ps u m recipe)) j
      = let v := vals (drop_ps u m recipe) j in if (length v =? 0)%nat then sort_desc (v ++ [- M]) else v).
    { unfold add_dummies, vals. set (f := fun c => if (csize c =? 0)%nat then append c (- M) else c).
      rewrite (nth_indep _ dcat (f dcat)).
      - rewrite (map_nth f). unfold f, csize. cbv zeta. destruct (length _ =? 0)%nat; reflexivity.
      - rewrite map_length, drop_length; assumption. }
    rewrite E. cbv zeta. rewrite vals_drop by assumption. rewrite skipn_length.
    set (n := (u * nth j recipe 0)%nat).
    destruct (Nat.leb_spec (length (vals m j)) n).
    + destruct (Nat.eqb_spec (length (vals m j) - n) 0); [|lia].
      rewrite skipn_all2 by assumption. simpl. apply qeq_refl.
    + destruct (Nat.eqb_spec (length (vals m j) - n) 0); [lia|].
      rewrite app_nil_r. apply qeq_refl.
Qed.

Lemma valid_app : forall m recipe o1 o2 ns,
  valid m recipe (o1 ++ o2) ns <-> valid m recipe o1 ns /\ valid m recipe o2 (decs o1 ns).
Proof.
  intros m recipe. induction o1 as [|i o1 IH]; intros o2 ns; simpl; [tauto|].
  rewrite IH. tauto.
Qed.

Lemma valid_repeat : forall m recipe i a ns, (i < length m)%nat -> (0 < nth i recipe 0)%nat -> (a <= nth i ns 0)%nat ->
  valid m recipe (repeat i a) ns.
Proof.
  intros m recipe i a. induction a as [|a IH]; intros ns H1 H2 H3; simpl; [exact I|].
  repeat split; try assumption; [lia|]. apply IH; [assumption|assumption|]. rewrite nth_dec_same. lia.
Qed.

Lemma valid_pivots_from : forall m full recipe a ns, (a + length recipe <= length m)%nat ->
  (forall j, nth (a + j) full 0%nat = nth j recipe 0%nat) ->
  (forall j, (nth j recipe 0 <= nth (a + j) ns 0)%nat) ->
  valid m full (pivot_categories_from a recipe) ns.
Proof.
  intros m full. induction recipe as [|r recipe IH]; intros a ns Ha Hf Hn; simpl; [exact I|].
  apply valid_app. assert (F0 := Hf 0%nat). assert (N0 := Hn 0%nat). rewrite Nat.add_0_r in F0, N0. simpl in Ha, F0, N0.
  split.
  - destruct r; [exact I|]. apply valid_repeat; lia.
  - apply IH; [lia| |].
    + intros j. replace (S a + j)%nat with (a + S j)%nat by lia. rewrite Hf. reflexivity.
    + intros j. rewrite decs_repeat. destruct (Nat.eq_dec a (S a + j)); [lia|].
      replace (S a + j)%nat with (a + S j)%nat by lia. apply (Hn (S j)).
Qed.

Lemma valid_order : forall m recipe u, length recipe = length m ->
  valid m recipe (tr_order u recipe) (at_block u recipe).
Proof.
  intros m recipe u Hl. induction u as [|u IH]; [exact I|].
  unfold tr_order. cbn [repeat concat]. apply valid_app. split.
  - apply valid_pivots_from; [lia|reflexivity|]. intros j. simpl (0 + j)%nat. rewrite at_block_nth. nia.
  - rewrite at_block_step. exact IH.
Qed.

Lemma fresh_empty : forall m, fresh (clone_market m) (empty_agent_categories m).
Proof.
  intros m. split.
  - unfold empty_agent_categories, clone_market. rewrite !map_map. reflexivity.
  - intros j. unfold vals, empty_agent_categories.
    destruct (le_lt_dec (length m) j) as [H|H].
    + rewrite nth_overflow; [reflexivity|]. rewrite map_length. assumption.
    + rewrite (nth_indep _ dcat (new_category (cname dcat) [])) by (rewrite map_length; assumption).
      rewrite (map_nth (fun c => new_category (cname c) [])). reflexivity.
Qed.

Lemma seg_shrink : forall m ns tr, (forall j, (nth j ns 0 <= length (vals m j))%nat) ->
  seg_ok m ns (at_block 0 (repeat 0%nat (length m))) tr -> Forall2 cat_eq tr (shrink m ns).
Proof.
  intros m ns tr Hn [H1 H2].
  assert (L : length tr = length m) by (rewrite <- (map_length cname tr), H1, map_length; reflexivity).
  assert (G : forall (l l' : list category), length l = length l' ->
    (forall j, (j < length l)%nat -> cat_eq (nth j l dcat) (nth j l' dcat)) -> Forall2 cat_eq l l').
  { induction l as [|a l IH]; intros [|b l'] Hlen Hx; simpl in Hlen; try discriminate; constructor.
    - apply (Hx 0%nat). simpl. lia.
    - apply IH; [lia|]. intros x Hlt. apply (Hx (S x)). simpl. lia. }
  apply G; [rewrite shrink_length; assumption|].
  intros j Hj. rewrite L in Hj. unfold shrink. rewrite nth_map_seq by assumption. split.
  - cbn [cname]. change (cname dcat) with ""%string.
    assert (X : nth j (map cname tr) (cname dcat) = nth j (map cname m) (cname dcat)) by (rewrite H1; reflexivity).
    rewrite !map_nth in X. exact X.
  - cbn [cvalues]. specialize (H2 j Hj). rewrite at_block_nth in H2. simpl in H2. exact H2.
Qed.

Lemma at_block_zero : forall recipe (m : market), length recipe = length m -> at_block 0 recipe = at_block 0 (repeat 0%nat (length m)).
Proof.
  intros recipe m H. apply list_nat_ext; [unfold at_block; rewrite !map_length, repeat_length; assumption|].
  intros j. rewrite !at_block_nth. reflexivity.
Qed.

(** What the walk starts from. *)
Definition tr_blocks (k u : nat) (m : market) (recipe : list nat) : Prop :=
  (enough (S k) m recipe /\ u = S k) \/ (~ enough (S k) m recipe /\ u = k).

Definition tr_result (M : Q) (m0 : market) (recipe : list nat) (z : bool) (k : nat) (t : trade) : Prop :=
  let m := clone_market m0 in
  (k = 0%nat /\ t = mkTrade (empty_agent_categories m0) recipe (Some (repeat 0 (length recipe))) 0)
  \/ ((0 < k)%nat /\ exists u, tr_blocks k u m recipe /\
      ((walk M m recipe z (tr_order u recipe) (at_block u recipe) = None
          /\ t = mkTrade (empty_agent_categories m0) recipe None 0)
       \/ exists i ns P, walk M m recipe z (tr_order u recipe) (at_block u recipe) = Some (i, ns)
          /\ Forall2 cat_eq (tcats t) (shrink m ns) /\ trecipe t = recipe /\ tprices t = Some P
          /\ qeq P (final_prices M m recipe ns (Some i))
          /\ (i < length m)%nat /\ (0 < nth i recipe 0)%nat /\ (0 < nth i ns 0)%nat
          /\ below m (at_block u recipe) ns /\ acceptable z (psum M m recipe (dec i ns)))).

Lemma concat_nonempty : forall m recipe t, length recipe = length m -> enough (S t) m recipe ->
  (exists j, (j < length recipe)%nat /\ (0 < nth j recipe 0)%nat) -> concat (ps_deal m recipe t) <> [].
Proof.
  intros m recipe t Hl He [j [Hj Hr]] E.
  assert (F := deal_sizes m recipe t (ps_deal m recipe t) Hl He).
  assert (F2 : Forall2 qeq (ps_deal m recipe t) (ps_deal m recipe t)).
  { generalize (ps_deal m recipe t). intros l. induction l; constructor; auto. apply qeq_refl. }
  specialize (F F2). clear F2 He Hl. revert j Hj Hr. induction F as [|r d recipe ds Hd F IH]; intros j Hj Hr; simpl in *; [lia|].
  apply app_eq_nil in E. destruct E as [E1 E2]. destruct j as [|j].
  - subst d. simpl in Hd. lia.
  - apply (IH E2 j); [lia|assumption].
Qed.

Lemma new_trade_pos : forall cats recipe prices, length cats = length recipe ->
  (exists j, (j < length recipe)%nat /\ (0 < nth j recipe 0)%nat) ->
  exists d, new_trade cats recipe prices = Ok (mkTrade cats recipe prices d).
Proof.
  intros cats recipe prices Hl [j [Hj Hr]]. destruct (new_trade cats recipe prices) as [t|e|] eqn:E.
  - destruct (deals_max _ _ _ _ E) as [E1 _]. exists (tdeals t). rewrite E1. reflexivity.
  - exfalso. destruct (new_trade_error cats recipe prices) as [[H1 _] [H2 _]].
    assert (e = ValueError) by (apply H2; assumption). subst e. apply H1; [assumption|].
    destruct (nth_error cats j) as [c|] eqn:Ec; [|apply nth_error_None in Ec; lia].
    exists j, c, (nth j recipe 0%nat). repeat split; [assumption|apply nth_error_nth'; assumption|assumption].
  - exfalso. apply (new_trade_error cats recipe prices). assumption.
Qed.

Lemma empty_deals : forall m recipe d prices t, length recipe = length m ->
  (exists j, (j < length recipe)%nat /\ (0 < nth j recipe 0)%nat) ->
  new_trade (empty_agent_categories m) recipe prices = Ok t -> t = mkTrade (empty_agent_categories m) recipe prices d -> d = 0%nat.
Proof.
  intros m recipe d prices t Hl [j [Hj Hr]] H ->. destruct (deals_max _ _ _ _ H) as [_ [Hs _]].
  simpl in Hs. unfold supports in Hs.
  assert (X := Hs j (nth j (empty_agent_categories m) dcat) (nth j recipe 0%nat)).
  assert (L : length (empty_agent_categories m) = length m) by (unfold empty_agent_categories; apply map_length).
  assert (C : csize (nth j (empty_agent_categories m) dcat) = 0%nat).
  { unfold csize. change (cvalues (nth j (empty_agent_categories m) dcat)) with (vals (empty_agent_categories m) j).
    rewrite (proj2 (fresh_empty m)). reflexivity. }
  rewrite C in X. specialize (X ltac:(apply nth_error_nth'; lia) ltac:(apply nth_error_nth'; assumption)). nia.
Qed.

(** Trade reduction without its bookkeeping. *)
Lemma tr_unfold : forall M cap m recipe z, length recipe = length m ->
  (exists j, (j < length recipe)%nat /\ (0 < nth j recipe 0)%nat) ->
  let m' := clone_market m in
  exists k deals rem, optimal_trade cap m recipe true = Ok (deals, rem) /\ mt_num_of_deals deals = k
    /\ stops_at cap k m' recipe true
    /\ ((k = 0%nat /\ trade_reduction_M M cap m recipe z
           = new_trade (empty_agent_categories m) recipe (Some (repeat 0 (length recipe))))
        \/ ((0 < k)%nat /\ exists u pl, tr_blocks k u m' recipe /\ enough u m' recipe
             /\ Forall2 piv_eq pl (stream m' (tr_order u recipe) (at_block u recipe))
             /\ trade_reduction_M M cap m recipe z
                = bind (fold_result (tr_step recipe z) pl (mkTR (add_dummies M (drop_ps u m' recipe)) (empty_agent_categories m) None))
                    (fun s => new_trade (tr_traders s) recipe (tr_prices s)))).
Proof.
  intros M cap m recipe z Hl Hpos m'.
  destruct (optimal_trade_spec cap m recipe true Hl) as [k [Eo Hst]].
  fold m' in Eo, Hst.
  assert (Hl' : length recipe = length m') by (unfold m'; rewrite clone_length; assumption).
  assert (Hs' : sorted_market m') by apply clone_sorted.
  assert (Hk := proj1 (proj2 Hst)).
  set (B := fun t => concat (ps_deal m' recipe t)) in *.
  assert (Ord := deals_order m' recipe k Hs' Hk). fold B in Ord.
  exists k. eexists. eexists.
  assert (LD : length (sort_by Qsum (map B (seq 0 k))) = k).
  { rewrite (Permutation_length (sort_by_perm _ Qsum _)), map_length, seq_length. reflexivity. }
  split; [exact Eo|]. split; [exact LD|]. split; [assumption|].
  unfold trade_reduction_M. rewrite Hl, Nat.eqb_refl, Eo. cbn [bind].
  destruct (Nat.eq_dec k 0) as [Ek|Ek].
  - left. split; [assumption|].
    assert (En : sort_by Qsum (map B (seq 0 k)) = []) by (rewrite Ek; reflexivity). rewrite En. rewrite <- Hl. reflexivity.
  - right. split; [lia|].
    destruct (sort_by Qsum (map B (seq 0 k))) as [|d0 dl] eqn:ED; [simpl in LD; congruence|].
    assert (LR : exists lps u, tr_blocks k u m' recipe /\
      (h <- get_highest_agents (drop_ps k m' recipe) recipe ;;
       match h with
       | Some (x :: l) => rem' <- market_remove_highest (drop_ps k m' recipe) recipe ;; Ok ((x :: l) :: d0 :: dl, rem')
       | _ => Ok (d0 :: dl, drop_ps k m' recipe)
       end) = Ok (lps, drop_ps u m' recipe)
      /\ enough u m' recipe
      /\ Forall2 qeq lps (map B (rev (seq 0 u)))).
    { assert (Hld : length recipe = length (drop_ps k m' recipe)) by (rewrite drop_length; assumption).
      destruct (enough_dec (S k) m' recipe) as [Hen|Hen].
      - exists (B k :: d0 :: dl), (S k). split; [left; split; [assumption|reflexivity]|].
        assert (H1 : enough 1 (drop_ps k m' recipe) recipe) by (apply enough_drop; assumption).
        rewrite (proj1 (get_highest_spec _ _ Hld) H1). cbn [bind]. rewrite ps_deal_drop. simpl (0 + k)%nat. fold (B k).
        destruct (B k) as [|x l] eqn:EB; [exfalso; apply (concat_nonempty m' recipe k Hl' Hen Hpos); exact EB|].
        rewrite remove_highest_spec by assumption. cbn [bind]. rewrite drop_drop. split; [reflexivity|].
        split; [assumption|]. rewrite seq_S, rev_app_distr. cbn [rev app map plus]. constructor.
        + rewrite <- EB. apply qeq_refl.
        + rewrite map_rev. exact Ord.
      - exists (d0 :: dl), k. split; [right; split; [assumption|reflexivity]|].
        assert (H1 : ~ enough 1 (drop_ps k m' recipe) recipe) by (intros X; apply Hen; apply enough_drop in X; assumption).
        rewrite (proj2 (get_highest_spec _ _ Hld) H1). cbn [bind]. split; [reflexivity|]. split; [assumption|].
        rewrite map_rev. exact Ord. }
    destruct LR as [lps [u [Hu [ELR [Henu Hlps]]]]].
    destruct (get_highest_agents (drop_ps k m' recipe) recipe) as [h| |] eqn:EH; cbn [bind] in ELR |- *; try discriminate.
    destruct (fold_tr_ps m' recipe z Hl' (rev (seq 0 u)) lps) as [pl [Hpl Hfold]].
    { intros t Ht. apply in_rev in Ht. apply in_seq in Ht. eapply enough_le; [|exact Henu]. lia. }
    { exact Hlps. }
    exists u, pl. split; [assumption|]. split; [assumption|].
    split; [rewrite (blocks_stream m' recipe u Hl' Henu) in Hpl; assumption|].
    match goal with |- bind ?X _ = _ => replace X with (Ok (lps, drop_ps u m' recipe)) by (symmetry; exact ELR) end.
    cbn [bind]. rewrite Hfold. reflexivity.
Qed.

Lemma block_sizes_ok : forall m recipe u, length recipe = length m -> enough u m recipe ->
  sizes_ok m (at_block u recipe).
Proof.
  intros m recipe u Hl He. split; [unfold at_block; rewrite map_length; assumption|]. intros j. rewrite at_block_nth.
  destruct (le_lt_dec (length recipe) j) as [H|H]; [rewrite nth_overflow by assumption; lia|].
  apply (proj1 (enough_nth u m recipe Hl) He j H).
Qed.

Theorem tr_spec : forall M cap m recipe z, length recipe = length m ->
  (exists j, (j < length recipe)%nat /\ (0 < nth j recipe 0)%nat) -> values_at_least (- M) m ->
  exists k deals rem t, optimal_trade cap m recipe true = Ok (deals, rem) /\ mt_num_of_deals deals = k
    /\ stops_at cap k (clone_market m) recipe true
    /\ trade_reduction_M M cap m recipe z = Ok t
    /\ new_trade (tcats t) recipe (tprices t) = Ok t
    /\ tr_result M m recipe z k t.
Proof.
  intros M cap m recipe z Hl Hpos Hv.
  destruct (tr_unfold M cap m recipe z Hl Hpos) as [k [deals [rem [Eo [Ek [Hst Hcase]]]]]].
  set (m' := clone_market m) in *.
  assert (Hl' : length recipe = length m') by (unfold m'; rewrite clone_length; assumption).
  assert (Hs' : sorted_market m') by apply clone_sorted.
  assert (Hv' : values_at_least (- M) m') by (apply values_at_least_clone; assumption).
  exists k, deals, rem.
  cut (exists t, trade_reduction_M M cap m recipe z = Ok t
     /\ new_trade (tcats t) recipe (tprices t) = Ok t /\ tr_result M m recipe z k t);
    [intros [t [G1 [G2 G3]]]; exists t; repeat (split; [assumption|]); assumption|].
  destruct Hcase as [[E0 E]|[E0 [u [pl [Hu [Henu [Hpl E]]]]]]]; rewrite E.
  - destruct (new_trade_pos (empty_agent_categories m) recipe (Some (repeat 0 (length recipe)))) as [d Ed];
      [unfold empty_agent_categories; rewrite map_length; auto|assumption|].
    exists (mkTrade (empty_agent_categories m) recipe (Some (repeat 0 (length recipe))) d).
    split; [assumption|]. split; [exact Ed|].
    left. split; [assumption|]. rewrite (empty_deals m recipe d _ _ Hl Hpos Ed eq_refl). reflexivity.
  - assert (Hst0 := block_sizes_ok m' recipe u Hl' Henu).
    assert (Hb0 : below m' (at_block u recipe) (at_block u recipe)) by (split; [apply (proj1 Hst0)|intros; lia]).
    destruct (walk_refines M m' recipe z (at_block u recipe) Hl' Hs' Hv' Hst0 (tr_order u recipe) pl (at_block u recipe)
      (add_dummies M (drop_ps u m' recipe)) (empty_agent_categories m) Hb0 (add_dummies_ok M m' recipe u Hl')
      (fresh_empty m) (valid_order m' recipe u Hl') Hpl) as [rem' W].
    destruct (walk M m' recipe z (tr_order u recipe) (at_block u recipe)) as [[i ns]|] eqn:EW.
    + destruct W as [tr' [P [o' [W1 [W2 [W3 [W4 [W5 [W6 W7]]]]]]]]]. rewrite W1. cbn [bind tr_traders tr_prices].
      rewrite order_end, (at_block_zero recipe m' Hl') in W3.
      assert (Hok : sizes_ok m' ns) by (eapply below_ok; eassumption).
      assert (F := seg_shrink m' ns tr' (proj2 Hok) W3).
      destruct (new_trade_pos tr' recipe (Some P)) as [d Ed].
      { rewrite (Forall2_length _ _ _ _ _ F), shrink_length. auto. }
      { assumption. }
      exists (mkTrade tr' recipe (Some P) d). split; [assumption|]. split; [exact Ed|].
      right. split; [lia|]. exists u. split; [assumption|]. right.
      exists i, ns, P. destruct W5 as [V1 [V2 [V3 _]]].
      repeat (split; [assumption||reflexivity|]). assumption.
    + rewrite W. cbn [bind tr_traders tr_prices].
      destruct (new_trade_pos (empty_agent_categories m) recipe None) as [d Ed];
        [unfold empty_agent_categories; rewrite map_length; auto|assumption|].
      exists (mkTrade (empty_agent_categories m) recipe None d). split; [assumption|]. split; [exact Ed|].
      right. split; [lia|]. exists u. split; [assumption|]. left. split; [assumption|].
      rewrite (empty_deals m recipe d _ _ Hl Hpos Ed eq_refl). reflexivity.
Qed.
