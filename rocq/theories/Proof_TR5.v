(** * Trade reduction: rationality, and all-ones recipes *)

From Coq Require Import String List Arith Lia QArith Lqa Permutation Sorted Bool.
From Verif Require Import Base Model_Agents Model_Trade Model_Prices Model_Market Model_Ascending Model_TradeReduction
  Spec_Market Spec_Trade Spec_Ascending Spec_TradeReduction Proof_Market Proof_Trade Proof_Prices Proof_Ascending
  Proof_Ascending2 Proof_Ascending3 Proof_Ascending4 Proof_Deals Proof_TR Proof_TR2 Proof_TR3 Proof_TR4.
Import ListNotations.
Open Scope Q_scope.

(** ** C18: individual rationality *)

Lemma bal_upper : forall M m recipe ns i, length recipe = length m -> (i < length recipe)%nat -> (0 < nth i recipe 0)%nat ->
  0 <= psum M m recipe (dec i ns) -> bal M m recipe ns i <= nth (nth i ns 0 - 1)%nat (vals m i) (- M).
Proof.
  intros M m recipe ns i Hl Hi Hr H. assert (E := bal_eq M m recipe Hl ns i Hr). rewrite psum_dec in H by assumption.
  assert (Hq := Qn_pos _ Hr). set (r := Qn (nth i recipe 0%nat)) in *.
  set (v := nth (nth i ns 0 - 1)%nat (vals m i) (- M)) in *. set (b := bal M m recipe ns i) in *.
  apply Qnot_lt_le. intros X.
  assert (Y : r * v < r * b) by (apply Qmult_lt_l; assumption). lra.
Qed.

Lemma bal_lower : forall M m recipe ns i, length recipe = length m -> (0 < nth i recipe 0)%nat ->
  psum M m recipe ns <= 0 -> pr M m ns i <= bal M m recipe ns i.
Proof.
  intros M m recipe ns i Hl Hr H. assert (E := bal_eq M m recipe Hl ns i Hr).
  assert (Hq := Qn_pos _ Hr). set (r := Qn (nth i recipe 0%nat)) in *.
  set (p := pr M m ns i) in *. set (b := bal M m recipe ns i) in *.
  apply Qnot_lt_le. intros X.
  assert (Y : r * b < r * p) by (apply Qmult_lt_l; assumption). lra.
Qed.

Lemma acceptable_nonneg : forall z q, acceptable z q -> 0 <= q.
Proof. intros [|] q H; simpl in H; lra. Qed.

Lemma not_acceptable : forall z q, ~ acceptable z q -> q <= 0.
Proof. intros [|] q H; simpl in H; lra. Qed.

(** The price of a category is at most the value of everyone left in it. *)
Lemma tr_price_le : forall M m recipe ns i j v, length recipe = length m -> sorted_market m -> values_at_least (- M) m ->
  sizes_ok m ns -> (i < length m)%nat -> (0 < nth i recipe 0)%nat -> 0 <= psum M m recipe (dec i ns) ->
  (j < length m)%nat -> In v (firstn (nth j ns 0%nat) (vals m j)) -> fp M m recipe ns (Some i) j <= v.
Proof.
  intros M m recipe ns i j v Hl Hs Hv Hok Hi Hr Hp Hj Hin.
  assert (Hn := proj2 Hok j).
  apply In_nth with (d := - M) in Hin. destruct Hin as [y [Hy E]]. rewrite firstn_length_le in Hy by assumption.
  assert (Ey : v = nth y (vals m j) (- M)).
  { rewrite <- E. rewrite <- (firstn_skipn (nth j ns 0%nat) (vals m j)) at 2.
    rewrite app_nth1; [reflexivity|]. rewrite firstn_length_le by assumption. assumption. }
  assert (D := vals_desc m Hs j).
  assert (B : nth (nth j ns 0 - 1)%nat (vals m j) (- M) <= v) by (rewrite Ey; apply desc_nth; [assumption|lia|lia]).
  destruct (Nat.eq_dec i j) as [->|Hne].
  - rewrite fp_main by assumption. eapply Qle_trans; [|exact B]. apply bal_upper; [assumption|lia|assumption|assumption].
  - rewrite fp_other by (auto; congruence). eapply Qle_trans; [|exact B]. apply pr_le; [assumption|assumption|lia|lia].
Qed.

Lemma shrink_nth : forall m ns i c, nth_error (shrink m ns) i = Some c ->
  (i < length m)%nat /\ c = mkCat (cname (nth i m dcat)) (firstn (nth i ns 0%nat) (vals m i)).
Proof.
  intros m ns i c H. assert (L : (i < length (shrink m ns))%nat) by (apply nth_error_Some; congruence).
  rewrite shrink_length in L. split; [assumption|]. unfold shrink in H. rewrite nth_error_map_seq in H by assumption. congruence.
Qed.

Theorem tr_ir : forall M cap m recipe z t prices, values_at_least (- M) m ->
  trade_reduction_M M cap m recipe z = Ok t -> tprices t = Some prices ->
  forall i c p v, nth_error (tcats t) i = Some c -> nth_error prices i = Some p -> In v (cvalues c) -> p <= v.
Proof.
  intros M cap m recipe z t prices Hv Ht HP i c p v Hc Hp Hin.
  destruct (tr_errors M cap m recipe z) as [[_ [Hl Hpos]]|[X _]]; [|congruence].
  apply has_positive in Hpos.
  destruct (tr_spec M cap m recipe z Hl Hpos Hv) as [k [deals [rem [t' [Eo [Ek [Hst [Et [Hnt Hres]]]]]]]]].
  assert (t' = t) by congruence. subst t'. set (m' := clone_market m) in *.
  assert (Hl' : length recipe = length m') by (unfold m'; rewrite clone_length; assumption).
  assert (Hs' : sorted_market m') by apply clone_sorted.
  assert (Hv' : values_at_least (- M) m') by (apply values_at_least_clone; assumption).
  assert (Empty : tcats t = empty_agent_categories m -> p <= v).
  { intros E. rewrite E in Hc. apply nth_error_In in Hc. rewrite (empty_cats m c Hc) in Hin. destruct Hin. }
  unfold tr_result in Hres. fold m' in Hres.
  destruct Hres as [[E0 Et0]|[E0 [u [Hu [[Ew Et0]|[a [ns [P [Ew [Hcat [_ [EP [HPq [Ha [Hra [Hna [Hb Hacc]]]]]]]]]]]]]]]]].
  - apply Empty. rewrite Et0. reflexivity.
  - apply Empty. rewrite Et0. reflexivity.
  - assert (Henu : enough u m' recipe).
    { destruct Hu as [[A ->]|[_ ->]]; [assumption|apply (proj1 (proj2 Hst))]. }
    assert (Hok := below_ok m' recipe _ Hl' (block_sizes_ok m' recipe u Hl' Henu) ns Hb).
    destruct (Forall2_cat_nth _ _ _ _ Hcat Hc) as [c' [Hc' [_ Hq]]].
    apply shrink_nth in Hc'. destruct Hc' as [Hi ->]. cbn [cvalues] in Hq.
    destruct (qeq_In _ _ _ Hq Hin) as [v' [Hv1 Hv2]]. rewrite Hv2.
    assert (P = prices) by congruence. subst P.
    assert (Ep : p == fp M m' recipe ns (Some a) i).
    { unfold fp. rewrite <- (qeq_nth _ _ i 0 HPq). rewrite (nth_error_nth _ _ _ Hp). reflexivity. }
    rewrite Ep. apply tr_price_le; try assumption. apply (acceptable_nonneg z). assumption.
Qed.

(** ** Who trades *)

Lemma qeq_same_values : forall l l', qeq l l' -> same_values l l'.
Proof. intros l l' H. exists l. split; [apply Permutation_refl|assumption]. Qed.

Lemma same_values_perm : forall l l' l2, same_values l l' -> Permutation l' l2 -> same_values l l2.
Proof.
  intros l l' l2 [p [H1 H2]] H. destruct (qeq_perm l' p l2) as [p' [A B]].
  - apply qeq_sym. assumption.
  - assumption.
  - exists p'. split; [eapply perm_trans; eassumption|apply qeq_sym; assumption].
Qed.

Lemma all_ones_nth : forall recipe j, all_ones recipe -> (j < length recipe)%nat -> nth j recipe 0%nat = 1%nat.
Proof. intros recipe j H Hj. unfold all_ones in H. rewrite Forall_forall in H. apply H. apply nth_In. assumption. Qed.

(** With an all-ones recipe the extra procurement set is never part of the trade. *)
Lemma ones_reject : forall M m recipe z k cap, length recipe = length m -> sorted_market m -> values_at_least (- M) m ->
  all_ones recipe -> cap_suffices cap m recipe -> stops_at cap k m recipe true -> enough (S k) m recipe ->
  forall ns, (forall j, (j < length recipe)%nat -> (k <= nth j ns 0)%nat) -> ~ acceptable z (psum M m recipe ns).
Proof.
  intros M m recipe z k cap Hl Hs Hv H1 Hcap Hst He ns Hn Ha.
  assert (Q := later_unacceptable cap k m recipe true Hs Hcap Hst k (le_n _) He). simpl in Q.
  assert (B : psum M m recipe ns <= ps_gain m recipe k).
  { apply psum_le_gain; try assumption. intros j Hj Hr. rewrite (all_ones_nth recipe j H1 Hj). specialize (Hn j Hj). lia. }
  apply acceptable_nonneg in Ha. lra.
Qed.

Lemma walk_from_block : forall M m recipe z k cap u, length recipe = length m -> sorted_market m -> values_at_least (- M) m ->
  all_ones recipe -> cap_suffices cap m recipe -> stops_at cap k m recipe true -> (k < u)%nat -> enough u m recipe ->
  walk M m recipe z (tr_order u recipe) (at_block u recipe) = walk M m recipe z (tr_order k recipe) (at_block k recipe).
Proof.
  intros M m recipe z k cap u Hl Hs Hv H1 Hcap Hst Hk He. replace u with ((u - k) + k)%nat at 1 2 by lia.
  rewrite tr_order_split, walk_app.
  rewrite walk_reject; [rewrite decs_order; reflexivity|].
  intros ns' L Hn. rewrite decs_order in Hn. apply (ones_reject M m recipe z k cap); try assumption.
  - eapply enough_le; [|exact He]. lia.
  - intros j Hj. specialize (Hn j). rewrite at_block_nth, (all_ones_nth recipe j H1 Hj) in Hn. lia.
Qed.

Lemma ones_walk : forall M m recipe z k cap u, length recipe = length m -> sorted_market m -> values_at_least (- M) m ->
  all_ones recipe -> cap_suffices cap m recipe -> stops_at cap k m recipe true -> tr_blocks k u m recipe ->
  walk M m recipe z (tr_order u recipe) (at_block u recipe) = walk M m recipe z (tr_order k recipe) (at_block k recipe).
Proof.
  intros M m recipe z k cap u Hl Hs Hv H1 Hcap Hst [[He ->]|[_ ->]]; [|reflexivity].
  apply (walk_from_block M m recipe z k cap); try assumption. lia.
Qed.

Theorem tr_kept : forall M cap m recipe z t deals rem, values_at_least (- M) m ->
  trade_reduction_M M cap m recipe z = Ok t -> optimal_trade cap m recipe true = Ok (deals, rem) ->
  length (tcats t) = length m /\
  forall i c0 c r, nth_error m i = Some c0 -> nth_error (tcats t) i = Some c -> nth_error recipe i = Some r ->
    cname c = cname c0 /\ desc (cvalues c)
    /\ (csize c <= (mt_num_of_deals deals + 1) * r)%nat
    /\ (all_ones recipe -> cap_suffices cap m recipe -> (csize c <= mt_num_of_deals deals)%nat)
    /\ exists gone, same_values (cvalues c ++ gone) (cvalues c0)
        /\ (forall x y, In x (cvalues c) -> In y gone -> y <= x).
Proof.
  intros M cap m recipe z t deals rem Hv Ht Eo'.
  destruct (tr_errors M cap m recipe z) as [[_ [Hl Hpos]]|[X _]]; [|congruence].
  apply has_positive in Hpos.
  destruct (tr_spec M cap m recipe z Hl Hpos Hv) as [k [deals' [rem' [t' [Eo [Ek [Hst [Et [Hnt Hres]]]]]]]]].
  assert (t' = t) by congruence. subst t'. assert (deals' = deals) by congruence. subst deals'. rewrite Ek.
  set (m' := clone_market m) in *.
  assert (Hl' : length recipe = length m') by (unfold m'; rewrite clone_length; assumption).
  assert (Hs' : sorted_market m') by apply clone_sorted.
  assert (Hv' : values_at_least (- M) m') by (apply values_at_least_clone; assumption).
  assert (Main : exists ns, sizes_ok m' ns /\ Forall2 cat_eq (tcats t) (shrink m' ns)
     /\ (forall j, (nth j ns 0 <= (k + 1) * nth j recipe 0)%nat)
     /\ (all_ones recipe -> cap_suffices cap m recipe -> forall j, (j < length recipe)%nat -> (nth j ns 0 <= k)%nat)).
  { assert (Empty : tcats t = empty_agent_categories m -> exists ns, sizes_ok m' ns /\ Forall2 cat_eq (tcats t) (shrink m' ns)
       /\ (forall j, (nth j ns 0 <= (k + 1) * nth j recipe 0)%nat)
       /\ (all_ones recipe -> cap_suffices cap m recipe -> forall j, (j < length recipe)%nat -> (nth j ns 0 <= k)%nat)).
    { intros E. exists (at_block 0 recipe).
      assert (Hok0 : sizes_ok m' (at_block 0 recipe)).
      { split; [unfold at_block; rewrite map_length; assumption|]. intros j. rewrite at_block_nth. lia. }
      split; [assumption|]. split; [|split; intros; rewrite at_block_nth; lia].
      rewrite E. apply seg_shrink; [apply Hok0|]. rewrite <- (at_block_zero recipe m' Hl').
      apply (fresh_seg m' recipe Hl'); [apply fresh_empty|assumption]. }
    unfold tr_result in Hres. fold m' in Hres.
    destruct Hres as [[E0 Et0]|[E0 [u [Hu [[Ew Et0]|[a [ns [P [Ew [Hcat [_ [EP [HPq [Ha [Hra [Hna [Hb Hacc]]]]]]]]]]]]]]]]].
    - apply Empty. rewrite Et0. reflexivity.
    - apply Empty. rewrite Et0. reflexivity.
    - assert (Henu : enough u m' recipe).
      { destruct Hu as [[A ->]|[_ ->]]; [assumption|apply (proj1 (proj2 Hst))]. }
      exists ns. split; [apply (below_ok m' recipe _ Hl' (block_sizes_ok m' recipe u Hl' Henu) ns Hb)|].
      split; [assumption|]. split.
      + intros j. assert (X := proj2 Hb j). rewrite at_block_nth in X.
        assert (Y : (u <= k + 1)%nat) by (destruct Hu as [[_ ->]|[_ ->]]; lia).
        assert (Z : (u * nth j recipe 0 <= (k + 1) * nth j recipe 0)%nat) by (apply Nat.mul_le_mono_r; assumption). lia.
      + intros H1 Hcap j Hj. rewrite (ones_walk M m' recipe z k cap u) in Ew; try assumption; [|apply cap_clone; assumption].
        apply walk_last in Ew. destruct Ew as [_ [_ W]]. specialize (W j). rewrite at_block_nth, (all_ones_nth recipe j H1 Hj) in W. lia. }
  destruct Main as [ns [Hok [Hcat [B1 B2]]]].
  split.
  { rewrite (Forall2_length _ _ _ _ _ Hcat), shrink_length. unfold m'. apply clone_length. }
  intros i c0 c r Hc0 Hc Hr.
  destruct (Forall2_cat_nth _ _ _ _ Hcat Hc) as [c' [Hc' [Hname Hq]]].
  apply shrink_nth in Hc'. destruct Hc' as [Hi ->]. cbn [cvalues cname] in Hq, Hname.
  assert (Ecl : nth_error m' i = Some (clone c0)) by (apply clone_nth'; assumption).
  assert (En : nth i m' dcat = clone c0) by (apply nth_error_nth; assumption).
  assert (Ev : vals m' i = sort_desc (cvalues c0)) by (unfold vals; rewrite En; reflexivity).
  assert (Hsz : csize c = nth i ns 0%nat).
  { unfold csize. rewrite (qeq_length _ _ Hq). apply firstn_length_le. apply (proj2 Hok). }
  assert (D := vals_desc m' Hs' i).
  split; [rewrite Hname, En; reflexivity|].
  split; [eapply qeq_desc; [apply qeq_sym; exact Hq|apply desc_firstn; assumption]|].
  split; [rewrite Hsz, <- (nth_error_nth _ _ 0%nat Hr); apply B1|].
  split; [intros H1 Hcap; rewrite Hsz; apply B2; [assumption|assumption|apply nth_error_Some; congruence]|].
  exists (skipn (nth i ns 0%nat) (vals m' i)). split.
  - eapply same_values_perm.
    + apply qeq_same_values. apply qeq_app; [exact Hq|apply qeq_refl].
    + rewrite firstn_skipn, Ev. apply sort_desc_perm.
  - intros x y Hx Hy. destruct (qeq_In _ _ _ Hq Hx) as [x' [Hx1 Hx2]]. rewrite Hx2.
    rewrite <- (firstn_skipn (nth i ns 0%nat) (vals m' i)) in D. apply desc_app_inv in D. apply D; assumption.
Qed.

(** The traders of the optimal trade, for an all-ones recipe. *)
Lemma ones_deal_nth : forall m recipe t j d, length recipe = length m -> all_ones recipe -> enough (S t) m recipe ->
  (j < length recipe)%nat -> nth j (concat (ps_deal m recipe t)) d = nth t (vals m j) d.
Proof.
  induction m as [|c m IH]; intros [|r recipe] t j d Hl H1 He Hj; simpl in Hl, Hj; try lia.
  inversion H1; subst. cbn [ps_deal map2 concat].
  assert (L : (S t * 1 <= length (cvalues c))%nat) by (apply (He 0%nat c 1%nat); reflexivity).
  assert (Lb := block_length t (cvalues c) 1 L).
  destruct j as [|j].
  - rewrite app_nth1 by lia. rewrite block_nth by lia. unfold vals. simpl. f_equal. lia.
  - rewrite app_nth2 by lia. rewrite Lb. replace (S j - 1)%nat with j by lia.
    change (map2 (fun c0 r => block t (cvalues c0) r) m recipe) with (ps_deal m recipe t).
    rewrite IH; [reflexivity|lia|assumption| |lia].
    intros i c0 r0 Hc Hr. apply (He (S i) c0 r0); assumption.
Qed.

Lemma firstn_map_seq : forall (l : list Q) k d, (k <= length l)%nat -> firstn k l = map (fun t => nth t l d) (seq 0 k).
Proof.
  induction l as [|a l IH]; intros k d H; simpl in H.
  - assert (k = 0%nat) by lia. subst k. reflexivity.
  - destruct k as [|k]; [reflexivity|]. simpl. f_equal. rewrite seq_map_shift. simpl. apply IH. lia.
Qed.

Theorem tr_optimal_traders : forall M cap m recipe z t deals rem, values_at_least (- M) m ->
  trade_reduction_M M cap m recipe z = Ok t -> optimal_trade cap m recipe true = Ok (deals, rem) ->
  all_ones recipe -> cap_suffices cap m recipe ->
  forall i c, nth_error (tcats t) i = Some c -> included (cvalues c) (map (fun ps => nth i ps 0) deals).
Proof.
  intros M cap m recipe z t deals rem Hv Ht Eo H1 Hcap i c Hc.
  destruct (tr_errors M cap m recipe z) as [[_ [Hl Hpos]]|[X _]]; [|congruence].
  destruct (tr_kept M cap m recipe z t deals rem Hv Ht Eo) as [L K].
  assert (Hi : (i < length m)%nat) by (rewrite <- L; apply nth_error_Some; congruence).
  destruct (nth_error m i) as [c0|] eqn:Ec0; [|apply nth_error_None in Ec0; lia].
  destruct (K i c0 c (nth i recipe 0%nat) Ec0 Hc) as [_ [Dc [_ [Hk [gone [G1 G2]]]]]].
  { apply nth_error_nth'. lia. }
  specialize (Hk H1 Hcap).
  destruct (optimal_trade_spec cap m recipe true Hl) as [k [Eo2 Hst]]. set (m' := clone_market m) in *.
  assert (Hl' : length recipe = length m') by (unfold m'; rewrite clone_length; assumption).
  assert (Hs' : sorted_market m') by apply clone_sorted.
  assert (Ed : deals = sort_by Qsum (map (fun t => concat (ps_deal m' recipe t)) (seq 0 k))) by congruence.
  assert (Ek : mt_num_of_deals deals = k).
  { rewrite Ed. unfold mt_num_of_deals. rewrite (Permutation_length (sort_by_perm _ Qsum _)), map_length, seq_length. reflexivity. }
  rewrite Ek in Hk.
  assert (Hlen : (k <= length (vals m' i))%nat).
  { assert (X := proj1 (enough_nth k m' recipe Hl') (proj1 (proj2 Hst)) i ltac:(lia)).
    rewrite (all_ones_nth recipe i H1) in X by lia. lia. }
  (* the optimal traders of category i are its k best agents *)
  assert (Pd : Permutation (map (fun ps => nth i ps 0) deals) (firstn k (vals m' i))).
  { rewrite Ed. eapply perm_trans; [apply Permutation_map; apply sort_by_perm|].
    rewrite map_map. rewrite (firstn_map_seq _ k 0 Hlen).
    erewrite map_ext_in; [apply Permutation_refl|]. intros t0 Ht0. apply in_seq in Ht0. cbv beta.
    apply ones_deal_nth; [assumption|assumption| |lia]. eapply enough_le; [|apply (proj1 (proj2 Hst))]. lia. }
  assert (Ev : vals m' i = sort_desc (cvalues c0)).
  { unfold vals. rewrite (nth_error_nth _ _ _ (clone_nth' m i c0 Ec0)). reflexivity. }
  (* the traders are the first ones *)
  assert (Q : qeq (cvalues c) (firstn (csize c) (vals m' i))).
  { assert (S1 : same_values (cvalues c ++ sort_desc gone) (vals m' i)).
    { destruct G1 as [p [A B]]. rewrite Ev. eapply same_values_perm with (l' := cvalues c0).
      - exists p. split; [|assumption]. eapply perm_trans; [|exact A]. apply Permutation_app_head. apply sort_desc_perm.
      - apply Permutation_sym. apply sort_desc_perm. }
    destruct S1 as [p [A B]].
    assert (DD : desc (cvalues c ++ sort_desc gone)).
    { apply desc_app; [assumption|apply sort_desc_desc|]. intros a b Ha Hb. apply G2; [assumption|].
      apply (Permutation_in _ (sort_desc_perm gone)). assumption. }
    assert (X := desc_qeq _ _ _ DD (vals_desc m' Hs' i) A B).
    apply (qeq_firstn (csize c)) in X. unfold csize in X at 1. rewrite firstn_app, firstn_all, Nat.sub_diag in X.
    simpl in X. rewrite app_nil_r in X. exact X. }
  exists (skipn (csize c) (firstn k (vals m' i))).
  eapply same_values_perm; [|apply Permutation_sym; exact Pd].
  apply qeq_same_values.
  assert (E : firstn (csize c) (vals m' i) = firstn (csize c) (firstn k (vals m' i))).
  { rewrite firstn_firstn. rewrite Nat.min_l by assumption. reflexivity. }
  rewrite E in Q. rewrite <- (firstn_skipn (csize c) (firstn k (vals m' i))) at 2.
  apply qeq_app; [exact Q|apply qeq_refl].
Qed.
