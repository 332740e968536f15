(** * Integer recipe trees: groups, combined sets and deals (C46, C47) *)

From Coq Require Import String List Arith Lia QArith Lqa Permutation Sorted Bool NArith.
From Verif Require Import Base Model_Agents Model_Trade Model_Prices Model_Market Model_RecipeTree Model_IntPrices Model_IntTree Model_IntAuction
  Spec_Market Spec_RecipeTree Spec_Int Proof_Tree Proof_Tree2 Proof_Tree3.
Import ListNotations.
Open Scope Q_scope.

(** ** Groups *)

Lemma groups_from_firstn : forall c cur l, (length cur < c)%nat ->
  groups_from c cur l =
  if (c <=? length cur + length l)%nat
  then (cur ++ firstn (c - length cur) l) :: groups_from c [] (skipn (c - length cur) l)
  else [].
Proof.
  intros c cur l. revert cur. induction l as [|v l IH]; intros cur H.
  - simpl. destruct (Nat.leb_spec c (length cur + 0)); [lia|reflexivity].
  - cbn [groups_from]. rewrite app_length. cbn [length]. destruct (Nat.eqb_spec (length cur + 1) c) as [E|E].
    + destruct (Nat.leb_spec c (length cur + S (length l))) as [G|G]; [|lia].
      replace (c - length cur)%nat with 1%nat by lia. simpl. reflexivity.
    + rewrite IH by (rewrite app_length; simpl; lia). rewrite app_length. cbn [length].
      replace (length cur + 1 + length l)%nat with (length cur + S (length l))%nat by lia.
      destruct (Nat.leb_spec c (length cur + S (length l))) as [G|G]; [|reflexivity].
      destruct (c - length cur)%nat as [|k] eqn:Ek; [lia|].
      replace (c - (length cur + 1))%nat with k by lia. simpl. rewrite <- app_assoc. reflexivity.
Qed.

Definition groups (c : nat) (l : list Q) : list (list Q) := groups_from c [] l.

Lemma groups_short : forall c l, (length l < c)%nat -> groups c l = [].
Proof. intros. unfold groups. rewrite groups_from_firstn by (simpl; lia). simpl length. rewrite Nat.add_0_l. destruct (Nat.leb_spec c (length l)); [lia|reflexivity]. Qed.

Lemma groups_long : forall c l, (0 < c)%nat -> (c <= length l)%nat -> groups c l = firstn c l :: groups c (skipn c l).
Proof.
  intros. unfold groups. rewrite groups_from_firstn by (simpl; lia). simpl length. rewrite Nat.add_0_l, Nat.sub_0_r.
  destruct (Nat.leb_spec c (length l)); [reflexivity|lia].
Qed.

(** Induction on the number of groups. *)
Lemma groups_ind : forall c, (0 < c)%nat -> forall (P : list Q -> Prop), (forall l, (length l < c)%nat -> P l) ->
  (forall l, (c <= length l)%nat -> P (skipn c l) -> P l) -> forall l, P l.
Proof.
  intros c Hc P H0 H1 l. remember (length l) as n eqn:En. revert l En.
  induction n as [n IH] using lt_wf_ind. intros l En. destruct (Nat.lt_ge_cases (length l) c) as [H|H]; [apply H0; assumption|].
  apply H1; [assumption|]. eapply IH; [|reflexivity]. rewrite skipn_length. lia.
Qed.

Lemma groups_length : forall c l, (0 < c)%nat -> length (groups c l) = (length l / c)%nat.
Proof.
  intros c l Hc. induction l as [l H|l H IH] using (groups_ind c Hc).
  - rewrite groups_short by assumption. rewrite Nat.div_small by assumption. reflexivity.
  - rewrite groups_long by assumption. cbn [length]. rewrite IH, skipn_length.
    replace (length l) with (1 * c + (length l - c))%nat at 2 by lia. rewrite Nat.div_add_l by lia. lia.
Qed.

Lemma groups_size : forall c l g, (0 < c)%nat -> In g (groups c l) -> length g = c.
Proof.
  intros c l g Hc. induction l as [l H|l H IH] using (groups_ind c Hc).
  - rewrite groups_short by assumption. intros [].
  - rewrite groups_long by assumption. intros [<-|Hg]; [rewrite firstn_length; lia|auto].
Qed.

Lemma groups_concat : forall c l k, (0 < c)%nat -> (k <= length (groups c l))%nat ->
  concat (firstn k (groups c l)) = firstn (k * c) l.
Proof.
  intros c l k Hc. revert k. induction l as [l H|l H IH] using (groups_ind c Hc).
  - rewrite groups_short by assumption. simpl. intros k Hk. replace k with 0%nat by lia. reflexivity.
  - rewrite groups_long by assumption. intros [|k] Hk; [reflexivity|]. cbn [length] in Hk. cbn [firstn concat].
    rewrite IH by lia. symmetry. rewrite <- (firstn_skipn c l) at 1. rewrite firstn_app.
    rewrite (firstn_all2 (firstn c l)) by (rewrite firstn_length; lia). f_equal. f_equal. rewrite firstn_length. lia.
Qed.

Lemma Qsum_le_Forall2 : forall l l', Forall2 (fun a b => a <= b) l l' -> Qsum l <= Qsum l'.
Proof. induction 1; simpl; lra. Qed.

Lemma desc_skipn : forall n l, desc l -> desc (skipn n l).
Proof. induction n as [|n IH]; intros l H; [assumption|]. destruct l as [|a l]; [assumption|]. apply desc_inv in H. simpl. apply IH. apply H. Qed.

Lemma desc_app_le : forall a b x y, desc (a ++ b) -> In x a -> In y b -> y <= x.
Proof.
  induction a as [|v a IH]; intros b x y H Hx Hy; [destruct Hx|]. simpl in H. apply desc_inv in H. destruct H as [H1 H2].
  destruct Hx as [->|Hx]; [|eapply IH; eassumption]. rewrite Forall_forall in H2. apply H2. apply in_app_iff. right. assumption.
Qed.

Lemma group_le : forall a b, length a = length b -> (forall x y, In x a -> In y b -> y <= x) -> Qsum b <= Qsum a.
Proof.
  induction a as [|x a IH]; intros [|y b] L H; simpl in *; try lra; try lia.
  assert (H1 := H x y (or_introl eq_refl) (or_introl eq_refl)).
  assert (H2 := IH b ltac:(lia) (fun u v Hu Hv => H u v (or_intror Hu) (or_intror Hv))). lra.
Qed.

Lemma groups_In : forall c l g x, (0 < c)%nat -> In g (groups c l) -> In x g -> In x l.
Proof.
  intros c l g x Hc. induction l as [l H|l H IH] using (groups_ind c Hc).
  - rewrite groups_short by assumption. intros [].
  - rewrite groups_long by assumption. intros [<-|Hg] Hx.
    + rewrite <- (firstn_skipn c l). apply in_app_iff. left. assumption.
    + rewrite <- (firstn_skipn c l). apply in_app_iff. right. auto.
Qed.

Lemma groups_sorted : forall c l, (0 < c)%nat -> desc l -> StronglySorted (fun a b => Qsum b <= Qsum a) (groups c l).
Proof.
  intros c l Hc. induction l as [l H|l H IH] using (groups_ind c Hc).
  - rewrite groups_short by assumption. constructor.
  - rewrite groups_long by assumption. intros D. constructor; [apply IH, desc_skipn, D|].
    rewrite Forall_forall. intros g Hg. apply group_le.
    + rewrite firstn_length, (groups_size c _ g Hc Hg). lia.
    + intros x y Hx Hy. apply (desc_app_le (firstn c l) (skipn c l)); [rewrite firstn_skipn; assumption|assumption|].
      eapply groups_In; eassumption.
Qed.

Lemma groups_sums_desc : forall c l, (0 < c)%nat -> desc l -> desc (map Qsum (groups c l)).
Proof.
  intros c l Hc D. assert (H := groups_sorted c l Hc D). unfold desc. induction H as [|g gs H IH F]; simpl; constructor; [assumption|].
  apply Forall_map. assumption.
Qed.

(** ** The groups of a category *)

Lemma value_groups_eq : forall cats counts i, value_groups cats counts i = groups (count_at counts i) (sort_desc (cvalues (cat_at cats i))).
Proof. reflexivity. Qed.

Lemma value_groups_sort : forall cats counts i, (0 < count_at counts i)%nat ->
  sort_by_desc Qsum (value_groups cats counts i) = value_groups cats counts i.
Proof. intros. apply sort_by_desc_id. rewrite value_groups_eq. apply groups_sorted; [assumption|apply sort_desc_desc]. Qed.

Lemma value_groups_length : forall cats counts i, (0 < count_at counts i)%nat ->
  length (value_groups cats counts i) = (csize (cat_at cats i) / count_at counts i)%nat.
Proof. intros. rewrite value_groups_eq, groups_length by assumption. rewrite sort_desc_length. reflexivity. Qed.

(** ** Deals with their paths *)

Definition isum (d : int_deal) : Q := int_deal_gain d.

Fixpoint zip_i (i : nat) (xs : list (list Q)) (ys : list int_deal) : list int_deal :=
  match xs, ys with
  | x :: xs', y :: ys' => (i :: fst y, x :: snd y) :: zip_i i xs' ys'
  | _, _ => []
  end.

Fixpoint imaster (cats : list category) (counts : list nat) (t : rtree) : list int_deal :=
  match t with
  | Node i ch =>
      match ch with
      | [] => map (fun g => ([i], [g])) (value_groups cats counts i)
      | _ => zip_i i (value_groups cats counts i) (sort_by_desc isum (concat (map (imaster cats counts) ch)))
      end
  end.

Lemma imaster_node : forall cats counts i ch, ch <> [] -> imaster cats counts (Node i ch) =
  zip_i i (value_groups cats counts i) (sort_by_desc isum (concat (map (imaster cats counts) ch))).
Proof. intros cats counts i [|c ch] H; [congruence|reflexivity]. Qed.

Lemma combined_sets_node : forall cats counts i ch, ch <> [] -> combined_sets cats counts (Node i ch) =
  zip_app (sort_by_desc Qsum (value_groups cats counts i)) (sort_by_desc Qsum (concat (map (combined_sets cats counts) ch))).
Proof. intros cats counts i [|c ch] H; [congruence|reflexivity]. Qed.

Lemma positive_child : forall counts i ch c, positive_counts counts (Node i ch) -> In c ch -> positive_counts counts c.
Proof.
  intros counts i ch c H Hc j Hj. apply H. cbn [node_indices]. right. apply in_concat. exists (node_indices c).
  split; [apply in_map; assumption|assumption].
Qed.

Lemma zip_i_sets : forall i xs ys, map (fun d : int_deal => concat (snd d)) (zip_i i xs ys) = zip_app xs (map (fun d : int_deal => concat (snd d)) ys).
Proof. induction xs as [|x xs IH]; intros [|y ys]; try reflexivity. simpl. rewrite IH. reflexivity. Qed.

Lemma sort_map_sets : forall l : list int_deal, map (fun d : int_deal => concat (snd d)) (sort_by_desc isum l) =
  sort_by_desc Qsum (map (fun d : int_deal => concat (snd d)) l).
Proof.
  intros l.
  assert (H : Forall2 (fun d v => concat (snd d) = v) (sort_by_desc isum l) (sort_by_desc Qsum (map (fun d : int_deal => concat (snd d)) l))).
  { apply (sort_rel (fun (d : int_deal) v => concat (snd d) = v)).
    - intros a b <-. reflexivity.
    - induction l; simpl; constructor; auto. }
  induction H; simpl; congruence.
Qed.

Lemma combined_imaster : forall cats counts t, positive_counts counts t ->
  combined_sets cats counts t = map (fun d : int_deal => concat (snd d)) (imaster cats counts t).
Proof.
  intros cats counts t. induction t as [i ch IH] using rtree_ind'. intros HP.
  assert (Hi : (0 < count_at counts i)%nat) by (apply HP; left; reflexivity).
  destruct (list_eq_nil_dec ch) as [->|Hne].
  - cbn [combined_sets imaster]. rewrite value_groups_sort by assumption. rewrite map_map. cbn [snd concat].
    rewrite <- map_id at 1. apply map_ext. intros g. rewrite app_nil_r. reflexivity.
  - rewrite combined_sets_node, imaster_node by assumption. rewrite value_groups_sort by assumption.
    rewrite zip_i_sets, sort_map_sets. f_equal. f_equal. rewrite concat_map, map_map. f_equal. apply map_ext_in.
    intros c Hc. rewrite Forall_forall in IH. apply IH; [assumption|]. eapply positive_child; eassumption.
Qed.

Lemma detailed_combined : forall cats counts t, positive_counts counts t -> detailed_sets cats counts t = combined_sets cats counts t.
Proof.
  intros cats counts [i ch] HP. assert (Hi : (0 < count_at counts i)%nat) by (apply HP; left; reflexivity).
  cbn [detailed_sets combined_sets]. rewrite value_groups_sort by assumption. reflexivity.
Qed.

(** The binary market of the group sums. *)
Definition gcats (cats : list category) (counts : list nat) : list category :=
  map (fun i => mkCat "" (map Qsum (value_groups cats counts i))) (seq 0 (length cats)).

Lemma gcats_at : forall cats counts i, cvalues (cat_at (gcats cats counts) i) = map Qsum (value_groups cats counts i).
Proof.
  intros cats counts i. unfold cat_at, gcats. destruct (Nat.lt_ge_cases i (length cats)) as [H|H].
  - rewrite (nth_indep _ _ (mkCat "" (map Qsum (value_groups cats counts 0)))) by (rewrite map_length, seq_length; assumption).
    rewrite (map_nth (fun i => mkCat "" (map Qsum (value_groups cats counts i)))). rewrite seq_nth by assumption. reflexivity.
  - rewrite nth_overflow by (rewrite map_length, seq_length; assumption). unfold value_groups, cat_at.
    rewrite nth_overflow by assumption. reflexivity.
Qed.

(** A group deal seen as a binary deal. *)
Definition collapse (d : int_deal) : tree_deal := (fst d, map Qsum (snd d)).

Lemma collapse_gain : forall d, tree_deal_gain (collapse d) == int_deal_gain d.
Proof. intros d. unfold tree_deal_gain, int_deal_gain, collapse. simpl. rewrite Qsum_concat. reflexivity. Qed.

Lemma imaster_combined : forall cats counts t,
  Forall2 (fun v d => v == isum d) (combined_values (gcats cats counts) t) (imaster cats counts t).
Proof.
  intros cats counts t. induction t as [i ch IH] using rtree_ind'.
  destruct (list_eq_nil_dec ch) as [->|Hne].
  - cbn [combined_values imaster]. rewrite gcats_at. induction (value_groups cats counts i); simpl; constructor; auto.
    unfold isum, int_deal_gain. simpl. rewrite app_nil_r. reflexivity.
  - rewrite combined_node, imaster_node by assumption. rewrite gcats_at. clear Hne.
    assert (HF : Forall2 (fun v d => v == isum d) (concat (map (combined_values (gcats cats counts)) ch)) (concat (map (imaster cats counts) ch))).
    { induction ch as [|c ch IHc]; simpl; [constructor|]. inversion IH; subst. apply Forall2_app; [assumption|apply IHc; assumption]. }
    assert (HS := sort_rel _ (fun x => x) isum (fun a b H => H) _ _ HF). rewrite <- sort_desc_by in HS.
    revert HS. generalize (sort_desc (concat (map (combined_values (gcats cats counts)) ch))).
    generalize (sort_by_desc isum (concat (map (imaster cats counts) ch))).
    generalize (value_groups cats counts i). clear. intros xs ds qs H. revert xs.
    induction H; intros [|x0 xs]; simpl; constructor; auto. unfold isum, int_deal_gain in *. simpl. rewrite Qsum_app. lra.
Qed.

Lemma zip_i_In : forall i xs ys d, In d (zip_i i xs ys) -> exists x y, In x xs /\ In y ys /\ d = (i :: fst y, x :: snd y).
Proof.
  induction xs as [|x xs IH]; intros [|y ys] d; simpl; try tauto.
  intros [<-|H]; [exists x, y; auto|]. destruct (IH ys d H) as [x' [y' [Hx [Hy ->]]]]. exists x', y'. auto.
Qed.

Lemma value_groups_size : forall cats counts i g, (0 < count_at counts i)%nat -> In g (value_groups cats counts i) -> length g = count_at counts i.
Proof. intros. eapply groups_size; [assumption|]. rewrite value_groups_eq in H0. eassumption. Qed.

Lemma imaster_ok : forall cats counts t, positive_counts counts t -> Forall (int_deal_ok counts t) (imaster cats counts t).
Proof.
  intros cats counts t. induction t as [i ch IH] using rtree_ind'. intros HP. rewrite Forall_forall in *.
  assert (Hi : (0 < count_at counts i)%nat) by (apply HP; left; reflexivity).
  intros d Hd. destruct (list_eq_nil_dec ch) as [->|Hne].
  - cbn [imaster] in Hd. apply in_map_iff in Hd. destruct Hd as [g [<- Hg]]. split; [constructor|]. simpl.
    constructor; [|constructor]. eapply value_groups_size; eassumption.
  - rewrite imaster_node in Hd by assumption. apply zip_i_In in Hd. destruct Hd as [x [y [Hx [Hy ->]]]].
    apply (Permutation_in _ (sort_by_desc_perm _ _ _)) in Hy. apply in_concat in Hy. destruct Hy as [l [Hl Hy]].
    apply in_map_iff in Hl. destruct Hl as [c [<- Hc]].
    specialize (IH c Hc (positive_child _ _ _ _ HP Hc)). rewrite Forall_forall in IH. destruct (IH y Hy) as [P L].
    split; simpl in *; [econstructor; eassumption|]. constructor; [eapply value_groups_size; eassumption|assumption].
Qed.

Lemma iused_app : forall i D1 D2, int_used_in i (D1 ++ D2) = int_used_in i D1 ++ int_used_in i D2.
Proof. intros. unfold int_used_in. rewrite map_app, concat_app. reflexivity. Qed.

Lemma iused_perm : forall i D D', Permutation D D' -> Permutation (int_used_in i D) (int_used_in i D').
Proof. intros. unfold int_used_in. apply concat_perm. apply Permutation_map. assumption. Qed.

Lemma iused_deal_none : forall i (p : list nat) (vs : list (list Q)), ~ In i p ->
  concat (map snd (filter (fun q => Nat.eqb (fst q) i) (combine p vs))) = [].
Proof.
  induction p as [|a p IH]; intros [|v vs] H; simpl; try reflexivity.
  destruct (Nat.eqb_spec a i) as [->|Hne]; [exfalso; apply H; left; reflexivity|].
  apply IH. intros X. apply H. right. assumption.
Qed.

Lemma iused_none : forall i D, Forall (fun d : int_deal => ~ In i (fst d)) D -> int_used_in i D = [].
Proof.
  intros i D H. induction H as [|d D Hp H IH]; [reflexivity|].
  unfold int_used_in in *. simpl. rewrite IH, app_nil_r. apply iused_deal_none. assumption.
Qed.

Lemma zip_i_used_other : forall i xs ys j, j <> i ->
  int_used_in j (zip_i i xs ys) = int_used_in j (firstn (length xs) ys).
Proof.
  intros i xs ys j Hne. revert ys. induction xs as [|x xs IH]; intros [|y ys]; try reflexivity.
  cbn [zip_i length firstn]. unfold int_used_in in *. cbn [map concat]. rewrite IH. f_equal.
  cbn [fst snd combine filter]. destruct (Nat.eqb_spec i j) as [E|E]; [congruence|]. reflexivity.
Qed.

Lemma zip_i_used_self : forall i xs ys, Forall (fun d : int_deal => ~ In i (fst d)) ys ->
  int_used_in i (zip_i i xs ys) = concat (firstn (length ys) xs).
Proof.
  intros i xs. induction xs as [|x xs IH]; intros [|y ys] H; try reflexivity.
  inversion H; subst. cbn [zip_i length firstn]. unfold int_used_in in *. cbn [map concat]. rewrite (IH ys) by assumption.
  cbn [fst snd combine filter]. rewrite Nat.eqb_refl. cbn [map snd concat].
  rewrite iused_deal_none by assumption. rewrite app_nil_r. reflexivity.
Qed.

Lemma value_groups_bag : forall cats counts i k, (0 < count_at counts i)%nat ->
  sub_bag (concat (firstn k (value_groups cats counts i))) (cvalues (cat_at cats i)).
Proof.
  intros cats counts i k Hc. rewrite value_groups_eq.
  assert (E : exists k', (k' <= length (groups (count_at counts i) (sort_desc (cvalues (cat_at cats i)))))%nat /\
    firstn k (groups (count_at counts i) (sort_desc (cvalues (cat_at cats i)))) = firstn k' (groups (count_at counts i) (sort_desc (cvalues (cat_at cats i))))).
  { destruct (Nat.le_gt_cases k (length (groups (count_at counts i) (sort_desc (cvalues (cat_at cats i)))))) as [H|H].
    - exists k. auto.
    - exists (length (groups (count_at counts i) (sort_desc (cvalues (cat_at cats i))))). split; [lia|]. rewrite !firstn_all2 by lia. reflexivity. }
  destruct E as [k' [Hk ->]]. rewrite groups_concat by assumption.
  exists (skipn (k' * count_at counts i) (sort_desc (cvalues (cat_at cats i)))). rewrite firstn_skipn. apply sort_desc_perm.
Qed.

Lemma imaster_paths : forall cats counts c d, positive_counts counts c -> In d (imaster cats counts c) ->
  forall i, In i (fst d) -> In i (node_indices c).
Proof.
  intros cats counts c d HP Hd i Hi. assert (X := imaster_ok cats counts c HP). rewrite Forall_forall in X.
  destruct (X d Hd) as [P _]. eapply is_path_indices; eassumption.
Qed.

Lemma ichildren_used : forall cats counts ch j, (forall c, In c ch -> positive_counts counts c) -> NoDup (concat (map node_indices ch)) ->
  (forall c, In c ch -> sub_bag (int_used_in j (imaster cats counts c)) (cvalues (cat_at cats j))) ->
  sub_bag (int_used_in j (concat (map (imaster cats counts) ch))) (cvalues (cat_at cats j)).
Proof.
  intros cats counts ch j. induction ch as [|c ch IH]; intros HP HN HC; simpl.
  - apply sub_bag_nil.
  - cbn [map concat] in HN. apply NoDup_app_inv in HN. destruct HN as [N1 [N2 D]].
    rewrite iused_app. destruct (in_dec Nat.eq_dec j (node_indices c)) as [Hin|Hnin].
    + rewrite (iused_none j (concat (map (imaster cats counts) ch))).
      * rewrite app_nil_r. apply HC. left. reflexivity.
      * rewrite Forall_forall. intros d Hd Y. apply in_concat in Hd. destruct Hd as [l [Hl Hd]].
        apply in_map_iff in Hl. destruct Hl as [c' [<- Hc']]. apply (D j Hin). rewrite in_concat.
        exists (node_indices c'). split; [apply in_map; assumption|].
        eapply imaster_paths; [apply HP; right; eassumption|eassumption|assumption].
    + rewrite (iused_none j (imaster cats counts c)).
      * simpl. apply IH; [|assumption|]; intros; [apply HP|apply HC]; right; assumption.
      * rewrite Forall_forall. intros d Hd Y. apply Hnin. eapply imaster_paths; [apply HP; left; reflexivity|eassumption|assumption].
Qed.

Lemma imaster_used : forall cats counts t, positive_counts counts t -> distinct_categories t -> forall j,
  sub_bag (int_used_in j (imaster cats counts t)) (cvalues (cat_at cats j)).
Proof.
  intros cats counts t. induction t as [i ch IH] using rtree_ind'. intros HP HD j.
  assert (Hi0 : (0 < count_at counts i)%nat) by (apply HP; left; reflexivity).
  destruct (list_eq_nil_dec ch) as [->|Hne].
  - cbn [imaster]. destruct (Nat.eq_dec i j) as [->|Hij].
    + assert (E : forall l, int_used_in j (map (fun g => ([j], [g])) l) = concat l).
      { induction l as [|v l IHl]; [reflexivity|]. unfold int_used_in in *. cbn [map concat].
        rewrite IHl. simpl. rewrite Nat.eqb_refl. simpl. rewrite app_nil_r. reflexivity. }
      rewrite E. rewrite <- (firstn_all (value_groups cats counts j)). apply value_groups_bag. assumption.
    + rewrite iused_none; [apply sub_bag_nil|]. rewrite Forall_forall. intros d Hd. apply in_map_iff in Hd.
      destruct Hd as [g [<- _]]. simpl. intuition.
  - rewrite imaster_node by assumption. assert (HD' := distinct_inv _ _ HD). destruct HD' as [Hi HN].
    destruct (Nat.eq_dec j i) as [->|Hij].
    + rewrite zip_i_used_self; [apply value_groups_bag; assumption|]. rewrite Forall_forall. intros d Hd X.
      apply (Permutation_in _ (sort_by_desc_perm _ _ _)) in Hd. apply in_concat in Hd.
      destruct Hd as [l [Hl Hd]]. apply in_map_iff in Hl. destruct Hl as [c [<- Hc]]. apply Hi. rewrite in_concat. exists (node_indices c).
      split; [apply in_map; assumption|]. eapply imaster_paths; [eapply positive_child; eassumption|eassumption|assumption].
    + rewrite zip_i_used_other by assumption.
      eapply sub_bag_app_l with (b := int_used_in j (skipn (length (value_groups cats counts i)) (sort_by_desc isum (concat (map (imaster cats counts) ch))))).
      rewrite <- iused_app, firstn_skipn.
      eapply sub_bag_perm; [apply iused_perm, Permutation_sym, sort_by_desc_perm|].
      apply ichildren_used; [intros; eapply positive_child; eassumption|assumption|]. intros c Hc. rewrite Forall_forall in IH. apply IH; [assumption| |].
      * eapply positive_child; eassumption.
      * eapply distinct_child; eassumption.
Qed.

Lemma ifeasible_filter : forall cats counts t (f : int_deal -> bool) D, int_feasible cats counts t D -> int_feasible cats counts t (filter f D).
Proof.
  intros cats counts t f D [HF HU]. split.
  - rewrite Forall_forall in *. intros d Hd. apply filter_In in Hd. apply HF. tauto.
  - intros i. eapply sub_bag_trans; [|apply HU]. clear. induction D as [|d D IH]; simpl; [apply sub_bag_nil|].
    unfold int_used_in in *. destruct (f d); cbn [map concat].
    + destruct IH as [r Hr]. exists r. rewrite <- app_assoc. apply Permutation_app_head. assumption.
    + destruct IH as [r Hr].
      exists (concat (map snd (filter (fun p => (fst p =? i)%nat) (combine (fst d) (snd d)))) ++ r).
      eapply perm_trans; [apply Permutation_app_comm|]. rewrite <- app_assoc. apply Permutation_app_head.
      eapply perm_trans; [apply Permutation_app_comm|]. assumption.
Qed.

Lemma imaster_feasible : forall cats counts t, positive_counts counts t -> distinct_categories t ->
  int_feasible cats counts t (imaster cats counts t).
Proof. intros. split; [apply imaster_ok|apply imaster_used]; assumption. Qed.
