(** * Recipe trees: combined values and optimal trades (C31 - C33) *)

From Coq Require Import String List Arith Lia QArith Lqa Permutation Sorted Bool.
From Verif Require Import Base Model_Agents Model_Trade Model_RecipeTree Spec_Market Spec_RecipeTree Proof_Tree.
Import ListNotations.
Open Scope Q_scope.

(** ** Sorting related lists by related keys *)

Section SortRel.
  Context {A B : Type} (R : A -> B -> Prop) (ka : A -> Q) (kb : B -> Q).
  Hypothesis HR : forall a b, R a b -> ka a == kb b.

  Lemma insert_rel : forall l l' a b, Forall2 R l l' -> R a b ->
    Forall2 R (insert (fun x y => Qle_bool (ka y) (ka x)) a l) (insert (fun x y => Qle_bool (kb y) (kb x)) b l').
  Proof.
    intros l l' a b H Hab. induction H as [|x y l l' Hxy H IH]; simpl; [auto|].
    assert (E : Qle_bool (ka x) (ka a) = Qle_bool (kb y) (kb b)).
    { apply eq_iff_eq_true. rewrite !Qle_bool_iff. rewrite (HR _ _ Hxy), (HR _ _ Hab). reflexivity. }
    rewrite E. destruct (Qle_bool (kb y) (kb b)); auto.
  Qed.

  Lemma sort_rel : forall l l', Forall2 R l l' -> Forall2 R (sort_by_desc ka l) (sort_by_desc kb l').
  Proof.
    intros l l' H. unfold sort_by_desc. induction H; simpl; [constructor|]. apply insert_rel; assumption.
  Qed.
End SortRel.

Lemma sort_desc_by : forall l, sort_desc l = sort_by_desc (fun x => x) l.
Proof. reflexivity. Qed.

(** ** Deals with all their data: path, values, number of the leaf *)

Record mdeal : Type := mkM { md_path : list nat; md_vals : list Q; md_leaf : nat }.

Definition md_sum (d : mdeal) : Q := Qsum (md_vals d).
Definition to_deal (d : mdeal) : tree_deal := (md_path d, md_vals d).

Fixpoint zip_m (i : nat) (xs : list Q) (ys : list mdeal) : list mdeal :=
  match xs, ys with
  | x :: xs', y :: ys' => mkM (i :: md_path y) (x :: md_vals y) (md_leaf y) :: zip_m i xs' ys'
  | _, _ => []
  end.

Fixpoint master (cats : list category) (first : nat) (t : rtree) : list mdeal :=
  match t with
  | Node i [] => map (fun v => mkM [i] [v] first) (cvalues (cat_at cats i))
  | Node i ch => zip_m i (cvalues (cat_at cats i)) (sort_by_desc md_sum (over_children (master cats) first ch))
  end.

Definition list_eq_nil_dec {A} (l : list A) : {l = []} + {l <> []}.
Proof. destruct l; [left; reflexivity|right; discriminate]. Defined.

Lemma master_leaf : forall cats first i,
  master cats first (Node i []) = map (fun v => mkM [i] [v] first) (cvalues (cat_at cats i)).
Proof. reflexivity. Qed.

Lemma master_node : forall cats first i ch, ch <> [] -> master cats first (Node i ch) =
  zip_m i (cvalues (cat_at cats i)) (sort_by_desc md_sum (over_children (master cats) first ch)).
Proof. intros cats first i [|c ch] H; [congruence|reflexivity]. Qed.

Lemma combined_node : forall cats i ch, ch <> [] -> combined_values cats (Node i ch) =
  zip_add (cvalues (cat_at cats i)) (sort_desc (concat (map (combined_values cats) ch))).
Proof. intros cats i [|c ch] H; [congruence|reflexivity]. Qed.

Lemma detailed_node : forall cats i ch, ch <> [] -> detailed_values cats (Node i ch) =
  zip_cons (cvalues (cat_at cats i)) (sort_by_desc Qsum (concat (map (detailed_values cats) ch))).
Proof. intros cats i [|c ch] H; [congruence|reflexivity]. Qed.

Lemma counted_node : forall cats first i ch, ch <> [] -> counted_values cats first (Node i ch) =
  zip_add_counted (sort_desc (cvalues (cat_at cats i))) (sort_by_desc fst (over_children (counted_values cats) first ch)).
Proof. intros cats first i [|c ch] H; [congruence|reflexivity]. Qed.

Lemma deals_node : forall cats i ch, ch <> [] -> tree_num_of_deals cats (Node i ch) =
  Nat.min (nsum (map (tree_num_of_deals cats) ch)) (csize (cat_at cats i)).
Proof. intros cats i [|c ch] H; [congruence|reflexivity]. Qed.

(** The three computations of the code are projections of [master]. *)
Lemma combined_master : forall cats t first,
  Forall2 (fun q d => q == md_sum d) (combined_values cats t) (master cats first t).
Proof.
  intros cats t. induction t as [i ch IH] using rtree_ind'. intros first.
  destruct (list_eq_nil_dec ch) as [->|Hne].
  - rewrite master_leaf. cbn [combined_values]. induction (cvalues (cat_at cats i)); simpl; constructor; auto.
    unfold md_sum; simpl. lra.
  - rewrite master_node, combined_node by assumption. clear Hne.
    assert (HF : Forall2 (fun q d => q == md_sum d) (concat (map (combined_values cats) ch))
                   (over_children (master cats) first ch)).
    { revert first. induction ch as [|c ch IHc]; intros first; simpl; [constructor|]. inversion IH; subst.
      apply Forall2_app; [apply H1|apply IHc; assumption]. }
    assert (HS := sort_rel _ (fun x => x) md_sum (fun a b H => H) _ _ HF). rewrite <- sort_desc_by in HS.
    revert HS. generalize (sort_desc (concat (map (combined_values cats) ch))).
    generalize (sort_by_desc md_sum (over_children (master cats) first ch)).
    generalize (cvalues (cat_at cats i)). clear. intros xs ds qs H. revert xs.
    induction H; intros [|x0 xs]; simpl; constructor; auto. unfold md_sum in *. simpl. lra.
Qed.

Lemma detailed_master : forall cats t first, detailed_values cats t = map md_vals (master cats first t).
Proof.
  intros cats t first. assert (H : Forall2 (fun v d => v = md_vals d) (detailed_values cats t) (master cats first t)).
  { revert first. induction t as [i ch IH] using rtree_ind'. intros first. destruct (list_eq_nil_dec ch) as [->|Hne].
    - rewrite master_leaf. cbn [detailed_values]. induction (cvalues (cat_at cats i)); simpl; constructor; auto.
    - rewrite master_node, detailed_node by assumption. clear Hne.
      assert (HF : Forall2 (fun v d => v = md_vals d) (concat (map (detailed_values cats) ch))
                     (over_children (master cats) first ch)).
      { revert first. induction ch as [|c ch IHc]; intros first; simpl; [constructor|]. inversion IH; subst.
        apply Forall2_app; [apply H1|apply IHc; assumption]. }
      assert (HS := sort_rel (fun v d => v = md_vals d) Qsum md_sum). specialize (HS ltac:(intros a b H; simpl in H; rewrite H; reflexivity) _ _ HF).
      revert HS. generalize (sort_by_desc Qsum (concat (map (detailed_values cats) ch))).
      generalize (sort_by_desc md_sum (over_children (master cats) first ch)).
      generalize (cvalues (cat_at cats i)). clear. intros xs ds qs H. revert xs.
      induction H; intros [|x0 xs]; simpl; constructor; auto. simpl. congruence. }
  induction H; simpl; congruence.
Qed.

Lemma counted_master : forall cats t first, (forall i, desc (cvalues (cat_at cats i))) ->
  Forall2 (fun q d => fst q == md_sum d /\ snd q = md_leaf d) (counted_values cats first t) (master cats first t).
Proof.
  intros cats t first HD. revert first. induction t as [i ch IH] using rtree_ind'. intros first.
  destruct (list_eq_nil_dec ch) as [->|Hne].
  - rewrite master_leaf. cbn [counted_values]. induction (cvalues (cat_at cats i)); simpl; constructor; auto.
    unfold md_sum; simpl. split; [lra|reflexivity].
  - rewrite master_node, counted_node by assumption. rewrite (sort_desc_id _ (HD i)). clear Hne.
    assert (HF : Forall2 (fun q d => fst q == md_sum d /\ snd q = md_leaf d) (over_children (counted_values cats) first ch)
                   (over_children (master cats) first ch)).
    { revert first. induction ch as [|c ch IHc]; intros first; simpl; [constructor|]. inversion IH; subst.
      apply Forall2_app; [apply H1|apply IHc; assumption]. }
    assert (HS := sort_rel _ fst md_sum (fun a b (H : fst a == md_sum b /\ snd a = md_leaf b) => proj1 H) _ _ HF).
    revert HS. generalize (sort_by_desc fst (over_children (counted_values cats) first ch)).
    generalize (sort_by_desc md_sum (over_children (master cats) first ch)).
    generalize (cvalues (cat_at cats i)). clear. intros xs ds qs H. revert xs.
    induction H as [|a b ? ? [H1 H2] H IH]; intros [|x0 xs]; simpl; constructor; auto. unfold md_sum in *. simpl. split; [lra|assumption].
Qed.

Lemma zip_add_length : forall xs ys, length (zip_add xs ys) = Nat.min (length xs) (length ys).
Proof. induction xs; intros [|y ys]; simpl; auto. Qed.

Lemma zip_m_length : forall i xs ys, length (zip_m i xs ys) = Nat.min (length xs) (length ys).
Proof. induction xs; intros [|y ys]; simpl; auto. Qed.

Lemma concat_length : forall A (ll : list (list A)), length (concat ll) = nsum (map (@length A) ll).
Proof. intros A. induction ll; simpl; [reflexivity|]. rewrite app_length, IHll. reflexivity. Qed.

Lemma combined_length : forall cats t, length (combined_values cats t) = tree_num_of_deals cats t.
Proof.
  intros cats t. induction t as [i ch IH] using rtree_ind'. destruct (list_eq_nil_dec ch) as [->|Hne]; [reflexivity|].
  rewrite combined_node, deals_node by assumption. rewrite zip_add_length, sort_desc_length, concat_length, map_map.
  rewrite Nat.min_comm. f_equal. f_equal. apply map_ext_in. intros c Hc. rewrite Forall_forall in IH. auto.
Qed.

Lemma master_length : forall cats t first, length (master cats first t) = tree_num_of_deals cats t.
Proof.
  intros. rewrite <- combined_length. symmetry. eapply Forall2_length. apply combined_master.
Qed.

(** Combined values are sorted. *)
Lemma zip_add_desc : forall xs ys, desc xs -> desc ys -> desc (zip_add xs ys).
Proof.
  induction xs as [|x xs IH]; intros [|y ys] H1 H2; try (simpl; constructor).
  - apply desc_inv in H1. apply desc_inv in H2. apply IH; tauto.
  - apply desc_inv in H1. apply desc_inv in H2. destruct H1 as [_ F1]. destruct H2 as [_ F2]. clear IH.
    revert ys F2. induction F1 as [|a xs Ha F1 IH]; intros [|b ys] F2; simpl; constructor.
    + inversion F2; subst. lra.
    + inversion F2; subst. auto.
Qed.

Lemma combined_desc : forall cats t, (forall i, desc (cvalues (cat_at cats i))) -> desc (combined_values cats t).
Proof.
  intros cats [i ch] HD. destruct (list_eq_nil_dec ch) as [->|Hne]; [apply HD|].
  rewrite combined_node by assumption. apply zip_add_desc; [apply HD|apply sort_desc_desc].
Qed.

(** ** Used agents *)

Lemma used_app : forall i D1 D2, used_in i (D1 ++ D2) = used_in i D1 ++ used_in i D2.
Proof. intros. unfold used_in. rewrite map_app, concat_app. reflexivity. Qed.

Lemma concat_perm : forall A (l l' : list (list A)), Permutation l l' -> Permutation (concat l) (concat l').
Proof.
  intros A l l' H. induction H; simpl.
  - constructor.
  - apply Permutation_app_head. assumption.
  - rewrite !app_assoc. apply Permutation_app_tail. apply Permutation_app_comm.
  - eapply perm_trans; eassumption.
Qed.

Lemma used_perm : forall i D D', Permutation D D' -> Permutation (used_in i D) (used_in i D').
Proof. intros. unfold used_in. apply concat_perm. apply Permutation_map. assumption. Qed.

Lemma sub_bag_perm : forall a a' b, Permutation a a' -> sub_bag a b -> sub_bag a' b.
Proof.
  intros a a' b H [r Hr]. exists r. eapply perm_trans; [|exact Hr]. apply Permutation_app_tail.
  apply Permutation_sym. assumption.
Qed.

Lemma sub_bag_app_l : forall a b c, sub_bag (a ++ b) c -> sub_bag a c.
Proof. intros a b c [r Hr]. exists (b ++ r). rewrite app_assoc. assumption. Qed.

Lemma sub_bag_app_r : forall a b c, sub_bag (a ++ b) c -> sub_bag b c.
Proof. intros a b c H. apply (sub_bag_app_l b a). eapply sub_bag_perm; [apply Permutation_app_comm|assumption]. Qed.

Lemma sub_bag_nil : forall b, sub_bag [] b.
Proof. intros b. exists b. apply Permutation_refl. Qed.

Lemma used_deal_none : forall i (p : list nat) (vs : list Q), ~ In i p ->
  map snd (filter (fun q => Nat.eqb (fst q) i) (combine p vs)) = [].
Proof.
  induction p as [|a p IH]; intros [|v vs] H; simpl; try reflexivity.
  destruct (Nat.eqb_spec a i) as [->|Hne]; [exfalso; apply H; left; reflexivity|].
  apply IH. intros X. apply H. right. assumption.
Qed.

Lemma used_none : forall i t D, Forall (tree_deal_ok t) D -> ~ In i (node_indices t) -> used_in i D = [].
Proof.
  intros i t D H Hi. induction H as [|d D [Hp _] H IH]; [reflexivity|].
  unfold used_in in *. simpl. rewrite IH, app_nil_r. apply used_deal_none.
  intros X. apply Hi. eapply is_path_indices; eassumption.
Qed.

(** ** The deals of [master] are feasible *)

Lemma zip_m_used_other : forall i xs ys j, j <> i ->
  used_in j (map to_deal (zip_m i xs ys)) = used_in j (map to_deal (firstn (length xs) ys)).
Proof.
  intros i xs ys j Hne. revert ys. induction xs as [|x xs IH]; intros [|y ys]; try reflexivity.
  cbn [zip_m map length firstn]. unfold used_in in *. cbn [map concat]. rewrite IH. f_equal.
  unfold to_deal. cbn [fst snd md_path md_vals combine filter]. destruct (Nat.eqb_spec i j) as [E|E]; [congruence|]. reflexivity.
Qed.

Lemma zip_m_used_self : forall i xs ys, Forall (fun d => ~ In i (md_path d)) ys ->
  used_in i (map to_deal (zip_m i xs ys)) = firstn (length ys) xs.
Proof.
  intros i xs. induction xs as [|x xs IH]; intros [|y ys] H; try reflexivity.
  inversion H; subst. cbn [zip_m map length firstn]. unfold used_in in *. cbn [map concat]. rewrite (IH ys) by assumption.
  unfold to_deal. cbn [fst snd combine filter md_path md_vals]. rewrite Nat.eqb_refl. cbn [map snd].
  rewrite used_deal_none by assumption. reflexivity.
Qed.

Lemma zip_m_In : forall i xs ys d, In d (zip_m i xs ys) -> exists x y, In y ys /\
  d = mkM (i :: md_path y) (x :: md_vals y) (md_leaf y).
Proof.
  induction xs as [|x xs IH]; intros [|y ys] d; simpl; try tauto.
  intros [<-|H]; [exists x, y; auto|]. destruct (IH ys d H) as [x' [y' [Hy ->]]]. exists x', y'. auto.
Qed.

Lemma over_children_In : forall A (f : nat -> rtree -> list A) ch first d,
  In d (over_children f first ch) -> exists c n, In c ch /\ In d (f n c).
Proof.
  intros A f. induction ch as [|c ch IH]; simpl; intros first d H; [tauto|]. rewrite in_app_iff in H.
  destruct H as [H|H]; [exists c, first; auto|]. destruct (IH _ _ H) as [c' [n [Hc Hd]]]. exists c', n. auto.
Qed.

Lemma master_ok : forall cats t first, Forall (fun d => tree_deal_ok t (to_deal d)) (master cats first t).
Proof.
  intros cats t. induction t as [i ch IH] using rtree_ind'. intros first. rewrite Forall_forall in *.
  intros d Hd. destruct (list_eq_nil_dec ch) as [->|Hne].
  - rewrite master_leaf in Hd. apply in_map_iff in Hd. destruct Hd as [v [<- _]]. split; [constructor|reflexivity].
  - rewrite master_node in Hd by assumption. apply zip_m_In in Hd. destruct Hd as [x [y [Hy ->]]].
    apply (Permutation_in _ (sort_by_desc_perm _ _ _)) in Hy. apply over_children_In in Hy.
    destruct Hy as [c [n [Hc Hy]]]. specialize (IH c Hc n). rewrite Forall_forall in IH. destruct (IH y Hy) as [P L].
    split; simpl in *; [econstructor; eassumption|congruence].
Qed.

Lemma distinct_inv : forall i ch, distinct_categories (Node i ch) ->
  ~ In i (concat (map node_indices ch)) /\ NoDup (concat (map node_indices ch)).
Proof. unfold distinct_categories. intros i ch H. simpl in H. inversion H; auto. Qed.

Lemma distinct_child : forall i ch c, distinct_categories (Node i ch) -> In c ch -> distinct_categories c.
Proof.
  intros i ch c H Hc. apply distinct_inv in H. destruct H as [_ H]. unfold distinct_categories.
  induction ch as [|c' ch IH]; [destruct Hc|]. cbn [map concat] in H. apply NoDup_app_inv in H.
  destruct Hc as [<-|Hc]; [tauto|]. apply IH; tauto.
Qed.

Lemma sub_bag_firstn : forall n (l : list Q), sub_bag (firstn n l) l.
Proof. intros n l. exists (skipn n l). rewrite firstn_skipn. apply Permutation_refl. Qed.

Lemma sub_bag_trans : forall a b c, sub_bag a b -> sub_bag b c -> sub_bag a c.
Proof.
  intros a b c [r Hr] [s Hs]. exists (r ++ s). rewrite app_assoc.
  eapply perm_trans; [apply Permutation_app_tail; exact Hr|assumption].
Qed.

Lemma children_used : forall cats ch first j, NoDup (concat (map node_indices ch)) ->
  (forall c n, In c ch -> sub_bag (used_in j (map to_deal (master cats n c))) (cvalues (cat_at cats j))) ->
  sub_bag (used_in j (map to_deal (over_children (master cats) first ch))) (cvalues (cat_at cats j)).
Proof.
  intros cats ch first j. revert first. induction ch as [|c ch IH]; intros first HN HC; simpl.
  - apply sub_bag_nil.
  - cbn [map concat] in HN. apply NoDup_app_inv in HN. destruct HN as [N1 [N2 D]].
    rewrite map_app, used_app. destruct (in_dec Nat.eq_dec j (node_indices c)) as [Hin|Hnin].
    + assert (E : used_in j (map to_deal (over_children (master cats) (first + leaves c) ch)) = []).
      { unfold used_in. assert (HF : Forall (fun d => ~ In j (md_path d)) (over_children (master cats) (first + leaves c) ch)).
        { rewrite Forall_forall. intros d Hd. apply over_children_In in Hd. destruct Hd as [c' [n [Hc' Hd]]].
          assert (X := master_ok cats c' n). rewrite Forall_forall in X. destruct (X d Hd) as [P _].
          intros Y. apply (D j Hin). rewrite in_concat. exists (node_indices c'). split; [apply in_map; assumption|].
          eapply is_path_indices; eassumption. }
        clear -HF. induction HF; simpl; [reflexivity|]. rewrite used_deal_none by assumption. assumption. }
      rewrite E, app_nil_r. apply HC. left. reflexivity.
    + rewrite (used_none j c).
      * simpl. apply IH; [assumption|]. intros; apply HC; right; assumption.
      * apply Forall_map. apply master_ok.
      * assumption.
Qed.

Lemma master_used : forall cats t first, distinct_categories t -> forall j,
  sub_bag (used_in j (map to_deal (master cats first t))) (cvalues (cat_at cats j)).
Proof.
  intros cats t. induction t as [i ch IH] using rtree_ind'. intros first HD j.
  destruct (list_eq_nil_dec ch) as [->|Hne].
  - rewrite master_leaf. destruct (Nat.eq_dec i j) as [->|Hij].
    + assert (E : forall l, used_in j (map to_deal (map (fun v : Q => mkM [j] [v] first) l)) = l).
      { induction l as [|v l IHl]; [reflexivity|]. unfold used_in in *. cbn [map concat].
        rewrite IHl. simpl. rewrite Nat.eqb_refl. reflexivity. }
      rewrite E. exists []. rewrite app_nil_r. apply Permutation_refl.
    + rewrite (used_none j (Node i [])); [apply sub_bag_nil| |].
      * apply Forall_map. rewrite <- (master_leaf cats). apply (master_ok cats (Node i []) first).
      * simpl. intuition.
  - rewrite master_node by assumption. assert (HD' := distinct_inv _ _ HD). destruct HD' as [Hi HN].
    destruct (Nat.eq_dec j i) as [->|Hij].
    + rewrite zip_m_used_self; [apply sub_bag_firstn|]. rewrite Forall_forall. intros d Hd.
      apply (Permutation_in _ (sort_by_desc_perm _ _ _)) in Hd. apply over_children_In in Hd.
      destruct Hd as [c [n [Hc Hd]]]. intros X. apply Hi. rewrite in_concat. exists (node_indices c).
      split; [apply in_map; assumption|]. assert (Y := master_ok cats c n). rewrite Forall_forall in Y.
      destruct (Y d Hd) as [P _]. eapply is_path_indices; eassumption.
    + rewrite zip_m_used_other by assumption.
      eapply sub_bag_app_l with (b := used_in j (map to_deal (skipn (length (cvalues (cat_at cats i))) (sort_by_desc md_sum (over_children (master cats) first ch))))).
      rewrite <- used_app, <- map_app, firstn_skipn.
      eapply sub_bag_perm; [apply used_perm, Permutation_map, Permutation_sym, sort_by_desc_perm|].
      apply children_used; [assumption|]. intros c n Hc. rewrite Forall_forall in IH. apply IH; [assumption|].
      eapply distinct_child; eassumption.
Qed.

Lemma master_feasible : forall cats t first, distinct_categories t ->
  tree_feasible cats t (map to_deal (master cats first t)).
Proof.
  intros. split; [|apply master_used; assumption].
  apply Forall_map. apply master_ok.
Qed.

(** Any sub-collection of a feasible collection of deals is feasible. *)
Lemma feasible_filter : forall cats t (f : tree_deal -> bool) D, tree_feasible cats t D -> tree_feasible cats t (filter f D).
Proof.
  intros cats t f D [HF HU]. split.
  - rewrite Forall_forall in *. intros d Hd. apply filter_In in Hd. apply HF. tauto.
  - intros i. eapply sub_bag_trans; [|apply HU]. clear. induction D as [|d D IH]; simpl; [apply sub_bag_nil|].
    unfold used_in in *. destruct (f d); cbn [map concat].
    + destruct IH as [r Hr]. exists r. rewrite <- app_assoc. apply Permutation_app_head. assumption.
    + destruct IH as [r Hr].
      exists (map snd (filter (fun p => (fst p =? i)%nat) (combine (fst d) (snd d))) ++ r).
      eapply perm_trans; [apply Permutation_app_swap_app|]. apply Permutation_app_head. assumption.
Qed.
