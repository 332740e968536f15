(** * Integer recipe trees: optimality of the computed gain and number of deals (C46, C47) *)

From Coq Require Import String List Arith Lia QArith Lqa Permutation Sorted Bool NArith.
From Verif Require Import Base Model_Agents Model_Trade Model_Prices Model_Market Model_RecipeTree Model_IntPrices Model_IntTree Model_IntAuction
  Spec_Market Spec_RecipeTree Spec_Int Proof_Tree Proof_Tree2 Proof_Tree3 Proof_Int1.
Import ListNotations.
Open Scope Q_scope.

(** ** Total gain, category by category *)

Lemma Qsum_map_plus : forall A (f g : A -> Q) l, Qsum (map (fun x => f x + g x) l) == Qsum (map f l) + Qsum (map g l).
Proof. induction l as [|a l IH]; simpl; [lra|]. rewrite IH. lra. Qed.

Lemma Qsum_map_ext : forall A (f g : A -> Q) l, (forall x, In x l -> f x == g x) -> Qsum (map f l) == Qsum (map g l).
Proof. induction l as [|a l IH]; intros H; simpl; [reflexivity|]. rewrite (H a) by (left; reflexivity). rewrite IH; [reflexivity|]. intros; apply H; right; assumption. Qed.

Lemma Qsum_map_le : forall A (f g : A -> Q) l, (forall x, In x l -> f x <= g x) -> Qsum (map f l) <= Qsum (map g l).
Proof. induction l as [|a l IH]; intros H; simpl; [lra|]. assert (H1 := H a (or_introl eq_refl)). assert (H2 := IH (fun x Hx => H x (or_intror Hx))). lra. Qed.

Lemma Qsum_map_zero : forall A (l : list A), Qsum (map (fun _ => 0) l) == 0.
Proof. induction l; simpl; [reflexivity|]. rewrite IHl. lra. Qed.

Lemma Qsum_indicator : forall n a v, (a < n)%nat -> Qsum (map (fun i => if (a =? i)%nat then v else 0) (seq 0 n)) == v.
Proof.
  assert (G : forall n s a v, (s <= a < s + n)%nat -> Qsum (map (fun i => if (a =? i)%nat then v else 0) (seq s n)) == v).
  { induction n as [|n IH]; intros s a v H; [lia|]. cbn [seq map]. rewrite Qsum_cons. destruct (Nat.eqb_spec a s) as [->|E].
    - rewrite (Qsum_map_ext _ _ (fun _ => 0)); [rewrite Qsum_map_zero; lra|]. intros x Hx. apply in_seq in Hx.
      destruct (Nat.eqb_spec s x); [lia|reflexivity].
    - rewrite IH by lia. lra. }
  intros. apply G. lia.
Qed.

Definition deal_used (i : nat) (d : tree_deal) : list Q := map snd (filter (fun p => Nat.eqb (fst p) i) (combine (fst d) (snd d))).

Lemma deal_gain_by_category : forall n p vs, length vs = length p -> Forall (fun i => (i < n)%nat) p ->
  Qsum vs == Qsum (map (fun i => Qsum (deal_used i (p, vs))) (seq 0 n)).
Proof.
  intros n p. induction p as [|a p IH]; intros [|v vs] L H; try discriminate.
  - cbn. rewrite Qsum_map_zero. reflexivity.
  - inversion H; subst. simpl in L. injection L as L. rewrite Qsum_cons, (IH vs L) by assumption.
    rewrite (Qsum_map_ext _ (fun i => Qsum (deal_used i (a :: p, v :: vs)))
      (fun i => (if (a =? i)%nat then v else 0) + Qsum (deal_used i (p, vs)))).
    + rewrite Qsum_map_plus, Qsum_indicator by assumption. reflexivity.
    + intros i _. unfold deal_used. cbn [fst snd combine filter]. destruct (a =? i)%nat; simpl; lra.
Qed.

Lemma gain_by_category : forall n (D : list tree_deal),
  Forall (fun d => length (snd d) = length (fst d) /\ Forall (fun i => (i < n)%nat) (fst d)) D ->
  tree_gain D == Qsum (map (fun i => Qsum (used_in i D)) (seq 0 n)).
Proof.
  intros n D H. unfold tree_gain. induction H as [|[p vs] D [L R] H IH].
  - cbn. rewrite Qsum_map_zero. reflexivity.
  - cbn [map]. rewrite Qsum_cons, IH. unfold tree_deal_gain at 1. cbn [fst snd] in *.
    rewrite (deal_gain_by_category n p vs L R).
    rewrite <- Qsum_map_plus. apply Qsum_map_ext. intros i _. unfold used_in. cbn [map concat]. rewrite Qsum_app. reflexivity.
Qed.

(** ** Handing out the best agents in order *)

Definition occ (i : nat) (l : list nat) : nat := count_occ Nat.eq_dec l i.

Fixpoint items (pool : nat -> list Q) (done p : list nat) : list Q :=
  match p with
  | [] => []
  | i :: p' => nth (occ i done) (pool i) 0 :: items pool (i :: done) p'
  end.

Fixpoint alloc (pool : nat -> list Q) (done : list nat) (P : list (list nat)) : list tree_deal :=
  match P with
  | [] => []
  | p :: P' => (p, items pool done p) :: alloc pool (p ++ done) P'
  end.

Lemma items_length : forall pool p done, length (items pool done p) = length p.
Proof. induction p as [|i p IH]; intros done; simpl; [reflexivity|]. rewrite IH. reflexivity. Qed.

Lemma items_used : forall pool i p done,
  map snd (filter (fun q => Nat.eqb (fst q) i) (combine p (items pool done p))) =
  map (fun j => nth j (pool i) 0) (seq (occ i done) (occ i p)).
Proof.
  intros pool i p. induction p as [|a p IH]; intros done; [reflexivity|]. cbn [items combine filter fst].
  unfold occ in *. cbn [count_occ]. destruct (Nat.eqb_spec a i) as [->|E].
  - destruct (Nat.eq_dec i i) as [_|X]; [|contradiction]. cbn [map seq snd]. f_equal. rewrite IH. cbn [count_occ].
    destruct (Nat.eq_dec i i) as [_|X]; [reflexivity|contradiction].
  - destruct (Nat.eq_dec a i) as [X|_]; [contradiction|]. rewrite IH. cbn [count_occ].
    destruct (Nat.eq_dec a i) as [X|_]; [contradiction|reflexivity].
Qed.

Lemma occ_app : forall i a b, occ i (a ++ b) = (occ i a + occ i b)%nat.
Proof. intros. apply count_occ_app. Qed.

Lemma alloc_used : forall pool i P done, used_in i (alloc pool done P) =
  map (fun j => nth j (pool i) 0) (seq (occ i done) (occ i (concat P))).
Proof.
  intros pool i P. induction P as [|p P IH]; intros done; [reflexivity|]. unfold used_in in *. cbn [alloc map concat fst snd].
  rewrite items_used, IH, occ_app, occ_app, <- map_app. rewrite seq_app. rewrite (Nat.add_comm (occ i p) (occ i done)). reflexivity.
Qed.

Lemma map_nth_seq : forall (l : list Q) k, (k <= length l)%nat -> map (fun j => nth j l 0) (seq 0 k) = firstn k l.
Proof.
  induction l as [|a l IH]; intros k H; simpl in H.
  - replace k with 0%nat by lia. reflexivity.
  - destruct k as [|k]; [reflexivity|]. cbn [seq map firstn nth]. f_equal. rewrite <- seq_shift, map_map. apply IH. lia.
Qed.

Lemma alloc_paths : forall pool P done, map fst (alloc pool done P) = P.
Proof. induction P as [|p P IH]; intros done; simpl; [reflexivity|]. rewrite IH. reflexivity. Qed.

Lemma alloc_lengths : forall pool P done d, In d (alloc pool done P) -> length (snd d) = length (fst d).
Proof. induction P as [|p P IH]; intros done d H; simpl in H; [destruct H|]. destruct H as [<-|H]; [apply items_length|eapply IH; eassumption]. Qed.

Lemma used_occ : forall i (D : list tree_deal), Forall (fun d => length (snd d) = length (fst d)) D ->
  length (used_in i D) = occ i (concat (map fst D)).
Proof.
  intros i D H. unfold used_in. induction H as [|[p vs] D L H IH]; [reflexivity|]. cbn [map concat fst snd] in *.
  rewrite app_length, occ_app, IH. f_equal. clear -L. revert vs L. induction p as [|a p IH]; intros [|v vs] L; try discriminate; [reflexivity|].
  injection L as L. cbn [combine filter fst]. unfold occ in *. cbn [count_occ].
  destruct (Nat.eqb_spec a i), (Nat.eq_dec a i); try contradiction; simpl; rewrite IH by assumption; reflexivity.
Qed.

(** ** No deals are better than those of the group market *)

Lemma int_used_collapse : forall i D, Forall2 (fun x y => x == y) (map Qsum (map (fun d : int_deal => concat (map snd (filter (fun p => Nat.eqb (fst p) i) (combine (fst d) (snd d))))) D))
   (map Qsum (map (fun d => map snd (filter (fun p => Nat.eqb (fst p) i) (combine (fst d) (snd d)))) (map collapse D))).
Proof.
  intros i D. induction D as [|[p gs] D IH]; simpl; constructor; [|assumption]. clear IH.
  revert gs. induction p as [|a p IH]; intros [|g gs]; simpl; try reflexivity.
  destruct (Nat.eqb a i); simpl; [|apply IH]. rewrite Qsum_app. rewrite IH. reflexivity.
Qed.

Lemma Qsum_Forall2 : forall l l', Forall2 (fun x y => x == y) l l' -> Qsum l == Qsum l'.
Proof. induction 1; simpl; lra. Qed.

Lemma int_used_sum : forall i D, Qsum (int_used_in i D) == Qsum (used_in i (map collapse D)).
Proof.
  intros i D. unfold int_used_in, used_in. rewrite !Qsum_concat.
  apply Qsum_Forall2. apply int_used_collapse.
Qed.

Lemma int_used_length : forall counts i D, Forall (fun d : int_deal => Forall2 (fun i g => length g = count_at counts i) (fst d) (snd d)) D ->
  length (int_used_in i D) = (length (used_in i (map collapse D)) * count_at counts i)%nat.
Proof.
  intros counts i D H. unfold int_used_in, used_in. induction H as [|[p gs] D L H IH]; [reflexivity|].
  cbn [map concat collapse fst snd] in *. rewrite !app_length, IH, Nat.mul_add_distr_r. f_equal. clear -L.
  induction L as [|a g p gs La L IH]; [reflexivity|]. cbn [map combine filter fst]. destruct (Nat.eqb_spec a i) as [->|E]; [|assumption].
  cbn [map concat snd length]. rewrite app_length, La, IH. reflexivity.
Qed.

Lemma collapse_ok : forall counts t d, int_deal_ok counts t d -> tree_deal_ok t (collapse d).
Proof. intros counts t [p gs] [H L]. split; [assumption|]. simpl in *. rewrite map_length. symmetry. eapply Forall2_length. eassumption. Qed.

Lemma path_bound : forall n t p, indices_in_range n t -> is_path t p -> Forall (fun i => (i < n)%nat) p.
Proof.
  intros n t p H Hp. unfold indices_in_range in H. rewrite Forall_forall in *. intros i Hi. apply H. eapply is_path_indices; eassumption.
Qed.

(** Every tree has all its indices below some bound. *)
Lemma some_range : forall t, exists n, indices_in_range n t.
Proof.
  intros t. exists (S (fold_right Nat.max 0%nat (node_indices t))). unfold indices_in_range. rewrite Forall_forall.
  intros i Hi. induction (node_indices t) as [|a l IH]; [destruct Hi|]. simpl. destruct Hi as [->|Hi]; [lia|]. specialize (IH Hi). lia.
Qed.

Lemma int_upper : forall cats counts t D, positive_counts counts t -> int_feasible cats counts t D ->
  exists D', tree_feasible (gcats cats counts) t D' /\ length D' = length D /\ int_gain D <= tree_gain D'.
Proof.
  intros cats counts t D HP [HF HU]. destruct (some_range t) as [n HR].
  set (D1 := map collapse D). assert (OK1 : Forall (tree_deal_ok t) D1).
  { apply Forall_map. eapply Forall_impl; [|exact HF]. intros d. apply collapse_ok. }
  set (pool := fun i => map Qsum (value_groups cats counts i)).
  set (D' := alloc pool [] (map fst D1)).
  assert (LEN1 : Forall (fun d : tree_deal => length (snd d) = length (fst d)) D1).
  { eapply Forall_impl; [|exact OK1]. intros d [_ L]. assumption. }
  assert (FST : map fst D' = map fst D1) by apply alloc_paths.
  assert (OK2 : Forall (tree_deal_ok t) D').
  { rewrite Forall_forall. intros d Hd. split; [|eapply alloc_lengths; exact Hd].
    assert (X : In (fst d) (map fst D1)) by (rewrite <- FST; apply in_map; assumption).
    apply in_map_iff in X. destruct X as [d1 [<- Hd1]]. rewrite Forall_forall in OK1. apply OK1. assumption. }
  assert (K : forall i, (0 < count_at counts i)%nat -> (occ i (concat (map fst D1)) <= length (pool i))%nat
     /\ Qsum (used_in i D1) <= Qsum (firstn (occ i (concat (map fst D1))) (pool i))).
  { intros i Hc.
    assert (GL : Forall (fun d : int_deal => Forall2 (fun i g => length g = count_at counts i) (fst d) (snd d)) D).
    { eapply Forall_impl; [|exact HF]. intros d [_ L]. assumption. }
    assert (L1 := int_used_length counts i D GL). fold D1 in L1. rewrite (used_occ i D1 LEN1) in L1.
    assert (SB : sub_bag (int_used_in i D) (sort_desc (cvalues (cat_at cats i)))).
    { destruct (HU i) as [r Hr]. exists r. eapply perm_trans; [exact Hr|apply Permutation_sym, sort_desc_perm]. }
    assert (L2 := sub_bag_length _ _ SB). rewrite L1 in L2.
    assert (KL : (occ i (concat (map fst D1)) <= length (value_groups cats counts i))%nat).
    { rewrite value_groups_eq, groups_length by assumption. apply Nat.div_le_lower_bound; lia. }
    unfold pool. rewrite map_length. split; [assumption|].
    assert (S1 := sub_bag_sum _ _ (sort_desc_desc _) SB). rewrite L1 in S1.
    rewrite value_groups_eq in *. rewrite <- (groups_concat (count_at counts i)) in S1 by assumption.
    rewrite Qsum_concat in S1. rewrite <- firstn_map in S1. rewrite (int_used_sum i D) in S1. exact S1. }
  assert (USED : forall i, (0 < count_at counts i)%nat -> used_in i D' = firstn (occ i (concat (map fst D1))) (pool i)).
  { intros i Hc. unfold D'. rewrite alloc_used. apply map_nth_seq. apply K. assumption. }
  assert (NONE : forall i, ~ In i (node_indices t) -> used_in i D' = [] /\ used_in i D1 = []).
  { intros i Hi. split; eapply used_none; eassumption. }
  exists D'. split; [split|split].
  - assumption.
  - intros i. rewrite gcats_at. destruct (in_dec Nat.eq_dec i (node_indices t)) as [Hi|Hi].
    + rewrite (USED i (HP i Hi)). apply sub_bag_firstn.
    + destruct (NONE i Hi) as [-> _]. apply sub_bag_nil.
  - assert (X : length (map fst D') = length (map fst D1)) by (rewrite FST; reflexivity). unfold D1 in X. rewrite !map_length in X. assumption.
  - assert (G1 : int_gain D == tree_gain D1).
    { unfold int_gain, tree_gain, D1. rewrite map_map. apply Qsum_map_ext. intros d _. symmetry. apply collapse_gain. }
    rewrite G1. rewrite (gain_by_category n D1), (gain_by_category n D').
    + apply Qsum_map_le. intros i _. destruct (in_dec Nat.eq_dec i (node_indices t)) as [Hi|Hi].
      * rewrite (USED i (HP i Hi)). apply K. apply HP. assumption.
      * destruct (NONE i Hi) as [-> ->]. lra.
    + eapply Forall_impl; [|exact OK2]. intros d [P L]. split; [assumption|]. eapply path_bound; eassumption.
    + eapply Forall_impl; [|exact OK1]. intros d [P L]. split; [assumption|]. eapply path_bound; eassumption.
Qed.

(** ** The computed gain *)

Lemma groups_zero : forall l cur, groups_from 0 cur l = [].
Proof. induction l as [|v l IH]; intros cur; [reflexivity|]. cbn [groups_from]. rewrite app_length. simpl. rewrite Nat.add_comm. simpl. apply IH. Qed.

Lemma gcats_sorted : forall cats counts, sorted_cats (gcats cats counts).
Proof.
  intros cats counts. unfold sorted_cats, gcats. apply Forall_map. rewrite Forall_forall. intros i _. simpl.
  rewrite value_groups_eq. destruct (count_at counts i) as [|c]; [unfold groups; rewrite groups_zero; constructor|].
  apply groups_sums_desc; [lia|apply sort_desc_desc].
Qed.

Definition iopt (cats : list category) (counts : list nat) (t : rtree) : list int_deal :=
  filter (fun d => Qle_bool 0 (isum d)) (imaster cats counts t).

Lemma iopt_rel : forall cats counts t, Forall2 (fun q d => q == isum d)
  (filter (fun v => Qle_bool 0 v) (combined_values (gcats cats counts) t)) (iopt cats counts t).
Proof.
  intros. apply (filter_rel _ _ (fun q d => q == isum d)); [|apply imaster_combined]. intros a b H. apply Qle_bool_compat. assumption.
Qed.

Lemma iopt_gain : forall cats counts t, int_gain (iopt cats counts t) == optimal_trade_GFT (gcats cats counts) t.
Proof. intros. symmetry. unfold optimal_trade_GFT, int_gain. apply (rel_sum _ isum). apply iopt_rel. Qed.

Lemma int_gft_iopt : forall cats counts t, positive_counts counts t ->
  int_optimal_trade_GFT cats counts t == int_gain (iopt cats counts t).
Proof.
  intros cats counts t HP. unfold int_optimal_trade_GFT, int_gain, iopt. rewrite combined_imaster by assumption.
  rewrite map_filter, map_map. reflexivity.
Qed.

Lemma int_gft_bound : forall cats counts t D, positive_counts counts t -> int_feasible cats counts t D ->
  int_gain D <= int_gain (iopt cats counts t).
Proof.
  intros cats counts t D HP HF. destruct (int_upper cats counts t D HP HF) as [D' [F' [_ G]]].
  assert (X := gft_upper _ _ _ (gcats_sorted cats counts) F'). rewrite iopt_gain. lra.
Qed.

Lemma iopt_optimal : forall cats counts t, positive_counts counts t -> distinct_categories t ->
  int_optimal cats counts t (iopt cats counts t).
Proof.
  intros cats counts t HP HD. split.
  - apply ifeasible_filter. apply imaster_feasible; assumption.
  - intros D' HF. apply int_gft_bound; assumption.
Qed.

Lemma int_optimal_trade_spec : forall cats counts t opt k g, positive_counts counts t -> distinct_categories t ->
  int_optimal_trade cats counts t = (opt, k, g) ->
  exists D, int_optimal cats counts t D /\ opt = map (fun d : int_deal => concat (snd d)) D /\ k = length D /\ g == int_gain D
    /\ g == int_optimal_trade_GFT cats counts t
    /\ forall D', int_optimal cats counts t D' -> (length D' <= k)%nat.
Proof.
  intros cats counts t opt k g HP HD E. exists (iopt cats counts t). unfold int_optimal_trade in E. injection E; intros E3 E2 E1. clear E.
  assert (O : opt = map (fun d : int_deal => concat (snd d)) (iopt cats counts t)).
  { rewrite <- E1, detailed_combined, combined_imaster by assumption. rewrite map_filter. reflexivity. }
  assert (GG : g == int_gain (iopt cats counts t)).
  { rewrite <- E3, Qsum_concat, E1, O, map_map. reflexivity. }
  split; [apply iopt_optimal; assumption|]. split; [assumption|]. split; [|split; [assumption|split]].
  - rewrite <- E2, E1, O, map_length. reflexivity.
  - rewrite GG. symmetry. apply int_gft_iopt. assumption.
  - intros D' [F' O']. destruct (int_upper cats counts t D' HP F') as [D2 [F2 [L2 G2]]].
    assert (OPT2 : tree_optimal (gcats cats counts) t D2).
    { split; [assumption|]. intros D3 F3. assert (X := gft_upper _ _ _ (gcats_sorted cats counts) F3).
      assert (Y := O' _ (proj1 (iopt_optimal cats counts t HP HD))). rewrite iopt_gain in Y. lra. }
    assert (Z := optimal_count_max _ _ _ (gcats_sorted cats counts) HD OPT2).
    rewrite <- L2. rewrite <- E2, E1, O, map_length. rewrite <- (Forall2_length _ _ _ _ _ (iopt_rel cats counts t)).
    rewrite (Forall2_length _ _ _ _ _ (opt_combined (gcats cats counts) t)). assumption.
Qed.

(** ** Number of deals *)

Lemma int_deals_node : forall cats counts i ch, ch <> [] -> int_num_of_deals cats counts (Node i ch) =
  (self <- size_floor cats counts i ;; ns <- map_result (int_num_of_deals cats counts) ch ;; Ok (Nat.min (nsum ns) self)).
Proof. intros cats counts i [|c ch] H; [congruence|]. reflexivity. Qed.

Lemma size_floor_ok : forall cats counts i, (0 < count_at counts i)%nat ->
  size_floor cats counts i = Ok (csize (cat_at (gcats cats counts) i)).
Proof.
  intros. unfold size_floor. destruct (Nat.eqb_spec (count_at counts i) 0); [lia|]. unfold csize at 2.
  rewrite gcats_at, map_length, value_groups_length by assumption. reflexivity.
Qed.

Lemma int_deals_ok : forall cats counts t, positive_counts counts t ->
  int_num_of_deals cats counts t = Ok (tree_num_of_deals (gcats cats counts) t).
Proof.
  intros cats counts t. induction t as [i ch IH] using rtree_ind'. intros HP.
  assert (Hi : (0 < count_at counts i)%nat) by (apply HP; left; reflexivity).
  destruct (list_eq_nil_dec ch) as [->|Hne].
  - cbn [int_num_of_deals tree_num_of_deals]. rewrite size_floor_ok by assumption. reflexivity.
  - rewrite int_deals_node, deals_node by assumption. rewrite size_floor_ok by assumption. cbn [bind].
    assert (E : map_result (int_num_of_deals cats counts) ch = Ok (map (tree_num_of_deals (gcats cats counts)) ch)).
    { assert (HC : forall c, In c ch -> positive_counts counts c) by (intros; eapply positive_child; eassumption).
      clear HP Hne. induction ch as [|c ch IHc]; [reflexivity|]. inversion IH; subst. cbn [map_result map].
      rewrite H1 by (apply HC; left; reflexivity). cbn [bind]. rewrite IHc; [reflexivity|assumption|]. intros; apply HC; right; assumption. }
    rewrite E. reflexivity.
Qed.

Lemma int_deals_max : forall cats counts t n, positive_counts counts t -> int_num_of_deals cats counts t = Ok n ->
  (forall D, int_feasible cats counts t D -> (length D <= n)%nat)
  /\ (distinct_categories t -> exists D, int_feasible cats counts t D /\ length D = n).
Proof.
  intros cats counts t n HP E. rewrite int_deals_ok in E by assumption. injection E; intros <-. split.
  - intros D HF. destruct (int_upper cats counts t D HP HF) as [D' [F' [L _]]]. rewrite <- L.
    apply num_of_deals_max. assumption.
  - intros HD. exists (imaster cats counts t). split; [apply imaster_feasible; assumption|].
    rewrite <- (Forall2_length _ _ _ _ _ (imaster_combined cats counts t)). apply combined_length.
Qed.

(** ** Explained numbers *)

Definition first_positive_min (l : list nat) : nat :=
  match min_list (filter (fun k => 0 <? k)%nat l) with Some k => k | None => 0%nat end.

Lemma int_explained_node : forall cats counts prices i ch, ch <> [] -> int_deals_explained cats counts prices (Node i ch) =
  (self <- size_floor cats counts i ;; _ <- get prices i ;; rs <- map_result (int_deals_explained cats counts prices) ch ;;
   match max_list (map snd rs) with
   | Some kmax => Ok (Nat.min (nsum (map (fun r => fst (fst r)) rs)) self, first_positive_min (map (fun r => snd (fst r)) rs), kmax)
   | None => Raise ValueError
   end).
Proof. intros cats counts prices i [|c ch] H; [congruence|]. reflexivity. Qed.

(** The sizes, in whole groups, of the leaves. *)
Definition leaf_groups (cats : list category) (counts : list nat) (t : rtree) : list nat :=
  map (fun i => csize (cat_at cats i) / count_at counts i)%nat (leaf_indices t).

Lemma positive_min_app : forall l1 l2, first_positive_min (l1 ++ l2) =
  first_positive_min [first_positive_min l1; first_positive_min l2].
Proof.
  intros l1 l2. unfold first_positive_min. rewrite filter_app.
  assert (P : forall l k, min_list (filter (fun k => 0 <? k)%nat l) = Some k -> (0 < k)%nat).
  { induction l as [|a l IH]; intros k H; [discriminate|]. simpl in H. destruct (Nat.ltb_spec 0 a); [|apply IH; assumption].
    simpl in H. destruct (min_list (filter (fun k => 0 <? k)%nat l)) as [b|]; injection H; intros <-; [|assumption].
    specialize (IH b eq_refl). lia. }
  assert (N : forall l, min_list l = None -> l = []).
  { intros [|a l]; [reflexivity|]. simpl. destruct (min_list l); discriminate. }
  destruct (min_list (filter (fun k => 0 <? k)%nat l1)) as [a|] eqn:E1, (min_list (filter (fun k => 0 <? k)%nat l2)) as [b|] eqn:E2.
  - assert (Pa := P _ _ E1). assert (Pb := P _ _ E2). rewrite (min_list_app _ _ _ _ E1 E2). simpl.
    destruct (Nat.ltb_spec 0 a), (Nat.ltb_spec 0 b); try lia. reflexivity.
  - assert (Pa := P _ _ E1). apply N in E2. rewrite E2, app_nil_r, E1. simpl. destruct (Nat.ltb_spec 0 a); [reflexivity|lia].
  - assert (Pb := P _ _ E2). apply N in E1. rewrite E1. simpl. rewrite E2. destruct (Nat.ltb_spec 0 b); [reflexivity|lia].
  - apply N in E1, E2. rewrite E1, E2. reflexivity.
Qed.

Lemma positive_min_one : forall a, first_positive_min [a] = a.
Proof. intros [|a]; reflexivity. Qed.

Lemma positive_min_concat : forall ll, first_positive_min (concat ll) = first_positive_min (map first_positive_min ll).
Proof.
  induction ll as [|l ll IH]; [reflexivity|]. cbn [concat map]. rewrite positive_min_app, IH.
  change (first_positive_min l :: map first_positive_min ll) with ([first_positive_min l] ++ map first_positive_min ll).
  rewrite (positive_min_app [first_positive_min l]), positive_min_one. reflexivity.
Qed.

Lemma int_explained_ok : forall cats counts prices t, positive_counts counts t -> indices_in_range (length prices) t ->
  exists kmax, int_deals_explained cats counts prices t =
    Ok (tree_num_of_deals (gcats cats counts) t, first_positive_min (leaf_groups cats counts t), kmax)
    /\ max_list (leaf_groups cats counts t) = Some kmax.
Proof.
  intros cats counts prices t. induction t as [i ch IH] using rtree_ind'. intros HP HR.
  assert (Hi : (0 < count_at counts i)%nat) by (apply HP; left; reflexivity).
  assert (Hl : (i < length prices)%nat) by (unfold indices_in_range in HR; rewrite Forall_forall in HR; apply HR; left; reflexivity).
  destruct (list_eq_nil_dec ch) as [->|Hne].
  - exists (csize (cat_at (gcats cats counts) i)). cbn [int_deals_explained tree_num_of_deals]. rewrite size_floor_ok by assumption. cbn [bind].
    rewrite (get_lt _ prices i 0) by assumption. cbn [bind]. unfold leaf_groups. cbn [leaf_indices map].
    assert (E : csize (cat_at (gcats cats counts) i) = (csize (cat_at cats i) / count_at counts i)%nat).
    { unfold csize at 1. rewrite gcats_at, map_length. apply value_groups_length. assumption. }
    rewrite E, positive_min_one. split; reflexivity.
  - rewrite int_explained_node, deals_node by assumption. rewrite size_floor_ok by assumption. cbn [bind].
    rewrite (get_lt _ prices i 0) by assumption. cbn [bind].
    assert (X : exists rs, map_result (int_deals_explained cats counts prices) ch = Ok rs
      /\ map (fun r => fst (fst r)) rs = map (tree_num_of_deals (gcats cats counts)) ch
      /\ map (fun r => snd (fst r)) rs = map (fun c => first_positive_min (leaf_groups cats counts c)) ch
      /\ exists k, max_list (map snd rs) = Some k /\ max_list (concat (map (leaf_groups cats counts) ch)) = Some k).
    { assert (HC : forall c, In c ch -> positive_counts counts c /\ indices_in_range (length prices) c).
      { intros c Hc. split; [eapply positive_child; eassumption|]. unfold indices_in_range in *. rewrite Forall_forall in *.
        intros j Hj. apply HR. cbn [node_indices]. right. apply in_concat. exists (node_indices c). split; [apply in_map; assumption|assumption]. }
      clear HP HR. induction ch as [|c ch IHc]; [congruence|]. inversion IH; subst.
      destruct (HC c (or_introl eq_refl)) as [P1 R1]. destruct (H1 P1 R1) as [k1 [E1 M1]].
      destruct ch as [|c2 ch].
      - exists [(tree_num_of_deals (gcats cats counts) c, first_positive_min (leaf_groups cats counts c), k1)].
        cbn [map_result]. rewrite E1. cbn [bind map fst snd concat]. rewrite app_nil_r. repeat split; try reflexivity.
        exists k1. split; [reflexivity|assumption].
      - destruct IHc as [rs [E2 [A [B [k [M2 M3]]]]]]; [assumption|discriminate|intros; apply HC; right; assumption|].
        exists ((tree_num_of_deals (gcats cats counts) c, first_positive_min (leaf_groups cats counts c), k1) :: rs).
        cbn [map_result] in E2 |- *. rewrite E1. cbn [bind]. rewrite E2. cbn [bind map fst snd]. rewrite A, B.
        split; [reflexivity|]. split; [reflexivity|]. split; [reflexivity|]. exists (Nat.max k1 k). split.
        + cbn [max_list]. rewrite M2. reflexivity.
        + cbn [map concat] in M3 |- *. apply max_list_app; assumption. }
    destruct X as [rs [E [A [B [k [M1 M2]]]]]]. rewrite E. cbn [bind]. rewrite M1, A, B. exists k.
    assert (LG : leaf_groups cats counts (Node i ch) = concat (map (leaf_groups cats counts) ch)).
    { unfold leaf_groups at 1. rewrite leaf_indices_node by assumption. rewrite concat_map, map_map. reflexivity. }
    rewrite LG, positive_min_concat, map_map. split; [reflexivity|assumption].
Qed.

(** ** Counters (C47) *)

Lemma counted_groups_inner : forall cats counts i ch, ch <> [] ->
  int_counted_groups cats counts (Node i ch) = Raise TypeError \/ int_counted_groups cats counts (Node i ch) = Raise IndexError.
Proof.
  intros cats counts i ch Hne.
  assert (G : forall t, (exists l, int_counted_groups cats counts t = Ok l) \/ int_counted_groups cats counts t = Raise TypeError \/ int_counted_groups cats counts t = Raise IndexError).
  { induction t as [j chj IH] using rtree_ind'. destruct chj as [|c chj]; [left; eexists; reflexivity|]. right.
    cbn [int_counted_groups].
    assert (X : (exists l, map_result (int_counted_groups cats counts) (c :: chj) = Ok l)
      \/ map_result (int_counted_groups cats counts) (c :: chj) = Raise TypeError
      \/ map_result (int_counted_groups cats counts) (c :: chj) = Raise IndexError).
    { revert IH. generalize (c :: chj). clear. intros ch IH. induction IH as [|c ch Hc IH IHc]; [left; eexists; reflexivity|]. simpl.
      destruct Hc as [[l ->]|[->| ->]]; simpl; auto. destruct IHc as [[l' ->]|[->| ->]]; simpl; eauto. }
    destruct X as [[l ->]|[->| ->]]; simpl; auto. destruct l as [|[|]]; auto. }
  destruct (G (Node i ch)) as [[l H]|H]; [|assumption]. exfalso. destruct ch as [|c ch]; [congruence|].
  cbn [int_counted_groups] in H. apply bind_Ok in H. destruct H as [cs [_ H]]. destruct cs as [|[|]]; discriminate.
Qed.
