(** * Recipe trees: optimality of the combined values (C31 - C33) *)

From Coq Require Import String List Arith NArith Lia QArith Lqa Permutation Sorted Bool.
From Verif Require Import Base Model_Agents Model_Trade Model_RecipeTree Spec_Market Spec_RecipeTree Proof_Tree Proof_Tree2.
Import ListNotations.
Open Scope Q_scope.

Definition tail_deal (d : tree_deal) : tree_deal := (tl (fst d), tl (snd d)).
Definition head_value (d : tree_deal) : Q := hd 0 (snd d).

(** Distribute the deals of a node among its children. *)
Lemma add_to_child : forall ch Ds c d, Forall2 (fun c D => Forall (tree_deal_ok c) D) ch Ds -> In c ch ->
  tree_deal_ok c d -> exists Ds', Forall2 (fun c D => Forall (tree_deal_ok c) D) ch Ds'
    /\ Permutation (d :: concat Ds) (concat Ds').
Proof.
  intros ch Ds c d H. induction H as [|c0 D ch Ds H0 H IH]; intros Hc Hd; [destruct Hc|].
  destruct Hc as [->|Hc].
  - exists ((d :: D) :: Ds). split; [constructor; [constructor; assumption|assumption]|apply Permutation_refl].
  - destruct (IH Hc Hd) as [Ds' [F P]]. exists (D :: Ds'). split; [constructor; assumption|].
    cbn [concat]. eapply perm_trans; [apply Permutation_middle|]. apply Permutation_app_head. assumption.
Qed.

Lemma split_deals : forall i ch D, ch <> [] -> Forall (tree_deal_ok (Node i ch)) D ->
  exists Ds, Forall2 (fun c D => Forall (tree_deal_ok c) D) ch Ds /\ Permutation (map tail_deal D) (concat Ds).
Proof.
  intros i ch D Hne H. induction H as [|d D [Hp Hl] H [Ds [F P]]].
  - exists (map (fun _ => []) ch). clear Hne. split.
    + induction ch; simpl; constructor; auto.
    + simpl. induction ch; simpl; [constructor|assumption].
  - inversion Hp as [|? ? c q Hc Hq E1 E2]; subst; [congruence|].
    destruct (add_to_child ch Ds c (tail_deal d) F Hc) as [Ds' [F' P']].
    + unfold tail_deal. rewrite <- E2. split; [assumption|]. simpl. rewrite <- E2 in Hl.
      destruct (snd d); simpl in *; lia.
    + exists Ds'. split; [assumption|]. cbn [map]. eapply perm_trans; [|exact P']. apply perm_skip. assumption.
Qed.

Lemma node_used : forall i ch D j, Forall (tree_deal_ok (Node i ch)) D ->
  Permutation (used_in j D) ((if Nat.eqb i j then map head_value D else []) ++ used_in j (map tail_deal D)).
Proof.
  intros i ch D j H. induction H as [|[p vs] D [Hp Hl] H IH].
  - destruct (i =? j)%nat; constructor.
  - unfold used_in in *. cbn [map concat]. simpl in Hp, Hl. cbn [fst snd].
    assert (E : exists q, p = i :: q) by (inversion Hp; eauto). destruct E as [q ->].
    destruct vs as [|v vs]; [simpl in Hl; lia|]. cbn [combine filter fst].
    destruct (i =? j)%nat; cbn [map snd tail_deal head_value tl hd fst].
    + cbn [app]. apply perm_skip. eapply perm_trans; [apply Permutation_app_head; exact IH|].
      eapply perm_trans; [|apply Permutation_app_head, Permutation_refl].
      rewrite !app_assoc. apply Permutation_app_tail. apply Permutation_app_comm.
    + simpl in IH |- *. apply Permutation_app_head. assumption.
Qed.

Lemma node_gain : forall i ch D, Forall (tree_deal_ok (Node i ch)) D ->
  tree_gain D == Qsum (map head_value D) + tree_gain (map tail_deal D).
Proof.
  intros i ch D H. unfold tree_gain. induction H as [|[p vs] D [Hp Hl] H IH]; [simpl; lra|].
  cbn [map]. rewrite !Qsum_cons, IH. simpl in Hp, Hl.
  assert (E : exists q, p = i :: q) by (inversion Hp; eauto). destruct E as [q ->].
  destruct vs as [|v vs]; [simpl in Hl; lia|]. unfold tree_deal_gain, head_value, tail_deal. cbn [fst snd tl hd].
  rewrite Qsum_cons. lra.
Qed.

Lemma zip_add_firstn_sum : forall n xs ys, (n <= length xs)%nat -> (n <= length ys)%nat ->
  Qsum (firstn n (zip_add xs ys)) == Qsum (firstn n xs) + Qsum (firstn n ys).
Proof.
  induction n as [|n IH]; intros [|x xs] [|y ys] H1 H2; simpl in *; try lra; try lia.
  rewrite IH by lia. lra.
Qed.

Lemma sub_bag_length : forall a b, sub_bag a b -> (length a <= length b)%nat.
Proof. intros a b [r Hr]. apply Permutation_length in Hr. rewrite app_length in Hr. lia. Qed.

Lemma sub_bag_sum : forall a b, desc b -> sub_bag a b -> Qsum a <= Qsum (firstn (length a) b).
Proof. intros a b Hd [r Hr]. eapply top_sum_max; eassumption. Qed.

Lemma sub_bag_app2 : forall a b a' b', sub_bag a b -> sub_bag a' b' -> sub_bag (a ++ a') (b ++ b').
Proof.
  intros a b a' b' [r Hr] [r' Hr']. exists (r ++ r').
  rewrite <- app_assoc. eapply perm_trans; [|apply Permutation_app; [exact Hr|exact Hr']].
  rewrite <- app_assoc. apply Permutation_app_head. rewrite !app_assoc. apply Permutation_app_tail. apply Permutation_app_comm.
Qed.

(** No feasible collection of deals is larger or better than the combined values. *)
Lemma deals_bound : forall cats t D, tree_feasible cats t D ->
  (length D <= length (combined_values cats t))%nat
  /\ ((forall i, desc (cvalues (cat_at cats i))) -> tree_gain D <= Qsum (firstn (length D) (combined_values cats t))).
Proof.
  intros cats t. induction t as [i ch IH] using rtree_ind'. intros D [HF HU].
  destruct (list_eq_nil_dec ch) as [->|Hne].
  - cbn [combined_values].
    assert (E : used_in i D = map tree_deal_gain D -> True) by trivial. clear E.
    assert (X : exists vs, used_in i D = vs /\ length vs = length D /\ Qsum vs == tree_gain D).
    { exists (used_in i D). split; [reflexivity|]. clear HU IH. unfold tree_gain, used_in.
      induction HF as [|[p vs] D [Hp Hl] HF [IH1 IH2]]; [split; reflexivity|].
      simpl in Hp, Hl. inversion Hp as [k E1 E2|? ? c q Hc]; subst; [|destruct Hc].
      destruct vs as [|v [|]]; try (simpl in Hl; lia). cbn [map concat fst snd combine filter]. rewrite Nat.eqb_refl.
      cbn [map snd app length]. split; [congruence|]. rewrite !Qsum_cons, IH2. unfold tree_deal_gain. simpl. lra. }
    destruct X as [vs [E [L S]]]. specialize (HU i). rewrite E in HU. split.
    + rewrite <- L. apply sub_bag_length. assumption.
    + intros HD. rewrite <- S, <- L. apply sub_bag_sum; [apply HD|assumption].
  - rewrite combined_node by assumption.
    destruct (split_deals i ch D Hne HF) as [Ds [FD PD]].
    assert (HH : sub_bag (map head_value D) (cvalues (cat_at cats i))).
    { specialize (HU i). eapply sub_bag_app_l. eapply sub_bag_perm; [|exact HU].
      eapply perm_trans; [apply (node_used i ch D i HF)|]. rewrite Nat.eqb_refl. apply Permutation_refl. }
    assert (HT : forall j, sub_bag (used_in j (concat Ds)) (cvalues (cat_at cats j))).
    { intros j. specialize (HU j). eapply sub_bag_app_r. eapply sub_bag_perm; [|exact HU].
      eapply perm_trans; [apply (node_used i ch D j HF)|]. apply Permutation_app_head. apply used_perm. assumption. }
    assert (HC : (length (concat Ds) <= length (concat (map (combined_values cats) ch)))%nat
      /\ ((forall i, desc (cvalues (cat_at cats i))) ->
          exists X, sub_bag X (concat (map (combined_values cats) ch)) /\ length X = length (concat Ds)
                    /\ tree_gain (concat Ds) <= Qsum X)).
    { clear HH PD HU HF Hne. induction FD as [|c D0 ch Ds H0 FD IHF].
      - simpl. split; [lia|]. intros _. exists []. split; [apply sub_bag_nil|]. split; [reflexivity|]. unfold tree_gain. simpl. lra.
      - inversion IH as [|? ? IHc IHr]; subst. cbn [concat] in HT.
        destruct (IHc D0) as [L0 S0].
        { split; [assumption|]. intros j. specialize (HT j). rewrite used_app in HT. eapply sub_bag_app_l. exact HT. }
        destruct IHF as [L1 S1]; [assumption| |].
        { intros j. specialize (HT j). rewrite used_app in HT. eapply sub_bag_app_r. exact HT. }
        cbn [map concat]. rewrite !app_length. split; [lia|]. intros HD.
        destruct (S1 HD) as [X [HX [LX GX]]]. specialize (S0 HD).
        exists (firstn (length D0) (combined_values cats c) ++ X). split; [|split].
        + apply sub_bag_app2; [apply sub_bag_firstn|assumption].
        + rewrite app_length, firstn_length_le by assumption. congruence.
        + unfold tree_gain in *. rewrite map_app, !Qsum_app. lra. }
    assert (LD : length (concat Ds) = length D).
    { rewrite <- (Permutation_length PD). apply map_length. }
    destruct HC as [LC SC]. rewrite LD in *. split.
    + rewrite zip_add_length, sort_desc_length. apply sub_bag_length in HH. rewrite map_length in HH. lia.
    + intros HD. destruct (SC HD) as [X [HX [LX GX]]].
      rewrite (node_gain i ch D HF).
      assert (A1 := sub_bag_length _ _ HH). rewrite map_length in A1.
      rewrite zip_add_firstn_sum; [|lia|rewrite sort_desc_length; lia].
      assert (A2 := sub_bag_sum _ _ (HD i) HH). rewrite map_length in A2.
      assert (A3 : Qsum X <= Qsum (firstn (length D) (sort_desc (concat (map (combined_values cats) ch))))).
      { rewrite <- LX. apply sub_bag_sum; [apply sort_desc_desc|]. destruct HX as [r Hr]. exists r.
        eapply perm_trans; [exact Hr|]. apply Permutation_sym, sort_desc_perm. }
      assert (A4 : tree_gain (map tail_deal D) == tree_gain (concat Ds)).
      { unfold tree_gain. apply Qsum_perm. apply Permutation_map. assumption. }
      lra.
Qed.

(** ** Number of deals *)

Lemma num_of_deals_max : forall cats t,
  (forall D, tree_feasible cats t D -> (length D <= tree_num_of_deals cats t)%nat)
  /\ (distinct_categories t -> exists D, tree_feasible cats t D /\ length D = tree_num_of_deals cats t).
Proof.
  intros cats t. split.
  - intros D H. rewrite <- combined_length. apply deals_bound. assumption.
  - intros H. exists (map to_deal (master cats 0 t)). split; [apply master_feasible; assumption|].
    rewrite map_length. apply master_length.
Qed.

(** Sizes of the leaf categories. *)

Lemma leaf_indices_node : forall i ch, ch <> [] -> leaf_indices (Node i ch) = concat (map leaf_indices ch).
Proof. intros i [|c ch] H; [congruence|reflexivity]. Qed.

Fixpoint explained_list (cats : list category) (prices : list Q) (ch : list rtree) : result (list (nat * nat * nat)) :=
  match ch with
  | [] => Ok []
  | c :: ch' => r <- deals_explained cats prices c ;; rs <- explained_list cats prices ch' ;; Ok (r :: rs)
  end.

Lemma explained_node : forall cats prices i ch, ch <> [] -> deals_explained cats prices (Node i ch) =
  (_ <- get prices i ;; rs <- explained_list cats prices ch ;;
   match min_list (map (fun r => snd (fst r)) rs), max_list (map snd rs) with
   | Some kmin, Some kmax => Ok (Nat.min (nsum (map (fun r => fst (fst r)) rs)) (csize (cat_at cats i)), kmin, kmax)
   | _, _ => Raise ValueError
   end).
Proof.
  intros cats prices i ch Hne. destruct ch as [|c ch]; [congruence|]. cbn [deals_explained].
  destruct (get prices i); [|reflexivity|reflexivity]. cbn [bind]. f_equal. clear Hne.
  cbn [explained_list]. destruct (deals_explained cats prices c); [|reflexivity|reflexivity]. cbn [bind]. f_equal.
  induction ch as [|c0 ch IH]; [reflexivity|]. cbn [explained_list].
  destruct (deals_explained cats prices c0); [|reflexivity|reflexivity]. cbn [bind]. rewrite <- IH. reflexivity.
Qed.

Lemma min_list_app : forall l1 l2 a b, min_list l1 = Some a -> min_list l2 = Some b ->
  min_list (l1 ++ l2) = Some (Nat.min a b).
Proof.
  induction l1 as [|x l1 IH]; intros l2 a b H1 H2; [discriminate|]. simpl in H1 |- *.
  destruct l1 as [|y l1].
  - simpl in *. rewrite H2. injection H1; intros <-. reflexivity.
  - destruct (min_list (y :: l1)) as [m|] eqn:E; [|simpl in E; destruct (min_list l1); discriminate].
    rewrite (IH l2 m b eq_refl H2). injection H1; intros <-. f_equal. lia.
Qed.

Lemma max_list_app : forall l1 l2 a b, max_list l1 = Some a -> max_list l2 = Some b ->
  max_list (l1 ++ l2) = Some (Nat.max a b).
Proof.
  induction l1 as [|x l1 IH]; intros l2 a b H1 H2; [discriminate|]. simpl in H1 |- *.
  destruct l1 as [|y l1].
  - simpl in *. rewrite H2. injection H1; intros <-. reflexivity.
  - destruct (max_list (y :: l1)) as [m|] eqn:E; [|simpl in E; destruct (max_list l1); discriminate].
    rewrite (IH l2 m b eq_refl H2). injection H1; intros <-. f_equal. lia.
Qed.

Lemma deals_explained_ok : forall cats prices t, indices_in_range (length prices) t ->
  exists kmin kmax, deals_explained cats prices t = Ok (tree_num_of_deals cats t, kmin, kmax)
    /\ min_list (map (fun i => csize (cat_at cats i)) (leaf_indices t)) = Some kmin
    /\ max_list (map (fun i => csize (cat_at cats i)) (leaf_indices t)) = Some kmax.
Proof.
  intros cats prices t. unfold indices_in_range. induction t as [i ch IH] using rtree_ind'. intros HR.
  cbn [node_indices] in HR. inversion HR as [|? ? Hi HRc]; subst.
  destruct (list_eq_nil_dec ch) as [->|Hne].
  - cbn [deals_explained]. rewrite (get_lt _ _ _ 0) by assumption. cbn [bind]. eexists. eexists.
    split; [reflexivity|]. split; reflexivity.
  - rewrite explained_node, deals_node, leaf_indices_node by assumption. rewrite (get_lt _ _ _ 0) by assumption. cbn [bind].
    assert (X : exists rs a b, explained_list cats prices ch = Ok rs
       /\ map (fun r => fst (fst r)) rs = map (tree_num_of_deals cats) ch
       /\ min_list (map (fun r => snd (fst r)) rs) = Some a /\ max_list (map snd rs) = Some b
       /\ min_list (map (fun i => csize (cat_at cats i)) (concat (map leaf_indices ch))) = Some a
       /\ max_list (map (fun i => csize (cat_at cats i)) (concat (map leaf_indices ch))) = Some b).
    { clear HR Hi. induction ch as [|c ch IHc]; [congruence|]. inversion IH as [|? ? H0 Hr]; subst.
      cbn [map concat] in HRc. rewrite Forall_app in HRc. destruct HRc as [R0 R1].
      destruct (H0 R0) as [k1 [k2 [E [M1 M2]]]]. cbn [explained_list]. rewrite E. cbn [bind].
      destruct ch as [|c' ch].
      - exists [(tree_num_of_deals cats c, k1, k2)], k1, k2. cbn. rewrite app_nil_r. auto 10.
      - destruct (IHc Hr R1) as [rs [a [b [E' [N [A1 [B1 [A2 B2]]]]]]]]; [discriminate|]. rewrite E'. cbn [bind].
        exists ((tree_num_of_deals cats c, k1, k2) :: rs), (Nat.min k1 a), (Nat.max k2 b).
        split; [reflexivity|]. split; [cbn [map fst]; f_equal; exact N|].
        split; [cbn [map fst snd min_list]; rewrite A1; reflexivity|].
        split; [cbn [map fst snd max_list]; rewrite B1; reflexivity|].
        change (map leaf_indices (c :: c' :: ch)) with (leaf_indices c :: map leaf_indices (c' :: ch)).
        cbn [concat]. rewrite map_app. split; [apply min_list_app; assumption|apply max_list_app; assumption]. }
    destruct X as [rs [a [b [E [N [A1 [B1 [A2 B2]]]]]]]]. rewrite E. cbn [bind]. rewrite A1, B1, N.
    exists a, b. auto.
Qed.

(** ** The optimal gain *)

Lemma filter_nonneg_firstn : forall l, desc l -> exists n, filter (fun v => Qle_bool 0 v) l = firstn n l
  /\ (n <= length l)%nat /\ (forall x, In x (skipn n l) -> x < 0) /\ Forall (fun x => 0 <= x) (firstn n l).
Proof.
  induction l as [|a l IH]; intros HD.
  - exists 0%nat. split; [reflexivity|]. split; [lia|]. split; [simpl; tauto|constructor].
  - assert (HD' := desc_inv _ _ HD). destruct HD' as [H1 H2]. simpl.
    destruct (Qle_bool_reflect 0 a) as [H|H].
    + destruct (IH H1) as [n [E [L [HS F]]]]. exists (S n). split; [simpl; congruence|]. split; [lia|]. split; [exact HS|].
      simpl. constructor; assumption.
    + exists 0%nat. split; [|split; [lia|split; [|constructor]]].
      * simpl. clear IH HD H1. induction H2 as [|x l Hx H2 IH]; [reflexivity|]. simpl.
        destruct (Qle_bool_reflect 0 x) as [X|X]; [lra|assumption].
      * simpl. intros x [<-|Hx]; [lra|]. rewrite Forall_forall in H2. apply H2 in Hx. lra.
Qed.

Lemma prefix_sum_le : forall l n, desc l -> (n <= length l)%nat ->
  Qsum (firstn n l) <= Qsum (filter (fun v => Qle_bool 0 v) l).
Proof.
  induction l as [|a l IH]; intros n HD Hn; [rewrite firstn_nil; simpl; lra|].
  assert (HD' := desc_inv _ _ HD). destruct HD' as [H1 H2]. destruct n as [|n].
  - simpl. destruct (Qle_bool_reflect 0 a); simpl; specialize (IH 0%nat H1 (Nat.le_0_l _)); simpl in IH; lra.
  - simpl in Hn. assert (X := IH n H1 ltac:(lia)). cbn [firstn filter].
    destruct (Qle_bool_reflect 0 a); rewrite ?Qsum_cons; lra.
Qed.

(** A prefix longer than the number of non-negative elements has a strictly smaller sum. *)
Lemma prefix_sum_lt : forall l n, desc l -> (n <= length l)%nat ->
  (length (filter (fun v => Qle_bool 0 v) l) < n)%nat ->
  Qsum (firstn n l) < Qsum (filter (fun v => Qle_bool 0 v) l).
Proof.
  induction l as [|a l IH]; intros n HD Hn Hl; [simpl in *; lia|].
  assert (HD' := desc_inv _ _ HD). destruct HD' as [H1 H2]. destruct n as [|n]; [simpl in Hl; lia|].
  simpl in Hn. cbn [firstn filter] in *. destruct (Qle_bool_reflect 0 a) as [H|H].
  - cbn [length] in Hl. rewrite !Qsum_cons. specialize (IH n H1 ltac:(lia) ltac:(lia)). lra.
  - rewrite Qsum_cons. assert (X := prefix_sum_le l n H1 ltac:(lia)). lra.
Qed.

Lemma filter_rel : forall A B (R : A -> B -> Prop) (f : A -> bool) (g : B -> bool) l l',
  (forall a b, R a b -> f a = g b) -> Forall2 R l l' -> Forall2 R (filter f l) (filter g l').
Proof.
  intros A B R f g l l' H HF. induction HF as [|a b l l' Hab HF IH]; simpl; [constructor|].
  rewrite (H a b Hab). destruct (g b); auto.
Qed.

Definition opt_master (cats : list category) (t : rtree) : list mdeal :=
  filter (fun d => Qle_bool 0 (md_sum d)) (master cats 0 t).

Lemma Qle_bool_compat : forall a b, a == b -> Qle_bool 0 a = Qle_bool 0 b.
Proof. intros a b H. apply eq_iff_eq_true. rewrite !Qle_bool_iff. rewrite H. reflexivity. Qed.

Lemma opt_combined : forall cats t, Forall2 (fun q d => q == md_sum d)
  (filter (fun v => Qle_bool 0 v) (combined_values cats t)) (opt_master cats t).
Proof.
  intros. apply filter_rel; [|apply combined_master]. intros a b H. apply Qle_bool_compat. assumption.
Qed.

Lemma rel_sum : forall A (f : A -> Q) l l', Forall2 (fun q d => q == f d) l l' -> Qsum l == Qsum (map f l').
Proof. intros A f l l' H. induction H; simpl; [reflexivity|]. rewrite H, IHForall2. reflexivity. Qed.

Lemma gft_master : forall cats t, optimal_trade_GFT cats t == tree_gain (map to_deal (opt_master cats t)).
Proof.
  intros. unfold optimal_trade_GFT, tree_gain. rewrite map_map.
  rewrite (rel_sum _ md_sum _ _ (opt_combined cats t)). reflexivity.
Qed.

Lemma map_filter : forall A B (f : A -> B) (g : B -> bool) l, filter g (map f l) = map f (filter (fun x => g (f x)) l).
Proof. intros A B f g. induction l; simpl; [reflexivity|]. destruct (g (f a)); simpl; congruence. Qed.

Lemma opt_feasible : forall cats t, distinct_categories t -> tree_feasible cats t (map to_deal (opt_master cats t)).
Proof.
  intros cats t HD. unfold opt_master.
  assert (E : map to_deal (filter (fun d => Qle_bool 0 (md_sum d)) (master cats 0 t)) =
    filter (fun d => Qle_bool 0 (tree_deal_gain d)) (map to_deal (master cats 0 t))).
  { rewrite map_filter. reflexivity. }
  rewrite E. apply feasible_filter. apply master_feasible. assumption.
Qed.


Lemma sorted_cats_at : forall cats, sorted_cats cats -> forall i, desc (cvalues (cat_at cats i)).
Proof.
  intros cats H i. unfold cat_at. destruct (Nat.lt_ge_cases i (length cats)) as [Hi|Hi].
  - unfold sorted_cats in H. rewrite Forall_forall in H. apply H. apply nth_In. assumption.
  - rewrite nth_overflow by assumption. constructor.
Qed.

Lemma gft_upper : forall cats t D, sorted_cats cats -> tree_feasible cats t D -> tree_gain D <= optimal_trade_GFT cats t.
Proof.
  intros cats t D HS HF. assert (HS' := sorted_cats_at _ HS). destruct (deals_bound cats t D HF) as [L G].
  specialize (G HS'). assert (X := prefix_sum_le _ _ (combined_desc cats t HS') L). unfold optimal_trade_GFT. lra.
Qed.

Lemma gft_optimal : forall cats t, sorted_cats cats -> distinct_categories t ->
  exists D, tree_optimal cats t D /\ tree_gain D == optimal_trade_GFT cats t.
Proof.
  intros cats t HS HD. exists (map to_deal (opt_master cats t)). split; [split|].
  - apply opt_feasible. assumption.
  - intros D' HF. rewrite <- gft_master. apply gft_upper; assumption.
  - symmetry. apply gft_master.
Qed.

(** An optimal trade never has more deals than there are non-negative combined values. *)
Lemma optimal_count_max : forall cats t D, sorted_cats cats -> distinct_categories t -> tree_optimal cats t D ->
  (length D <= length (opt_master cats t))%nat.
Proof.
  intros cats t D HS HD [HF HO]. assert (HS' := sorted_cats_at _ HS). destruct (deals_bound cats t D HF) as [L G].
  specialize (G HS'). rewrite <- (Forall2_length _ _ _ _ _ (opt_combined cats t)).
  destruct (Nat.le_gt_cases (length D) (length (filter (fun v => Qle_bool 0 v) (combined_values cats t)))) as [X|X]; [assumption|].
  exfalso. assert (Y := prefix_sum_lt _ _ (combined_desc cats t HS') L X).
  assert (Z := HO _ (opt_feasible cats t HD)). rewrite <- gft_master in Z. unfold optimal_trade_GFT in Z. lra.
Qed.

(** ** optimal_trade *)

Lemma concat_sum : forall ll, Qsum (concat ll) == Qsum (map Qsum ll).
Proof. apply Qsum_concat. Qed.

Lemma tree_optimal_trade_spec : forall cats t opt n g, tree_optimal_trade cats t = Ok (opt, n, g) ->
  opt = map snd (map to_deal (opt_master cats t)) /\ n = length (opt_master cats t)
  /\ g == optimal_trade_GFT cats t.
Proof.
  intros cats t opt n g E. unfold tree_optimal_trade in E.
  assert (X : forall r, (match tchildren t, detailed_values cats t with [], _ :: _ => Raise TypeError
     | _, _ => Ok r end) = Ok (opt, n, g) -> r = (opt, n, g)).
  { intros r. destruct (tchildren t), (detailed_values cats t); congruence. }
  apply X in E. clear X. injection E; intros E3 E2 E1.
  assert (O : opt = map snd (map to_deal (opt_master cats t))).
  { rewrite <- E1. rewrite (detailed_master cats t 0), map_filter, map_map. reflexivity. }
  split; [assumption|]. split.
  - rewrite <- E2, E1, O. rewrite !map_length. reflexivity.
  - rewrite <- E3, E1, Qsum_concat, O, gft_master. unfold tree_gain. rewrite map_map, map_map, map_map. reflexivity.
Qed.

Lemma tree_optimal_trade_errors : forall cats t,
  (exists r, tree_optimal_trade cats t = Ok r /\ ~ (tchildren t = [] /\ (0 < csize (cat_at cats (tindex t)))%nat))
  \/ (tree_optimal_trade cats t = Raise TypeError /\ tchildren t = [] /\ (0 < csize (cat_at cats (tindex t)))%nat).
Proof.
  intros cats [i [|c ch]]; unfold tree_optimal_trade; cbn [tchildren tindex detailed_values].
  - unfold csize. destruct (cvalues (cat_at cats i)) as [|v vs]; simpl.
    + left. eexists. split; [reflexivity|]. intros [_ H]. lia.
    + right. split; [reflexivity|]. split; [reflexivity|lia].
  - left. eexists. split; [reflexivity|intros [H _]; discriminate].
Qed.

(** ** optimal_trade_with_counters *)

Definition opt_counted (cats : list category) (t : rtree) : list (Q * nat) :=
  filter (fun v => Qle_bool 0 (fst v)) (counted_values cats 0 t).

Lemma opt_counted_rel : forall cats t, sorted_cats cats ->
  Forall2 (fun q d => fst q == md_sum d /\ snd q = md_leaf d) (opt_counted cats t) (opt_master cats t).
Proof.
  intros cats t HS. apply filter_rel; [|apply counted_master, sorted_cats_at, HS].
  intros a b [H _]. apply Qle_bool_compat. assumption.
Qed.

Lemma counter_pos : forall opt v, In v opt -> (0 < counter_of opt (snd v))%nat.
Proof.
  intros opt v H. unfold counter_of. assert (X : In v (filter (fun w => (snd w =? snd v)%nat) opt)).
  { apply filter_In. split; [assumption|apply Nat.eqb_refl]. }
  destruct (filter _ opt); [destruct X|simpl; lia].
Qed.

Lemma counters_loop_spec : forall opt l kmin kmax count gft, (forall v, In v l -> In v opt) ->
  exists kmin' kmax' g', counters_loop opt l kmin kmax count gft = ((count + N.of_nat (length l))%N, g', kmin', kmax')
    /\ g' == gft + Qsum (map fst l)
    /\ (kmin' <= kmin)%N /\ (forall v, In v l -> (kmin' <= N.of_nat (counter_of opt (snd v)))%N)
    /\ (kmin' = kmin \/ exists v, In v l /\ kmin' = N.of_nat (counter_of opt (snd v)))
    /\ (kmax <= kmax')%N /\ (forall v, In v l -> (N.of_nat (counter_of opt (snd v)) <= kmax')%N)
    /\ (kmax' = kmax \/ exists v, In v l /\ kmax' = N.of_nat (counter_of opt (snd v))).
Proof.
  intros opt. induction l as [|v l IH]; intros kmin kmax count gft Hin.
  - exists kmin, kmax, gft. cbn [counters_loop length map]. simpl N.of_nat. rewrite N.add_0_r.
    split; [reflexivity|]. split; [simpl; lra|]. split; [lia|]. split; [intros ? []|]. split; [auto|]. split; [lia|]. split; [intros ? []|auto].
  - cbn [counters_loop]. assert (Hv := counter_pos opt v (Hin v (or_introl eq_refl))).
    destruct (N.ltb_spec 0 (N.of_nat (counter_of opt (snd v)))) as [_|X]; [|lia].
    set (c := N.of_nat (counter_of opt (snd v))) in *.
    destruct (IH (if (c <? kmin)%N then c else kmin) (if (kmax <? c)%N then c else kmax) (count + 1)%N (gft + fst v)
                 (fun w Hw => Hin w (or_intror Hw))) as (k1 & k2 & g & E & G & A1 & A2 & A3 & B1 & B2 & B3).
    exists k1, k2, g. rewrite E. split; [f_equal; f_equal; f_equal; cbn [length]; lia|].
    split; [rewrite G; cbn [map]; rewrite Qsum_cons; lra|].
    destruct (N.ltb_spec c kmin) as [C1|C1]; destruct (N.ltb_spec kmax c) as [C2|C2];
    (split; [lia|]; split; [intros w [<-|Hw]; [fold c; lia|auto]|];
     split; [destruct A3 as [->|[w [Hw ->]]]; [first [left; reflexivity|right; exists v; split; [left; reflexivity|reflexivity]]|right; exists w; split; [right; assumption|reflexivity]]|];
     split; [lia|]; split; [intros w [<-|Hw]; [fold c; lia|auto]|];
     destruct B3 as [->|[w [Hw ->]]]; [first [left; reflexivity|right; exists v; split; [left; reflexivity|reflexivity]]|right; exists w; split; [right; assumption|reflexivity]]).
Qed.

(** Leaf numbers are positions in the list of paths. *)
Lemma leaves_paths : forall t, leaves t = length (root_leaf_paths t).
Proof.
  intros t. induction t as [i ch IH] using rtree_ind'. destruct ch as [|c ch]; [reflexivity|].
  change (leaves (Node i (c :: ch))) with (nsum (map leaves (c :: ch))).
  change (root_leaf_paths (Node i (c :: ch))) with (map (cons i) (concat (map root_leaf_paths (c :: ch)))).
  rewrite map_length, concat_length, map_map. f_equal. apply map_ext_in. intros x Hx. rewrite Forall_forall in IH. auto.
Qed.

Lemma paths_node : forall i ch, ch <> [] -> root_leaf_paths (Node i ch) = map (cons i) (concat (map root_leaf_paths ch)).
Proof. intros i [|c ch] H; [congruence|reflexivity]. Qed.

Lemma master_path : forall cats t first d, In d (master cats first t) ->
  (first <= md_leaf d)%nat /\ nth_error (root_leaf_paths t) (md_leaf d - first) = Some (md_path d).
Proof.
  intros cats t. induction t as [i ch IH] using rtree_ind'. intros first d Hd.
  destruct (list_eq_nil_dec ch) as [->|Hne].
  - rewrite master_leaf in Hd. apply in_map_iff in Hd. destruct Hd as [v [<- _]]. simpl. rewrite Nat.sub_diag. auto.
  - rewrite master_node in Hd by assumption. apply zip_m_In in Hd. destruct Hd as [x [y [Hy ->]]].
    apply (Permutation_in _ (sort_by_desc_perm _ _ _)) in Hy. rewrite paths_node by assumption. simpl.
    assert (X : (first <= md_leaf y)%nat /\ nth_error (concat (map root_leaf_paths ch)) (md_leaf y - first) = Some (md_path y)).
    { clear Hne. revert first Hy. induction ch as [|c ch IHc]; intros first Hy; [destruct Hy|].
      inversion IH as [|? ? H0 Hr]; subst. simpl in Hy. rewrite in_app_iff in Hy. cbn [map concat]. destruct Hy as [Hy|Hy].
      - destruct (H0 _ _ Hy) as [A B]. split; [assumption|]. rewrite nth_error_app1; [assumption|].
        apply nth_error_Some. congruence.
      - destruct (IHc Hr _ Hy) as [A B]. split; [lia|]. rewrite leaves_paths in *.
        rewrite nth_error_app2 by lia. rewrite <- B. f_equal. lia. }
    destruct X as [A B]. split; [assumption|]. apply map_nth_error. assumption.
Qed.

Lemma paths_distinct : forall t, distinct_categories t -> NoDup (root_leaf_paths t).
Proof.
  intros t. induction t as [i ch IH] using rtree_ind'. intros HD. destruct (list_eq_nil_dec ch) as [->|Hne].
  - simpl. constructor; [tauto|constructor].
  - rewrite paths_node by assumption. apply FinFun.Injective_map_NoDup; [intros a b E; congruence|].
    assert (HC : forall c, In c ch -> distinct_categories c) by (intros; eapply distinct_child; eassumption).
    apply distinct_inv in HD. destruct HD as [_ HN]. clear Hne i.
    induction ch as [|c ch IHc]; [constructor|]. cbn [map concat] in *. inversion IH; subst.
    apply NoDup_app_inv in HN. destruct HN as [N1 [N2 D]].
    apply NoDup_app_intro.
    + apply H1. apply HC. left. reflexivity.
    + apply IHc; [assumption|assumption|]. intros; apply HC; right; assumption.
    + intros p Hp Hp'. apply root_leaf_paths_In in Hp. rewrite in_concat in Hp'. destruct Hp' as [ps [Hps Hp']].
      apply in_map_iff in Hps. destruct Hps as [c' [<- Hc']]. apply root_leaf_paths_In in Hp'.
      assert (Hx : exists x, In x p) by (inversion Hp; eexists; left; reflexivity). destruct Hx as [x Hx].
      apply (D x); [eapply is_path_indices; eassumption|]. rewrite in_concat. exists (node_indices c').
      split; [apply in_map; assumption|]. eapply is_path_indices; eassumption.
Qed.

(** Number of deals that use a given path. *)

Lemma same_leaf_same_path : forall cats t d d', distinct_categories t -> In d (master cats 0 t) -> In d' (master cats 0 t) ->
  (md_leaf d = md_leaf d' <-> md_path d = md_path d').
Proof.
  intros cats t d d' HD H H'. apply master_path in H. apply master_path in H'. destruct H as [_ H]. destruct H' as [_ H'].
  rewrite Nat.sub_0_r in *. split; intros E.
  - rewrite E in H. congruence.
  - assert (N := paths_distinct t HD). rewrite NoDup_nth_error in N. apply N; [|congruence].
    apply nth_error_Some. congruence.
Qed.

Lemma counter_deals_on : forall cats t (q : Q * nat) d, sorted_cats cats -> distinct_categories t ->
  In d (opt_master cats t) -> snd q = md_leaf d ->
  counter_of (opt_counted cats t) (snd q) = deals_on (fst (to_deal d)) (map to_deal (opt_master cats t)).
Proof.
  intros cats t q d HS HD Hd Hq. unfold counter_of, deals_on. rewrite Hq.
  assert (R := opt_counted_rel cats t HS).
  assert (HIn : forall d', In d' (opt_master cats t) -> In d' (master cats 0 t)).
  { intros d' H. apply filter_In in H. tauto. }
  assert (Hm : In d (master cats 0 t)) by auto. clear Hd Hq.
  induction R as [|a b l l' [_ Hs] R IH]; [reflexivity|]. cbn [map filter].
  assert (E := same_leaf_same_path cats t b d HD (HIn b (or_introl eq_refl)) Hm).
  specialize (IH (fun x Hx => HIn x (or_intror Hx))). rewrite Hs.
  destruct (Nat.eqb_spec (md_leaf b) (md_leaf d)) as [X|X]; destruct (list_eq_dec Nat.eq_dec (fst (to_deal b)) (fst (to_deal d))) as [Y|Y];
    simpl in Y; cbn [length]; [congruence|tauto|tauto|assumption].
Qed.

Lemma Forall2_In_r : forall A B (R : A -> B -> Prop) l l' b, Forall2 R l l' -> In b l' -> exists a, In a l /\ R a b.
Proof.
  intros A B R l l' b H. induction H; simpl; [tauto|]. intros [<-|Hb]; [eauto|].
  destruct (IHForall2 Hb) as [a [Ha Hr]]. eauto.
Qed.

Lemma Forall2_In_l : forall A B (R : A -> B -> Prop) l l' a, Forall2 R l l' -> In a l -> exists b, In b l' /\ R a b.
Proof.
  intros A B R l l' a H. induction H; simpl; [tauto|]. intros [<-|Ha]; [eauto|].
  destruct (IHForall2 Ha) as [b [Hb Hr]]. eauto.
Qed.

Lemma with_counters_spec : forall cats t opt count gft kmin kmax, sorted_cats cats -> distinct_categories t ->
  optimal_trade_with_counters cats t = (opt, (count, gft, kmin, kmax)) ->
  let D := map to_deal (opt_master cats t) in
  Forall2 (fun v d => fst v == tree_deal_gain d) opt D
  /\ count = N.of_nat (length D) /\ gft == optimal_trade_GFT cats t
  /\ (D = [] -> kmin = 99999%N /\ kmax = 0%N)
  /\ (D <> [] -> (exists d, In d D /\ kmin = N.of_nat (deals_on (fst d) D))
                /\ (exists d, In d D /\ kmax = N.of_nat (deals_on (fst d) D))
                /\ forall d, In d D -> (kmin <= N.of_nat (deals_on (fst d) D) <= kmax)%N).
Proof.
  intros cats t opt count gft kmin kmax HS HD E D. unfold optimal_trade_with_counters in E.
  fold (opt_counted cats t) in E. injection E; intros E2 E1. clear E.
  assert (R := opt_counted_rel cats t HS).
  assert (LR := Forall2_length _ _ _ _ _ R).
  assert (CD : forall q, In q (opt_counted cats t) -> exists d, In d (opt_master cats t) /\
     counter_of (opt_counted cats t) (snd q) = deals_on (fst (to_deal d)) D).
  { intros q Hq. destruct (Forall2_In_l _ _ _ _ _ _ R Hq) as [d [Hd [_ Hl]]]. exists d. split; [assumption|].
    apply counter_deals_on; assumption. }
  assert (DC : forall d, In d D -> exists q, In q (opt_counted cats t) /\
     counter_of (opt_counted cats t) (snd q) = deals_on (fst d) D).
  { intros d Hd. apply in_map_iff in Hd. destruct Hd as [m [<- Hm]].
    destruct (Forall2_In_r _ _ _ _ _ _ R Hm) as [q [Hq [_ Hl]]]. exists q. split; [assumption|].
    apply counter_deals_on; assumption. }
  destruct (counters_loop_spec (opt_counted cats t) (opt_counted cats t)
     (match opt_counted cats t with [] => 99999%N | v :: _ => N.of_nat (counter_of (opt_counted cats t) (snd v)) end)
     0%N 0%N 0 (fun v H => H)) as (k1 & k2 & g & E & G & A1 & A2 & A3 & B1 & B2 & B3).
  rewrite E in E2. injection E2; intros <- <- <- <-. clear E E2.
  split; [|split; [|split; [|split]]].
  - rewrite <- E1. unfold D. clear -R. induction R as [|a b l l' [H _] R IH]; simpl; constructor; assumption.
  - unfold D. rewrite map_length, LR. lia.
  - rewrite G, gft_master. unfold tree_gain. fold D. rewrite Qplus_0_l. clear -R. unfold D.
    induction R as [|a b l l' [H _] R IH]; [reflexivity|]. cbn [map]. rewrite !Qsum_cons, IH, H. reflexivity.
  - intros HN. unfold D in HN. apply map_eq_nil in HN. rewrite HN in LR.
    destruct (opt_counted cats t) as [|q l]; [|discriminate LR]. split.
    + destruct A3 as [->|[v [[] _]]]. reflexivity.
    + destruct B3 as [->|[v [[] _]]]. reflexivity.
  - intros HN. destruct (opt_counted cats t) as [|q l] eqn:EQ.
    { exfalso. apply HN. unfold D. destruct (opt_master cats t); [reflexivity|discriminate LR]. }
    split; [|split].
    + assert (X : exists v, In v (q :: l) /\ k1 = N.of_nat (counter_of (q :: l) (snd v))).
      { destruct A3 as [->|X]; [exists q; split; [left; reflexivity|reflexivity]|exact X]. }
      destruct X as [v [Hv ->]]. destruct (CD v Hv) as [d [Hd ->]]. exists (to_deal d). split; [apply in_map; assumption|reflexivity].
    + assert (X : exists v, In v (q :: l) /\ k2 = N.of_nat (counter_of (q :: l) (snd v))).
      { destruct B3 as [->|X]; [|exact X]. exfalso. specialize (B2 q (or_introl eq_refl)).
        assert (Y := counter_pos (q :: l) q (or_introl eq_refl)). lia. }
      destruct X as [v [Hv ->]]. destruct (CD v Hv) as [d [Hd ->]]. exists (to_deal d). split; [apply in_map; assumption|reflexivity].
    + intros d Hd. destruct (DC d Hd) as [v [Hv <-]]. split; auto.
Qed.

Lemma min_list_spec : forall l k, min_list l = Some k -> In k l /\ forall x, In x l -> (k <= x)%nat.
Proof.
  induction l as [|a l IH]; simpl; [discriminate|]. intros k H. destruct (min_list l) as [m|] eqn:E.
  - injection H; intros <-. destruct (IH m eq_refl) as [A B]. split.
    + destruct (Nat.min_spec a m) as [[_ ->]|[_ ->]]; [left; reflexivity|right; assumption].
    + intros x [<-|Hx]; [lia|]. specialize (B x Hx). lia.
  - injection H; intros <-. split; [left; reflexivity|]. destruct l as [|b l]; [|simpl in E; destruct (min_list l); discriminate].
    intros x [<-|[]]. lia.
Qed.

Lemma max_list_spec : forall l k, max_list l = Some k -> In k l /\ forall x, In x l -> (x <= k)%nat.
Proof.
  induction l as [|a l IH]; simpl; [discriminate|]. intros k H. destruct (max_list l) as [m|] eqn:E.
  - injection H; intros <-. destruct (IH m eq_refl) as [A B]. split.
    + destruct (Nat.max_spec a m) as [[_ ->]|[_ ->]]; [right; assumption|left; reflexivity].
    + intros x [<-|Hx]; [lia|]. specialize (B x Hx). lia.
  - injection H; intros <-. split; [left; reflexivity|]. destruct l as [|b l]; [|simpl in E; destruct (max_list l); discriminate].
    intros x [<-|[]]. lia.
Qed.

Lemma deals_explained_range : forall cats prices t, indices_in_range (length prices) t ->
  exists kmin kmax, deals_explained cats prices t = Ok (tree_num_of_deals cats t, kmin, kmax)
    /\ (exists i, In i (leaf_indices t) /\ csize (cat_at cats i) = kmin)
    /\ (exists i, In i (leaf_indices t) /\ csize (cat_at cats i) = kmax)
    /\ (forall i, In i (leaf_indices t) -> (kmin <= csize (cat_at cats i) <= kmax)%nat).
Proof.
  intros cats prices t H. destruct (deals_explained_ok cats prices t H) as (k1 & k2 & E & A & B).
  exists k1, k2. split; [exact E|]. apply min_list_spec in A. apply max_list_spec in B.
  destruct A as [A1 A2]. destruct B as [B1 B2]. apply in_map_iff in A1. apply in_map_iff in B1.
  destruct A1 as [i [Hi1 Hi2]]. destruct B1 as [j [Hj1 Hj2]].
  split; [eauto|]. split; [eauto|]. intros x Hx. apply (in_map (fun i => csize (cat_at cats i))) in Hx. split; auto.
Qed.
