(** * Proofs about recipetree.old.py (C94) *)

From Coq Require Import String Ascii List Arith Lia QArith Lqa.
From Verif Require Import Base Model_Agents Model_Trade Model_RecipeTree Model_Report Model_OldTree
  Spec_Market Spec_RecipeTree Spec_Report Spec_OldTree Proof_Tree Proof_Tree2 Proof_Tree3 Proof_TA1 Proof_Report Proof_Report2.
Import ListNotations.
Open Scope Q_scope.

(** ** recipes *)
Lemma old_fill : forall path recipe, old_fill_recipe path recipe = fill_recipe path [] recipe.
Proof. induction path as [|i path IH]; intros recipe; cbn; [reflexivity|]. destruct (get recipe i); cbn; auto. Qed.

Lemma old_recipes_new : forall n t, old_recipes n t = recipes n t.
Proof.
  intros n t. unfold old_recipes, recipes. generalize (paths_to_leaf t) as l. induction l as [|p l IH]; [reflexivity|].
  cbn [map_result]. unfold old_recipe_from_path, recipe_from_path in *. rewrite old_fill, IH. reflexivity.
Qed.

(** ** largest_categories *)
Lemma old_fold : forall rs a b l, fold_left old_combine rs (a, b, l) =
  (fold_left (fun m r => Nat.max m (fst (fst r))) rs a, (b + nsum (map (fun r => snd (fst r)) rs))%nat, (l ++ concat (map snd rs))%list).
Proof.
  induction rs as [|r rs IH]; intros a b l; cbn [fold_left map concat].
  - cbn [nsum fold_right]. rewrite app_nil_r. f_equal. f_equal. unfold nsum. cbn. lia.
  - unfold old_combine at 2. cbn [fst snd]. rewrite IH. rewrite app_assoc. f_equal. f_equal. unfold nsum. cbn. lia.
Qed.

Lemma old_node_eq : forall cats i ch, ch <> [] -> old_largest_categories cats (Node i ch) =
  if (csize (cat_at cats i) <=? nsum (map (fun c => snd (fst (old_largest_categories cats c))) ch))%nat
  then (fold_left (fun m r => Nat.max m (fst (fst r))) (map (old_largest_categories cats) ch) 0%nat, csize (cat_at cats i),
        concat (map (fun c => snd (old_largest_categories cats c)) ch))
  else (csize (cat_at cats i), nsum (map (fun c => snd (fst (old_largest_categories cats c))) ch), [i]).
Proof.
  intros cats i [|c ch] H; [congruence|]. cbn [old_largest_categories]. rewrite old_fold. rewrite !map_map. cbn [app].
  reflexivity.
Qed.

Lemma old_combined : forall cats t, snd (fst (old_largest_categories cats t)) = tree_num_of_deals cats t.
Proof.
  intros cats t. induction t as [i ch IH] using rtree_ind'. destruct (list_eq_nil_dec ch) as [->|Hne]; [reflexivity|].
  rewrite old_node_eq, deals_node by assumption.
  assert (E : map (fun c => snd (fst (old_largest_categories cats c))) ch = map (tree_num_of_deals cats) ch).
  { apply map_ext_in. rewrite Forall_forall in IH. exact IH. }
  rewrite E. destruct (Nat.leb_spec (csize (cat_at cats i)) (nsum (map (tree_num_of_deals cats) ch))); cbn [fst snd]; lia.
Qed.

Lemma old_node_deals : forall cats i ch, ch <> [] -> old_largest_categories cats (Node i ch) =
  if (csize (cat_at cats i) <=? nsum (map (tree_num_of_deals cats) ch))%nat
  then (fold_left (fun m r => Nat.max m (fst (fst r))) (map (old_largest_categories cats) ch) 0%nat, csize (cat_at cats i),
        concat (map (fun c => snd (old_largest_categories cats c)) ch))
  else (csize (cat_at cats i), nsum (map (tree_num_of_deals cats) ch), [i]).
Proof.
  intros cats i ch H. rewrite old_node_eq by assumption.
  rewrite (map_ext _ _ (old_combined cats)). reflexivity.
Qed.

Lemma old_cut : forall cats t, cut t (snd (old_largest_categories cats t)).
Proof.
  intros cats t. induction t as [i ch IH] using rtree_ind'. destruct (list_eq_nil_dec ch) as [->|Hne]; [constructor|].
  rewrite old_node_deals by assumption. destruct (_ <=? _)%nat; cbn [snd]; [|constructor]. apply cut_children; [exact Hne|].
  clear Hne. induction ch as [|c ch IHc]; cbn [map]; [constructor|]. inversion IH; subst. constructor; [assumption|auto].
Qed.

Lemma old_size : forall cats t,
  (exists i, In i (snd (old_largest_categories cats t)) /\ csize (cat_at cats i) = fst (fst (old_largest_categories cats t)))
  /\ forall i, In i (snd (old_largest_categories cats t)) -> (csize (cat_at cats i) <= fst (fst (old_largest_categories cats t)))%nat.
Proof.
  intros cats t. induction t as [i ch IH] using rtree_ind'. destruct (list_eq_nil_dec ch) as [->|Hne].
  { cbn. split; [exists i; auto|]. intros j [<-|[]]. lia. }
  rewrite old_node_deals by assumption. destruct (_ <=? _)%nat; cbn [fst snd].
  2: { split; [exists i; cbn; auto|]. intros j [<-|[]]. lia. }
  rewrite Forall_forall in IH. split.
  - destruct (fold_max_in _ (fun r : nat * nat * list nat => fst (fst r)) (map (old_largest_categories cats) ch) 0%nat) as [E|[r [Hr E]]].
    + destruct ch as [|c ch]; [congruence|]. destruct (IH c (or_introl eq_refl)) as [[j [Hj Ej]] _].
      exists j. split; [cbn [map concat]; rewrite in_app_iff; auto|]. rewrite Ej.
      destruct (fold_max_ge _ (fun r : nat * nat * list nat => fst (fst r)) (map (old_largest_categories cats) (c :: ch)) 0%nat) as [_ G].
      specialize (G (old_largest_categories cats c) (or_introl eq_refl)). cbn beta in G. lia.
    + rewrite E. apply in_map_iff in Hr. destruct Hr as [c [<- Hc]].
      destruct (IH c Hc) as [[j [Hj Ej]] _]. exists j. split; [|assumption].
      rewrite in_concat. exists (snd (old_largest_categories cats c)). split; [|assumption].
      apply in_map_iff. exists c. auto.
  - intros j Hj. rewrite in_concat in Hj. destruct Hj as [l [Hl Hj]]. apply in_map_iff in Hl.
    destruct Hl as [c [<- Hc]]. destruct (IH c Hc) as [_ G]. specialize (G j Hj).
    destruct (fold_max_ge _ (fun r : nat * nat * list nat => fst (fst r)) (map (old_largest_categories cats) ch) 0%nat) as [_ G'].
    specialize (G' (old_largest_categories cats c) (in_map _ _ _ Hc)). cbn beta in G'. lia.
Qed.

Lemma nsum_le : forall A (f g : A -> nat) l, (forall x, In x l -> (f x <= g x)%nat) -> (nsum (map f l) <= nsum (map g l))%nat.
Proof.
  intros A f g l H. unfold nsum. induction l as [|a l IH]; cbn; [lia|]. assert (X := H a (or_introl eq_refl)).
  assert (Y := IH (fun x Hx => H x (or_intror Hx))). lia.
Qed.

Lemma nsum_app : forall a b, nsum (a ++ b) = (nsum a + nsum b)%nat.
Proof. unfold nsum. induction a as [|x a IH]; intros b; cbn; [reflexivity|]. rewrite IH. lia. Qed.

Lemma traders_concat : forall cats ll, traders cats (concat ll) = nsum (map (traders cats) ll).
Proof.
  intros cats. unfold traders. induction ll as [|l ll IH]; [reflexivity|]. cbn [concat map]. rewrite map_app, nsum_app, IH. reflexivity.
Qed.

Lemma traders_one : forall cats i, traders cats [i] = csize (cat_at cats i).
Proof. intros cats i. unfold traders, csize, nsum. cbn. lia. Qed.

Lemma deals_le_self : forall cats t, (tree_num_of_deals cats t <= csize (cat_at cats (tindex t)))%nat.
Proof. intros cats [i [|c ch]]; cbn [tree_num_of_deals tindex]; lia. Qed.

(** The selected categories have at least as many traders as the root. *)
Lemma old_total : forall cats t, (csize (cat_at cats (tindex t)) <= traders cats (snd (old_largest_categories cats t)))%nat.
Proof.
  intros cats t. induction t as [i ch IH] using rtree_ind'. cbn [tindex]. destruct (list_eq_nil_dec ch) as [->|Hne].
  { cbn [old_largest_categories snd]. rewrite traders_one. lia. }
  rewrite old_node_deals by assumption. destruct (Nat.leb_spec (csize (cat_at cats i)) (nsum (map (tree_num_of_deals cats) ch))) as [H|H]; cbn [snd].
  - rewrite traders_concat, map_map. etransitivity; [exact H|]. apply nsum_le. intros c Hc. rewrite Forall_forall in IH.
    assert (X := IH c Hc). assert (Y := deals_le_self cats c). lia.
  - rewrite traders_one. lia.
Qed.

(** Which nodes are selected. *)
Lemma old_incl : forall cats t, incl (snd (old_largest_categories cats t)) (node_indices t).
Proof. intros. apply cut_incl, old_cut. Qed.

Lemma nd_disjoint : forall (ch : list rtree) c c' x, NoDup (concat (map node_indices ch)) -> In c ch -> In c' ch ->
  In x (node_indices c) -> In x (node_indices c') -> c = c'.
Proof.
  induction ch as [|d ch IH]; intros c c' x HN Hc Hc' Hx Hx'; [destruct Hc|]. cbn in HN. apply NoDup_app_inv in HN. destruct HN as (N1 & N2 & D).
  assert (W : forall c, In c ch -> In x (node_indices c) -> In x (concat (map node_indices ch))).
  { intros c0 H0 X0. apply in_concat. exists (node_indices c0). split; [apply in_map; exact H0|exact X0]. }
  destruct Hc as [->|Hc], Hc' as [->|Hc']; [reflexivity|exfalso; eapply D; eauto|exfalso; eapply D; eauto|eauto].
Qed.

Lemma subtree_idx : forall t x, subtree t x -> forall i, In i (node_indices x) -> In i (node_indices t).
Proof.
  intros t x H. induction H as [|i ch c H IH Hc]; [auto|]. intros j Hj. apply IH. cbn. right. apply in_concat.
  exists (node_indices c). split; [apply in_map; exact Hc|exact Hj].
Qed.

(** A tree below the root is in the tree of a child. *)
Lemma subtree_split : forall i ch x, subtree (Node i ch) x -> x = Node i ch \/ exists c, In c ch /\ subtree c x.
Proof.
  intros i ch x H. remember (Node i ch) as t. induction H as [|j ch' c H IH Hc]; [left; reflexivity|]. right. destruct IH as [E|(d & Hd & S)].
  - rewrite Heqt in E. injection E; intros -> ->. exists c. split; [exact Hc|constructor].
  - exists d. split; [exact Hd|]. eapply st_down; eassumption.
Qed.

(** A selected category occurs in the selection of the subtree where it is; and everything selected in a subtree with a
    selected node below its root comes from the children. *)
Lemma old_sub : forall cats t x, distinct_categories t -> subtree t x -> forall j, In j (node_indices x) ->
  In j (snd (old_largest_categories cats t)) -> In j (snd (old_largest_categories cats x)).
Proof.
  intros cats t. induction t as [i ch IH] using rtree_ind'. intros x HD HS j Hj HI. destruct (subtree_split _ _ _ HS) as [->|(c & Hc & Sc)]; [exact HI|].
  assert (Hne : ch <> []) by (intros ->; destruct Hc). rewrite Forall_forall in IH.
  apply (IH c Hc x); [|exact Sc|exact Hj|].
  { eapply distinct_child; eassumption. }
  rewrite old_node_deals in HI by assumption. unfold distinct_categories in HD. cbn in HD. inversion HD as [|? ? Hni HN]; subst.
  assert (Hjc : In j (node_indices c)) by (eapply subtree_idx; eassumption).
  destruct (_ <=? _)%nat; cbn [snd] in HI.
  - apply in_concat in HI. destruct HI as [l [Hl Hjl]]. apply in_map_iff in Hl. destruct Hl as [c' [<- Hc']].
    assert (c' = c). { eapply nd_disjoint; [exact HN| | |eapply old_incl; eassumption|exact Hjc]; assumption. }
    subst. exact Hjl.
  - destruct HI as [<-|[]]. exfalso. apply Hni. apply in_concat. exists (node_indices c). split; [apply in_map; exact Hc|exact Hjc].
Qed.

Lemma distinct_sub : forall t x, subtree t x -> distinct_categories t -> distinct_categories x.
Proof. intros t x H. induction H as [|i ch c H IH Hc]; [auto|]. intros HD. eapply distinct_child; [apply IH; exact HD|exact Hc]. Qed.

Lemma old_choice : forall cats t i ch, distinct_categories t -> subtree t (Node i ch) -> ch <> [] ->
  (In i (snd (old_largest_categories cats t)) -> (nsum (map (tree_num_of_deals cats) ch) < csize (cat_at cats i))%nat)
  /\ (forall c j, In c ch -> In j (node_indices c) -> In j (snd (old_largest_categories cats t)) ->
        (csize (cat_at cats i) <= nsum (map (tree_num_of_deals cats) ch))%nat).
Proof.
  intros cats t i ch HD HS Hne. assert (HDx := distinct_sub _ _ HS HD).
  unfold distinct_categories in HDx. cbn in HDx. inversion HDx as [|? ? Hni HN]; subst.
  split.
  - intros H. apply (old_sub cats t (Node i ch) HD HS i (or_introl eq_refl)) in H. rewrite old_node_deals in H by assumption.
    destruct (Nat.leb_spec (csize (cat_at cats i)) (nsum (map (tree_num_of_deals cats) ch))) as [L|L]; [|exact L]. exfalso. cbn [snd] in H.
    apply in_concat in H. destruct H as [l [Hl Hil]]. apply in_map_iff in Hl. destruct Hl as [c [<- Hc]]. apply old_incl in Hil.
    apply Hni. apply in_concat. exists (node_indices c). split; [apply in_map; exact Hc|exact Hil].
  - intros c j Hc Hj H. assert (Hjx : In j (node_indices (Node i ch))).
    { cbn. right. apply in_concat. exists (node_indices c). split; [apply in_map; exact Hc|exact Hj]. }
    apply (old_sub cats t (Node i ch) HD HS j Hjx) in H. rewrite old_node_deals in H by assumption.
    destruct (Nat.leb_spec (csize (cat_at cats i)) (nsum (map (tree_num_of_deals cats) ch))) as [L|L]; [exact L|]. exfalso. cbn [snd] in H.
    destruct H as [<-|[]]. apply Hni. apply in_concat. exists (node_indices c). split; [apply in_map; exact Hc|exact Hj].
Qed.

(** ** The optimal trade *)
Lemma positive_iff : forall v, positive v = true <-> 0 < v.
Proof.
  intros v. unfold positive. destruct (Qle_bool_reflect v 0) as [H|H]; cbn; split; intros X; try discriminate; try reflexivity; lra.
Qed.

Lemma old_gft_same : forall cats t, old_optimal_trade_GFT cats t == optimal_trade_GFT cats t.
Proof.
  intros cats t. unfold old_optimal_trade_GFT, optimal_trade_GFT. generalize (combined_values cats t) as l.
  induction l as [|v l IH]; [reflexivity|]. cbn [filter]. unfold positive at 1.
  destruct (Qle_bool_reflect v 0) as [H|H], (Qle_bool_reflect 0 v) as [H'|H']; cbn [negb]; rewrite ?Qsum_cons; lra.
Qed.

Definition old_opt_master (cats : list category) (t : rtree) : list mdeal := filter (fun d => positive (md_sum d)) (master cats 0 t).

Lemma positive_compat : forall a b, a == b -> positive a = positive b.
Proof. intros a b H. apply eq_iff_eq_true. rewrite !positive_iff. rewrite H. reflexivity. Qed.

Lemma old_opt_combined : forall cats t, Forall2 (fun q d => q == md_sum d) (filter positive (combined_values cats t)) (old_opt_master cats t).
Proof. intros. apply filter_rel; [|apply combined_master]. intros a b H. apply positive_compat. assumption. Qed.

Lemma old_gft_master : forall cats t, old_optimal_trade_GFT cats t == tree_gain (map to_deal (old_opt_master cats t)).
Proof. intros. unfold old_optimal_trade_GFT, tree_gain. rewrite map_map. rewrite (rel_sum _ md_sum _ _ (old_opt_combined cats t)). reflexivity. Qed.

Lemma old_opt_feasible : forall cats t, distinct_categories t -> tree_feasible cats t (map to_deal (old_opt_master cats t)).
Proof.
  intros cats t HD. unfold old_opt_master.
  assert (E : map to_deal (filter (fun d => positive (md_sum d)) (master cats 0 t)) =
    filter (fun d => positive (tree_deal_gain d)) (map to_deal (master cats 0 t))) by (rewrite map_filter; reflexivity).
  rewrite E. apply feasible_filter. apply master_feasible. assumption.
Qed.

Lemma old_opt_optimal : forall cats t, sorted_cats cats -> distinct_categories t -> tree_optimal cats t (map to_deal (old_opt_master cats t)).
Proof.
  intros cats t HS HD. split; [apply old_opt_feasible; exact HD|]. intros D' HF. rewrite <- old_gft_master, old_gft_same. apply gft_upper; assumption.
Qed.

(** A prefix with fewer elements than there are positive ones has a strictly smaller sum. *)
Lemma prefix_sum_short : forall l n, desc l -> (n < length (filter positive l))%nat -> Qsum (firstn n l) < Qsum (filter positive l).
Proof.
  induction l as [|a l IH]; intros n HD Hn; [cbn in Hn; lia|]. assert (HD' := desc_inv _ _ HD). destruct HD' as [H1 H2].
  cbn [filter] in *. destruct (positive a) eqn:P.
  - apply positive_iff in P. destruct n as [|n]; cbn [firstn].
    + rewrite Qsum_cons. assert (X : 0 <= Qsum (filter positive l)).
      { clear. induction l as [|b l IH]; cbn; [lra|]. destruct (positive b) eqn:P; [|exact IH]. apply positive_iff in P. rewrite Qsum_cons. lra. }
      cbn. lra.
    + cbn [length] in Hn. rewrite !Qsum_cons. assert (X := IH n H1 ltac:(lia)). lra.
  - exfalso. assert (N : a <= 0). { destruct (Qlt_le_dec 0 a) as [X|X]; [apply positive_iff in X; congruence|exact X]. }
    assert (E : filter positive l = []).
    { clear -H2 N. induction H2 as [|x l Hx H2 IH]; [reflexivity|]. cbn. destruct (positive x) eqn:P; [|exact IH]. apply positive_iff in P. lra. }
    rewrite E in Hn. cbn in Hn. lia.
Qed.

Lemma old_fewest : forall cats t D, sorted_cats cats -> distinct_categories t -> tree_optimal cats t D ->
  (length (old_opt_master cats t) <= length D)%nat.
Proof.
  intros cats t D HS HD [HF HO]. assert (HS' := sorted_cats_at _ HS). destruct (deals_bound cats t D HF) as [L G].
  specialize (G HS'). rewrite <- (Forall2_length _ _ _ _ _ (old_opt_combined cats t)).
  destruct (Nat.le_gt_cases (length (filter positive (combined_values cats t))) (length D)) as [X|X]; [assumption|].
  exfalso. assert (Y := prefix_sum_short _ _ (combined_desc cats t HS') X).
  assert (Z := HO _ (old_opt_feasible cats t HD)). rewrite <- old_gft_master in Z. unfold old_optimal_trade_GFT in Z. lra.
Qed.

Lemma old_optimal_trade_spec : forall cats t opt n g, old_optimal_trade cats t = Ok (opt, n, g) ->
  opt = map snd (map to_deal (old_opt_master cats t)) /\ n = length (old_opt_master cats t) /\ g == old_optimal_trade_GFT cats t.
Proof.
  intros cats t opt n g E. unfold old_optimal_trade in E.
  assert (X : forall r, (match tchildren t, detailed_values cats t with [], _ :: _ => Raise TypeError
     | _, _ => Ok r end) = Ok (opt, n, g) -> r = (opt, n, g)).
  { intros r. destruct (tchildren t), (detailed_values cats t); congruence. }
  apply X in E. clear X. injection E; intros E3 E2 E1.
  assert (O : opt = map snd (map to_deal (old_opt_master cats t))).
  { rewrite <- E1. rewrite (detailed_master cats t 0), map_filter, map_map. reflexivity. }
  split; [assumption|]. split.
  - rewrite <- E2, E1, O. rewrite !map_length. reflexivity.
  - rewrite <- E3, E1, Qsum_concat, O, old_gft_master. unfold tree_gain. rewrite map_map, map_map, map_map. reflexivity.
Qed.

Lemma old_optimal : forall cats t opt n g, sorted_cats cats -> distinct_categories t -> old_optimal_trade cats t = Ok (opt, n, g) ->
  exists D, tree_optimal cats t D /\ (forall D', tree_optimal cats t D' -> (length D <= length D')%nat)
    /\ Forall (fun d => 0 < tree_deal_gain d) D
    /\ opt = map snd D /\ n = length D /\ g == tree_gain D
    /\ old_optimal_trade_GFT cats t == tree_gain D /\ optimal_trade_GFT cats t == tree_gain D.
Proof.
  intros cats t opt n g HS HD E. destruct (old_optimal_trade_spec _ _ _ _ _ E) as (E1 & E2 & E3).
  exists (map to_deal (old_opt_master cats t)). split; [apply old_opt_optimal; assumption|].
  split; [intros D' H; rewrite map_length; apply old_fewest; assumption|].
  split. { apply Forall_map. unfold old_opt_master. apply Forall_forall. intros d Hd. apply filter_In in Hd. destruct Hd as [_ P]. apply positive_iff in P. exact P. }
  split; [exact E1|]. split; [rewrite map_length; exact E2|]. rewrite E3. split; [apply old_gft_master|]. split; [apply old_gft_master|].
  rewrite <- old_gft_same. apply old_gft_master.
Qed.

Lemma old_optimal_errors : forall cats t,
  old_optimal_trade cats t = Raise TypeError <-> tree_optimal_trade cats t = Raise TypeError.
Proof.
  intros cats [i [|c ch]]; unfold old_optimal_trade, tree_optimal_trade; cbn [tchildren].
  - destruct (detailed_values cats (Node i [])); split; intros H; try discriminate; reflexivity.
  - split; discriminate.
Qed.

(** ** The report *)
Open Scope string_scope.

Lemma old_explained_node : forall show cats prices i ch, ch <> [] -> old_explained show cats prices (Node i ch) =
  (p <- get prices i ;; rs <- map_result (old_explained show cats prices) ch ;;
   let total := nsum (map fst rs) in
   let d := Nat.min total (csize (cat_at cats i)) in
   Ok (d, (String.concat "" (map snd rs) ++ own_text show (fun _ => 1%nat) cats i d (size cats i) p ++ children_text "traders" cats ch d total)
          ++ decimal d ++ " deals overall" ++ nl)).
Proof.
  intros show cats prices i [|c ch] H; [congruence|]. cbn [old_explained]. destruct (get prices i) as [p|e|]; [|reflexivity|reflexivity]. cbn [bind].
  destruct (map_result (old_explained show cats prices) (c :: ch)) as [rs|e|]; [|reflexivity|reflexivity]. cbn [bind]. cbn zeta. cbn [fst snd].
  unfold own_text. rewrite Nat.mul_1_r. reflexivity.
Qed.

Lemma old_explained_ok : forall show cats prices t, indices_in_range (length prices) t -> distinct_categories t ->
  exists ls, old_explained show cats prices t = Ok (tree_num_of_deals cats t, unlines ls) /\ old_report show cats prices t ls.
Proof.
  intros show cats prices t. induction t as [i ch IH] using rtree_ind'. intros HR HD.
  assert (Hi : exists p, get prices i = Ok p).
  { exists (nth i prices 0%Q). apply get_lt. unfold indices_in_range in HR. rewrite Forall_forall in HR. apply HR. left. reflexivity. }
  destruct Hi as [p Hp].
  destruct (list_eq_nil_dec ch) as [->|Hne].
  - assert (EP : price prices i = p).
    { unfold price. unfold get in Hp. destruct (nth_error prices i) eqn:E; [|discriminate]. injection Hp; intros <-. erewrite nth_error_nth; eauto. }
    exists [name cats i ++ ": " ++ decimal (size cats i) ++ " potential deals, price=" ++ show (price prices i); decimal (size cats i) ++ " deals overall"].
    cbn [old_explained]. rewrite Hp. cbn [bind fst snd]. split.
    + cbn [tree_num_of_deals]. f_equal. f_equal. rewrite EP. rewrite !unlines_cons. change (unlines []) with "". rewrite sapp_nil, !sapp_assoc. reflexivity.
    + constructor; [apply (most_ok cats (Node i []) HD)|reflexivity].
  - assert (HRc : forall c, In c ch -> indices_in_range (length prices) c) by (intros c Hc; eapply range_child; eassumption).
    assert (HDc : forall c, In c ch -> distinct_categories c) by (intros c Hc; eapply distinct_child; eassumption).
    assert (X : exists rs lss, map_result (old_explained show cats prices) ch = Ok rs
      /\ map fst rs = map (tree_num_of_deals cats) ch /\ map snd rs = map unlines lss
      /\ Forall2 (old_report show cats prices) ch lss).
    { clear -IH HRc HDc. induction ch as [|c ch IHc].
      - exists [], []. repeat split; constructor.
      - inversion IH; subst. destruct IHc as (rs & lss & E1 & E2 & E3 & E4); [assumption|intros; apply HRc; right; assumption|intros; apply HDc; right; assumption|].
        destruct H1 as (ls & F1 & F2); [apply HRc; left; reflexivity|apply HDc; left; reflexivity|].
        exists ((tree_num_of_deals cats c, unlines ls) :: rs), (ls :: lss). cbn [map_result map]. rewrite F1, E1, E2, E3. cbn [bind fst snd].
        repeat split. constructor; assumption. }
    destruct X as (rs & lss & E1 & E2 & E3 & E4).
    rewrite old_explained_node by assumption. rewrite Hp, E1. cbn [bind]. rewrite E2, E3.
    set (total := nsum (map (tree_num_of_deals cats) ch)). set (d := Nat.min total (csize (cat_at cats i))). cbn zeta.
    assert (Dd : d = tree_num_of_deals cats (Node i ch)) by (unfold d, total; symmetry; apply deals_node; assumption).
    destruct (own_text_line show (fun _ => 1%nat) cats prices i d p Hp) as (own & Ho & To).
    { rewrite Nat.div_1_r. unfold d, size, csize. lia. }
    destruct (children_text_line "traders" cats ch d total) as (below & Hb & Tb); [unfold d; lia|].
    exists (concat lss ++ [own; below; (decimal d ++ " deals overall")%string])%list. split.
    + fold d. rewrite <- Dd. f_equal. f_equal. rewrite unlines_concat, unlines_app, !unlines_cons. change (unlines []) with "".
      rewrite Nat.div_1_r in To. rewrite To, Tb. rewrite sapp_nil, !sapp_assoc. reflexivity.
    + apply (old_node _ _ _ i ch lss (map (tree_num_of_deals cats) ch) d own below); [exact Hne|exact E4| |rewrite Dd; apply most_ok; exact HD|exact Ho|exact Hb].
      clear -HDc. induction ch as [|c ch IHc]; cbn; [constructor|]. constructor; [apply most_ok, HDc; left; reflexivity|].
      apply IHc. intros. apply HDc. right. assumption.
Qed.

Lemma unlines_full : forall ls, unlines ls = full_lines ls.
Proof.
  induction ls as [|l ls IH]; [reflexivity|]. rewrite unlines_cons, IH. unfold full_lines. cbn [map]. destruct (map (fun l0 => l0 ++ nl) ls) eqn:E; cbn [String.concat].
  - now rewrite sapp_nil.
  - rewrite sapp_assoc. reflexivity.
Qed.

Lemma old_text : forall show cats prices t, indices_in_range (length prices) t -> distinct_categories t ->
  exists d ls, old_explained show cats prices t = Ok (d, full_lines ls) /\ most_deals cats t d /\ old_report show cats prices t ls.
Proof.
  intros show cats prices t HR HD. destruct (old_explained_ok show cats prices t HR HD) as (ls & E & R). exists (tree_num_of_deals cats t), ls.
  rewrite <- unlines_full. split; [exact E|]. split; [apply most_ok; exact HD|exact R].
Qed.
