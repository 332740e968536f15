(** * The tree auction never beats the optimum (C40) *)

From Coq Require Import String List Arith Lia QArith Lqa Permutation Sorted Bool.
From Verif Require Import Base Model_Agents Model_Trade Model_Prices Model_Market Model_RecipeTree Model_TreeAuction
  Spec_Market Spec_RecipeTree Spec_TreeAuction Spec_Ascending Proof_Strategy Proof_Tree Proof_Tree2 Proof_Tree3
  Proof_TA1 Proof_TA2 Proof_TA3.
From Verif Require Proof_Ascending.
Import ListNotations.
Open Scope Q_scope.

(** ** Pointwise domination of lists *)

Definition pw (l' l : list Q) : Prop :=
  (length l' <= length l)%nat /\ forall k, (k < length l')%nat -> nth k l' 0 <= nth k l 0.
Definition dom (l' l : list Q) : Prop := forall x, (at_least x l' <= at_least x l)%nat.

Lemma at_least_app : forall x l1 l2, at_least x (l1 ++ l2) = (at_least x l1 + at_least x l2)%nat.
Proof. intros. unfold at_least. rewrite filter_app, app_length. reflexivity. Qed.

Lemma pw_cons : forall a' l' a l, pw (a' :: l') (a :: l) -> a' <= a /\ pw l' l.
Proof.
  intros a' l' a l [H1 H2]. split; [apply (H2 0%nat); simpl; lia|]. split; [simpl in H1; lia|].
  intros k Hk. apply (H2 (S k)). simpl. lia.
Qed.

Lemma pw_dom : forall l' l, pw l' l -> dom l' l.
Proof.
  induction l' as [|a' l' IH]; intros l H x; [simpl; unfold at_least; simpl; lia|].
  destruct l as [|a l]; [destruct H as [H _]; simpl in H; lia|].
  apply pw_cons in H. destruct H as [Ha H]. specialize (IH l H x). unfold at_least in *. simpl.
  destruct (Qle_bool_reflect x a'); destruct (Qle_bool_reflect x a); simpl; try lia. exfalso. lra.
Qed.

Lemma dom_pw : forall l' l, desc l' -> desc l -> dom l' l -> pw l' l.
Proof.
  intros l' l D' D H.
  assert (K : forall k, (k < length l')%nat -> (k < length l)%nat /\ nth k l' 0 <= nth k l 0).
  { intros k Hk. set (x := nth k l' 0).
    assert (A : (S k <= at_least x l')%nat).
    { rewrite <- (firstn_skipn (S k) l'), at_least_app.
      assert (X : at_least x (firstn (S k) l') = S k).
      { unfold at_least. assert (F : Forall (fun y => x <= y) (firstn (S k) l')).
        { rewrite Forall_forall. intros y Hy. apply (In_nth _ _ 0) in Hy. destruct Hy as [j [Hj <-]].
          rewrite firstn_length in Hj. unfold x.
          assert (E : nth j (firstn (S k) l') 0 = nth j l' 0).
          { transitivity (nth j (firstn (S k) l' ++ skipn (S k) l') 0); [|rewrite firstn_skipn; reflexivity].
            rewrite app_nth1; [reflexivity|rewrite firstn_length; lia]. }
          rewrite E. apply desc_nth; [assumption|lia|assumption]. }
        assert (G : filter (fun y => Qle_bool x y) (firstn (S k) l') = firstn (S k) l').
        { revert F. generalize (firstn (S k) l'). intros z F. induction F as [|y z Hy F IH]; [reflexivity|]. simpl.
          apply Qle_bool_iff in Hy. rewrite Hy, IH. reflexivity. }
        rewrite G, firstn_length. lia. }
      lia. }
    assert (B : (S k <= at_least x l)%nat) by (specialize (H x); lia).
    assert (C := at_least_length x l). split; [lia|].
    assert (F := firstn_at_least l x (S k) D B). rewrite Forall_forall in F. apply F.
    assert (E : nth k l 0 = nth k (firstn (S k) l) 0).
    { transitivity (nth k (firstn (S k) l ++ skipn (S k) l) 0); [rewrite firstn_skipn; reflexivity|].
      rewrite app_nth1; [reflexivity|rewrite firstn_length; lia]. }
    rewrite E. apply nth_In. rewrite firstn_length. lia. }
  split; [|intros k Hk; apply K; assumption].
  destruct (le_lt_dec (length l') (length l)) as [L|L]; [assumption|]. destruct (K (length l) L) as [X _]. lia.
Qed.

Lemma zip_add_pw : forall xs' ys' xs ys, pw xs' xs -> pw ys' ys -> pw (zip_add xs' ys') (zip_add xs ys).
Proof.
  induction xs' as [|x' xs' IH]; intros ys' xs ys HX HY.
  - split; simpl; [lia|intros; lia].
  - destruct ys' as [|y' ys']; [split; simpl; [lia|intros; lia]|].
    destruct xs as [|x xs]; [destruct HX as [HX _]; simpl in HX; lia|].
    destruct ys as [|y ys]; [destruct HY as [HY _]; simpl in HY; lia|].
    apply pw_cons in HX. apply pw_cons in HY. destruct HX as [Hx HX]. destruct HY as [Hy HY].
    destruct (IH _ _ _ HX HY) as [L N]. split; [simpl; lia|]. intros [|k] Hk; simpl in *; [lra|]. apply N. lia.
Qed.

Lemma dom_concat : forall A (f' f : A -> list Q) l, (forall a, In a l -> dom (f' a) (f a)) ->
  dom (concat (map f' l)) (concat (map f l)).
Proof.
  intros A f' f. induction l as [|a l IH]; intros H x; [simpl; lia|]. simpl. rewrite !at_least_app.
  assert (X := H a (or_introl eq_refl) x). assert (Y := IH (fun b Hb => H b (or_intror Hb)) x). lia.
Qed.

Lemma pfx_pw : forall l L, pfx l L -> pw l L.
Proof.
  intros l L H. unfold pfx in H. split.
  - rewrite H. rewrite firstn_length. lia.
  - intros k Hk. assert (E : nth k l 0 = nth k L 0).
    { rewrite H. transitivity (nth k (firstn (length l) L ++ skipn (length l) L) 0); [|rewrite firstn_skipn; reflexivity].
      rewrite app_nth1; [reflexivity|]. rewrite <- H. assumption. }
    rewrite E. lra.
Qed.

(** Fewer agents in some categories: the combined values get worse, position by position. *)
Lemma combined_pw : forall cats' cats t, (forall i, pfx (cvalues (cat_at cats' i)) (cvalues (cat_at cats i))) ->
  (forall i, desc (cvalues (cat_at cats i))) -> pw (combined_values cats' t) (combined_values cats t).
Proof.
  intros cats' cats t HP HD. assert (HD' : forall i, desc (cvalues (cat_at cats' i))) by (intros i; eapply pfx_desc; eauto).
  induction t as [i ch IH] using rtree_ind'. destruct (list_eq_nil_dec ch) as [->|N].
  - simpl. apply pfx_pw. apply HP.
  - rewrite !combined_node by assumption. apply zip_add_pw; [apply pfx_pw; apply HP|].
    apply dom_pw; [apply sort_desc_desc|apply sort_desc_desc|]. intros x.
    rewrite (at_least_perm x _ _ (sort_desc_perm _)), (at_least_perm x _ _ (sort_desc_perm (concat (map (combined_values cats) ch)))).
    apply dom_concat. intros c Hc. apply pw_dom. rewrite Forall_forall in IH. apply IH. assumption.
Qed.

(** ** Values and prices along paths *)

Definition path_sum (p : list Q) (path : list nat) : Q := Qsum (map (fun i => nth i p 0) path).

Lemma zip_add_In : forall xs ys z, In z (zip_add xs ys) -> exists x y, In x xs /\ In y ys /\ z = x + y.
Proof.
  induction xs as [|x xs IH]; intros [|y ys] z H; simpl in H; try (destruct H; fail).
  destruct H as [<-|H]; [exists x, y; simpl; auto|]. destruct (IH _ _ H) as (a & b & Ha & Hb & E). exists a, b. simpl. auto.
Qed.

Lemma combined_ge : forall cats p t, (forall i v, In v (cvalues (cat_at cats i)) -> nth i p 0 <= v) ->
  forall x, In x (combined_values cats t) -> exists path, is_path t path /\ path_sum p path <= x.
Proof.
  intros cats p t H. induction t as [i ch IH] using rtree_ind'. intros x Hx. destruct (list_eq_nil_dec ch) as [->|N].
  - simpl in Hx. exists [i]. split; [constructor|]. unfold path_sum. simpl. apply H in Hx. lra.
  - rewrite combined_node in Hx by assumption. apply zip_add_In in Hx. destruct Hx as (a & b & Ha & Hb & ->).
    apply (Permutation_in _ (sort_desc_perm _)) in Hb. apply in_concat in Hb. destruct Hb as [l [Hl Hb]].
    apply in_map_iff in Hl. destruct Hl as [c [<- Hc]]. rewrite Forall_forall in IH.
    destruct (IH c Hc b Hb) as [path [Hp Hs]]. exists (i :: path). split; [econstructor; eassumption|].
    unfold path_sum in *. cbn [map]. rewrite Qsum_cons. apply H in Ha. lra.
Qed.

Lemma indicator_sum : forall (f : nat -> Q) (ind : nat -> bool) l,
  Qsum (map (fun j => f j * Qn (if ind j then 1 else 0)%nat) l) == Qsum (map f (filter ind l)).
Proof.
  intros f ind. induction l as [|j l IH]; [reflexivity|]. cbn [map filter]. rewrite Qsum_cons, IH.
  destruct (ind j); [cbn [map]; rewrite Qsum_cons, Qn_1|rewrite Qn_0]; ring.
Qed.

Lemma path_dot : forall n path r p, path_recipe n path r -> length p = n -> NoDup path ->
  (forall i, In i path -> (i < n)%nat) -> dot p r == path_sum p path.
Proof.
  intros n path r p [HL HI] HP ND HR. rewrite Proof_Ascending.dot_wdot by congruence.
  unfold Proof_Ascending.wdot. rewrite HL.
  rewrite (Qsum_map_ext _ _ (fun j => nth j p 0 * Qn (if existsb (Nat.eqb j) path then 1 else 0)%nat)).
  - rewrite (indicator_sum (fun j => nth j p 0) (fun j => existsb (Nat.eqb j) path)). unfold path_sum.
    apply Qsum_perm. apply Permutation_map. apply NoDup_Permutation; [apply NoDup_filter; apply seq_NoDup|assumption|].
    intros x. rewrite filter_In, in_seq, existsb_eqb_In. split; [tauto|]. intros Hx. split; [|assumption]. specialize (HR x Hx). lia.
  - intros j Hj. rewrite in_seq in Hj. destruct (HI j ltac:(lia)) as [A B].
    destruct (existsb (Nat.eqb j) path) eqn:E.
    + apply existsb_eqb_In in E. rewrite (nth_error_nth _ _ _ (A E)). reflexivity.
    + assert (X : ~ In j path) by (intros X; apply existsb_eqb_In in X; congruence).
      rewrite (nth_error_nth _ _ _ (B X)). reflexivity.
Qed.

Lemma path_nodup : forall t path, distinct_categories t -> is_path t path -> NoDup path.
Proof.
  intros t path HD H. induction H as [i|i ch c p Hc Hp IH]; [repeat constructor; intros []|].
  constructor; [|apply IH; eapply distinct_child; eassumption].
  intros X. destruct (distinct_inv _ _ HD) as [Y _]. apply Y. rewrite in_concat. exists (node_indices c).
  split; [apply in_map; assumption|]. eapply is_path_indices; eassumption.
Qed.

(** The sums of recipes are the sums along paths. *)
Lemma sums_paths : forall n t rs p S, setup n t rs -> distinct_categories t -> length p = n ->
  equal_sums rs p S -> forall path, is_path t path -> path_sum p path == S.
Proof.
  intros n t rs p S SU HD HL HS path Hp.
  assert (Hp' := Hp). apply root_leaf_paths_In in Hp'.
  destruct (Forall2_In_ex _ _ _ _ _ _ (su_recipes _ _ _ SU) Hp') as [r [Hr PR]].
  rewrite <- (path_dot n path r p PR HL); [apply HS; assumption|eapply path_nodup; eassumption|].
  intros i Hi. assert (R := su_range _ _ _ SU). unfold indices_in_range in R. rewrite Forall_forall in R. apply R.
  eapply is_path_indices; eassumption.
Qed.

(** ** C40 *)

Lemma filter_nonneg_prefix : forall l n, desc l -> (forall k, (k < n)%nat -> (k < length l)%nat /\ 0 <= nth k l 0) ->
  (n <= length (filter (fun v => Qle_bool 0%Q v) l))%nat.
Proof.
  induction l as [|a l IH]; intros n HD H.
  - destruct n; [simpl; lia|]. destruct (H 0%nat) as [X _]; [lia|simpl in X; lia].
  - destruct n as [|n]; [lia|]. destruct (H 0%nat) as [_ X]; [lia|]. simpl in X. simpl.
    apply Qle_bool_iff in X. rewrite X. simpl. apply le_n_S. apply IH; [apply desc_inv in HD; tauto|].
    intros k Hk. destruct (H (S k)) as [A B]; [lia|]. simpl in *. split; [lia|assumption].
Qed.

Lemma feasible_pfx : forall cats' cats t D, (forall i, pfx (cvalues (cat_at cats' i)) (cvalues (cat_at cats i))) ->
  tree_feasible cats' t D -> tree_feasible cats t D.
Proof.
  intros cats' cats t D HP [H1 H2]. split; [assumption|]. intros i. eapply sub_bag_trans; [apply H2|].
  exists (skipn (length (cvalues (cat_at cats' i))) (cvalues (cat_at cats i))). apply prefix_split. apply HP.
Qed.

Theorem tree_at_most_optimal : forall M p0 fuel m st r rs opt k g, 0 < M ->
  tree_auction M p0 fuel m st = Ok r -> recipes (length m) (tt_tree r) = Ok rs ->
  distinct_categories (tt_tree r) ->
  initial_prices_ok (length m) rs (- M) p0 -> values_above (- M) m ->
  tree_optimal_trade (clone_market m) (tt_tree r) = Ok (opt, k, g) ->
  (tt_deals r <= k)%nat /\ 0 <= tt_gft r /\ tt_gft r <= g
  /\ exists D, tree_feasible (tt_cats r) (tt_tree r) D /\ length D = tt_deals r /\ tree_gain D == tt_gft r.
Proof.
  intros M p0 fuel m st r rs opt k g HM H Hrs HD HP HV HO.
  destruct (auction_final _ _ _ _ _ _ _ HM H Hrs HP HV) as (sp & s & s' & R & V & I0 & EP & I & HR).
  assert (SU := rt_setup _ _ _ _ _ _ _ _ _ R).
  destruct (final_shape _ _ _ _ _ _ _ SU (clone_sorted m) I HR) as (E & F & L1 & L2).
  destruct (tree_optimal_trade_spec _ _ _ _ _ HO) as (_ & Ek & Eg).
  assert (PF : forall i, pfx (cvalues (cat_at (cats_of s') i)) (cvalues (cat_at (clone_market m) i))).
  { intros i. rewrite E. apply (ia_pfx _ _ _ _ I). }
  assert (SD : forall i, desc (cvalues (cat_at (clone_market m) i))) by (apply sorted_cats_at; apply clone_sorted).
  assert (SD' : forall i, desc (cvalues (cat_at (cats_of s') i))) by (intros i; eapply pfx_desc; eauto).
  assert (ED : tt_deals r = tree_num_of_deals (cats_of s') (tt_tree r)).
  { destruct (deals_explained_ok (cats_of s') (prices_of s') (tt_tree r)) as (k1 & k2 & Y & _).
    { rewrite L1. apply SU. }
    rewrite (rt_explained _ _ _ _ _ _ _ _ _ R) in Y. injection Y; intros _ _ Y'. exact Y'. }
  (* all combined values of the remaining agents are non-negative *)
  assert (NN : (0 < tt_deals r)%nat -> forall x, In x (combined_values (cats_of s') (tt_tree r)) -> 0 <= x).
  { intros Hpos x Hx. destruct (tree_sbb _ _ _ _ _ _ _ HM H Hrs HP Hpos) as [_ SB].
    rewrite (rt_prices _ _ _ _ _ _ _ _ _ R) in SB.
    destruct (combined_ge (cats_of s') (prices_of s') (tt_tree r) F x Hx) as [path [Hp Hs]].
    rewrite (sums_paths _ _ _ _ _ SU HD L1 SB path Hp) in Hs. exact Hs. }
  assert (KK : (tt_deals r <= k)%nat).
  { destruct (Nat.eq_dec (tt_deals r) 0) as [Z|Z]; [lia|]. specialize (NN ltac:(lia)).
    rewrite Ek. rewrite <- (Forall2_length _ _ _ _ _ (opt_combined (clone_market m) (tt_tree r))).
    destruct (combined_pw _ _ (tt_tree r) PF SD) as [PL PN].
    apply filter_nonneg_prefix; [apply combined_desc; assumption|].
    intros j Hj. rewrite ED, <- combined_length in Hj. split; [lia|].
    assert (X := PN j Hj). assert (Y := NN _ (nth_In _ 0 Hj)). lra. }
  assert (SC : sorted_cats (cats_of s')).
  { unfold sorted_cats. rewrite Forall_forall. intros c Hc. apply (In_nth _ _ (mkCat "" [])) in Hc.
    destruct Hc as [i [_ <-]]. apply SD'. }
  split; [assumption|]. rewrite (rt_gft _ _ _ _ _ _ _ _ _ R).
  split; [|split].
  - unfold optimal_trade_GFT. apply Qsum_nonneg. rewrite Forall_forall. intros x Hx. apply filter_In in Hx.
    destruct Hx as [_ Hx]. apply Qle_bool_iff in Hx. assumption.
  - destruct (gft_optimal _ _ SC HD) as [D [[HF _] HG]]. rewrite <- HG, Eg.
    apply gft_upper; [apply clone_sorted|]. eapply feasible_pfx; eassumption.
  - rewrite (rt_cats _ _ _ _ _ _ _ _ _ R).
    exists (map to_deal (master (cats_of s') 0 (tt_tree r))). split; [apply master_feasible; assumption|].
    split; [rewrite map_length, master_length; congruence|].
    assert (X : opt_master (cats_of s') (tt_tree r) = master (cats_of s') 0 (tt_tree r)).
    { unfold opt_master. assert (CM := combined_master (cats_of s') (tt_tree r) 0).
      destruct (Nat.eq_dec (tt_deals r) 0) as [Z|Z].
      - assert (Y := master_length (cats_of s') (tt_tree r) 0). destruct (master (cats_of s') 0 (tt_tree r)); [reflexivity|].
        simpl in Y. lia.
      - specialize (NN ltac:(lia)). clear -CM NN. induction CM as [|q d l l' Hq CM IH]; [reflexivity|]. simpl.
        assert (Z : 0 <= md_sum d) by (rewrite <- Hq; apply NN; left; reflexivity).
        apply Qle_bool_iff in Z. rewrite Z, IH; [reflexivity|]. intros x Hx. apply NN. right. assumption. }
    rewrite gft_master, X. reflexivity.
Qed.
