(** * With all agent counts 1 the integer auction is the binary one (C45) *)

From Coq Require Import String List Arith Lia QArith Lqa Permutation Sorted Bool.
From Verif Require Import Base Model_Agents Model_Trade Model_Prices Model_Market Model_RecipeTree Model_TreeAuction
  Model_IntPrices Model_IntTree Model_IntAuction
  Spec_Market Spec_RecipeTree Spec_TreeAuction Spec_Int Proof_Tree Proof_Tree2 Proof_Tree3 Proof_TA1 Proof_TA2 Proof_TA3
  Proof_Int1 Proof_Int2 Proof_Int3 Proof_Int4.
Import ListNotations.
Open Scope Q_scope.

(** ** Arithmetic *)

Lemma Qmult_one : forall x, x * Qn 1 = x.
Proof. intros [a b]. unfold Qn, inject_Z, Qmult. simpl. rewrite Z.mul_1_r, Pos.mul_1_r. reflexivity. Qed.

Lemma Qdiv_one : forall x, x / Qn 1 = x.
Proof. intros x. unfold Qdiv. change (/ Qn 1) with (Qn 1). apply Qmult_one. Qed.

Lemma dot3_ones : forall p r, dot3 p r (repeat 1%nat (length r)) = dot p r.
Proof.
  induction p as [|x p IH]; intros [|y r]; simpl; try reflexivity. rewrite IH.
  change (Z.pos (Pos.of_succ_nat 0)) with 1%Z. rewrite Qmult_one. reflexivity.
Qed.

Lemma Qlt_bool_Qn : forall a b, Qlt_bool (Qn a) (Qn b) = (a <? b)%nat.
Proof.
  intros a b. destruct (Nat.ltb_spec a b) as [H|H].
  - apply Qlt_bool_iff. apply Qn_lt. assumption.
  - apply Qlt_bool_false. apply Qn_le. assumption.
Qed.

Lemma Qmax2_Qn : forall a b, Qmax2 (Qn a) (Qn b) = Qn (Nat.max a b).
Proof. intros a b. unfold Qmax2. rewrite Qlt_bool_Qn. destruct (Nat.ltb_spec a b); f_equal; lia. Qed.

(** ** The tree *)

Lemma build_node_mono : forall n n' i ch t, (n <= n')%nat -> build_node n i ch = Ok t -> build_node n' i ch = Ok t.
Proof.
  intros n n' i ch t Hn H. apply build_node_ok in H. destruct H as [H1 (H2 & H3 & H4)]. apply build_node_ok.
  split; [assumption|]. split; [assumption|]. split; [|assumption]. intros k b Hk. specialize (H3 k b Hk). lia.
Qed.

Lemma int_tree_binary : forall cats counts s t, new_int_tree cats counts s = Ok t -> new_tree cats s = Ok t.
Proof.
  intros cats counts s t H. unfold new_int_tree, new_tree in *. destruct s as [| |l]; try discriminate.
  destruct (Nat.even (length l)); [|discriminate]. destruct l as [|i [|ch l]]; try discriminate.
  eapply build_node_mono; [|exact H]. destruct counts; lia.
Qed.

Lemma int_tree_counts : forall cats counts s t, new_int_tree cats counts s = Ok t -> counts <> [] ->
  indices_in_range (length counts) t.
Proof.
  intros cats counts s t H HC. unfold new_int_tree in H. destruct s as [| |l]; try discriminate.
  destruct (Nat.even (length l)); [|discriminate]. destruct l as [|i [|ch l]]; try discriminate.
  apply build_node_ok in H. destruct H as [H1 H2]. assert (X := describes_indices _ _ _ _ H2 H1).
  unfold indices_in_range in *. rewrite Forall_forall in *. intros j Hj. specialize (X j Hj).
  destruct counts; [congruence|]. lia.
Qed.

Lemma unit_positive : forall counts t, unit_counts counts t -> positive_counts counts t.
Proof. intros counts t H i Hi. rewrite (H i Hi). lia. Qed.

Lemma unit_child : forall counts i ch c, unit_counts counts (Node i ch) -> In c ch -> unit_counts counts c.
Proof.
  intros counts i ch c H Hc j Hj. apply H. cbn [node_indices]. right. apply in_concat. exists (node_indices c).
  split; [apply in_map; assumption|assumption].
Qed.

Lemma fill_unit : forall path counts recipe, (counts = [] \/ forall i, In i path -> get counts i = Ok 1%nat) ->
  fill_recipe path counts recipe = fill_recipe path [] recipe.
Proof.
  induction path as [|i path IH]; intros counts recipe H; [reflexivity|]. destruct H as [->|H]; [reflexivity|].
  cbn [fill_recipe]. destruct counts as [|c0 cs]; [reflexivity|]. rewrite (H i (or_introl eq_refl)). cbn [bind].
  destruct (get recipe i); [|reflexivity|reflexivity]. cbn [bind]. apply IH. right. intros j Hj. apply H. right. assumption.
Qed.

Lemma map_result_ext : forall A B (f g : A -> result B) l, (forall a, In a l -> f a = g a) -> map_result f l = map_result g l.
Proof.
  intros A B f g. induction l as [|a l IH]; intros H; [reflexivity|]. simpl. rewrite (H a (or_introl eq_refl)).
  rewrite IH by (intros; apply H; right; assumption). reflexivity.
Qed.

Lemma int_recipes_unit : forall n counts t, unit_counts counts t -> indices_in_range n t ->
  (counts <> [] -> indices_in_range (length counts) t) -> int_recipes n counts t = recipes n t.
Proof.
  intros n counts t HU HR HC. unfold int_recipes, recipes. apply map_result_ext. intros p Hp.
  rewrite paths_to_leaf_spec in Hp. apply root_leaf_paths_In in Hp. unfold recipe_from_path. apply fill_unit.
  unfold indices_in_range in *. rewrite Forall_forall in HR. right. intros i Hi.
  assert (Hin : In i (node_indices t)) by (eapply is_path_indices; eassumption).
  specialize (HU i Hin). unfold count_at in HU. unfold default_counts. destruct counts as [|c0 cs].
  - rewrite (get_lt _ _ _ 1%nat) by (rewrite repeat_length; auto). rewrite nth_repeat. reflexivity.
  - assert (X : Forall (fun i => (i < length (c0 :: cs))%nat) (node_indices t)) by (apply HC; discriminate).
    rewrite Forall_forall in X. rewrite (get_lt _ _ _ 0%nat) by auto. rewrite HU. reflexivity.
Qed.

(** ** The choice of categories *)

Lemma size_ratio_unit : forall cats counts i, count_at counts i = 1%nat ->
  size_ratio cats counts i = Ok (Qn (csize (cat_at cats i))).
Proof. intros cats counts i H. unfold size_ratio. rewrite H. simpl Nat.eqb. cbv iota. rewrite Qdiv_one. reflexivity. Qed.

Lemma size_ceil_unit : forall cats counts i, count_at counts i = 1%nat ->
  size_ceil cats counts i = Ok (csize (cat_at cats i)).
Proof.
  intros cats counts i H. unfold size_ceil. rewrite H. simpl Nat.eqb. cbv iota. unfold ceil_div.
  rewrite Nat.sub_diag, Nat.add_0_r, Nat.div_1_r. reflexivity.
Qed.

Lemma fold_max_Qn : forall A (f : A -> nat) (g : A -> Q) l m, (forall a, In a l -> g a = Qn (f a)) ->
  fold_left (fun m r => Qmax2 m (g r)) l (Qn m) = Qn (fold_left (fun m r => Nat.max m (f r)) l m).
Proof.
  intros A f g. induction l as [|a l IH]; intros m H; [reflexivity|]. simpl. rewrite (H a (or_introl eq_refl)), Qmax2_Qn.
  apply IH. intros; apply H; right; assumption.
Qed.

Lemma largest_unit : forall cats counts t, unit_counts counts t ->
  int_largest_categories cats counts t =
  Ok (Qn (fst (fst (largest_categories cats t))), Qn (snd (fst (largest_categories cats t))), snd (largest_categories cats t)).
Proof.
  intros cats counts t. induction t as [i ch IH] using rtree_ind'. intros HU.
  assert (Hi : count_at counts i = 1%nat) by (apply HU; left; reflexivity).
  assert (HC : forall c, In c ch -> unit_counts counts c) by (intros; eapply unit_child; eassumption).
  cbn [int_largest_categories largest_categories]. rewrite size_ratio_unit by assumption. cbn [bind].
  rewrite (map_result_ok_all _ _ _ (fun c => csize (cat_at cats (tindex c)))).
  2: { intros c Hc. apply size_ceil_unit. apply (HC c Hc). destruct c; left; reflexivity. }
  cbn [bind]. rewrite Qlt_bool_Qn.
  destruct ((nsum (map (fun c => csize (cat_at cats (tindex c))) ch) <? csize (cat_at cats i))%nat
            || (nsum (map (fun c => csize (cat_at cats (tindex c))) ch) =? 0)%nat); [reflexivity|].
  rewrite (map_result_ok_all _ _ _ (fun c =>
    (Qn (fst (fst (largest_categories cats c))), Qn (snd (fst (largest_categories cats c))), snd (largest_categories cats c)))).
  2: { rewrite Forall_forall in IH. intros c Hc. apply IH; auto. }
  cbn [bind fst snd]. rewrite !map_map. cbn [snd]. f_equal. f_equal. f_equal.
  rewrite <- (map_map (largest_categories cats) (fun x => (Qn (fst (fst x)), Qn (snd (fst x)), snd x)) ch).
  generalize (map (largest_categories cats) ch). intros l. change 0 with (Qn 0). generalize 0%nat.
  induction l as [|a l IHl]; intros m; [reflexivity|]. cbn [map fold_left fst snd]. rewrite Qmax2_Qn. apply IHl.
Qed.

(** ** The prices *)

Definition ones (n : nat) : list nat := repeat 1%nat n.

(** A binary price object as an integer one. *)
Definition lift (n : nat) (sp : sim_prices) : int_sim_prices :=
  mkISP (sp_recipes sp) (ones n) (mkIV (pv_recipe (sp_vector sp)) (ones n) (pv_prices (sp_vector sp)) (pv_status (sp_vector sp)))
    (sp_status sp).

Definition rmap {A B} (f : A -> B) (x : result A) : result B :=
  match x with Ok a => Ok (f a) | Raise e => Raise e | Timeout => Timeout end.

Lemma int_raise_ones : forall n d incs p, (forall i x, In (i, x) incs -> (i < n)%nat) ->
  int_raise_prices (ones n) d incs p = raise_prices d incs p.
Proof.
  intros n d. induction incs as [|[i x] incs IH]; intros p H; [reflexivity|]. cbn [int_raise_prices raise_prices].
  destruct (get p i) as [q| |]; try reflexivity. cbn [bind].
  assert (Hi : (i < n)%nat) by (eapply H; left; reflexivity).
  rewrite (get_lt _ _ _ 1%nat) by (unfold ones; rewrite repeat_length; assumption). unfold ones at 1. rewrite nth_repeat. cbn [bind].
  rewrite Qmult_one. apply IH. intros; eapply H; right; eassumption.
Qed.

Lemma int_increase_ones : forall n sp incs bound, (forall i x, In (i, x) incs -> (i < n)%nat) ->
  (forall r, In r (sp_recipes sp) -> length r = n) -> length (pv_recipe (sp_vector sp)) = n ->
  (forall r, In r (sp_recipes sp) -> categories_in r (map fst incs) = 1%nat) ->
  int_increase_prices (lift n sp) incs bound = rmap (lift n) (increase_prices sp incs bound).
Proof.
  intros n sp incs bound HI HR HV H1. unfold int_increase_prices, increase_prices, lift.
  cbn [isp_counts isp_recipes isp_vector iv_recipe iv_counts iv_prices iv_status].
  rewrite (map_result_ok_all _ _ _ (fun _ => tt)).
  2: { intros r Hr. apply int_count_ok. intros i x Hi. rewrite (HR r Hr). unfold ones. rewrite repeat_length.
       assert (Hn : (i < n)%nat) by (eapply HI; eassumption). split; [assumption|]. split; [assumption|].
       rewrite (nth_indep _ 0%nat 1%nat) by (rewrite repeat_length; assumption). rewrite nth_repeat. lia. }
  rewrite (map_result_ok_all _ _ (fun recipe => increases_in recipe incs) (fun _ => 1%nat)).
  2: { intros r Hr. rewrite increases_in_ok by (intros i x Hi; rewrite (HR r Hr); eapply HI; eassumption). f_equal. apply H1. assumption. }
  cbn [bind].
  assert (EX : existsb (fun n0 => negb (n0 =? 1)%nat) (map (fun _ : list nat => 1%nat) (sp_recipes sp)) = false).
  { clear. induction (sp_recipes sp); [reflexivity|]. simpl. assumption. }
  rewrite EX. unfold int_price_sum, price_sum. cbn [iv_prices iv_recipe iv_counts].
  assert (E3 : dot3 (pv_prices (sp_vector sp)) (pv_recipe (sp_vector sp)) (ones n) = dot (pv_prices (sp_vector sp)) (pv_recipe (sp_vector sp))).
  { rewrite <- HV. apply dot3_ones. }
  rewrite E3.
  destruct (map_result _ incs) as [diffs| |]; [|reflexivity|reflexivity]. cbn [bind].
  destruct (qmin diffs) as [mn| |]; [|reflexivity|reflexivity]. cbn [bind].
  rewrite int_raise_ones by assumption.
  match goal with |- context [raise_prices ?d incs ?p] => destruct (raise_prices d incs p) as [p'| |]; [|reflexivity|reflexivity] end.
  reflexivity.
Qed.

(** ** The loop *)

Record shape (n : nat) (rs : list (list nat)) (s : tree_state) : Prop := mkShape {
  sh_cats : length (fst s) = n;
  sh_prices : length (pv_prices (sp_vector (snd s))) = n;
  sh_recipes : sp_recipes (snd s) = rs;
  sh_recipe : length (pv_recipe (sp_vector (snd s))) = n
}.

Definition lift_state (n : nat) (s : tree_state) : int_state := (fst s, lift n (snd s)).

Lemma shape_step : forall M n t rs s b s', setup n t rs -> shape n rs s -> tree_round M t s = Ok (b, s') -> shape n rs s'.
Proof.
  intros M n t rs [cats sp] b s' SU SH H. rewrite round_eq in H.
  destruct (csize (cat_at cats (tindex t)) =? 0)%nat; [injection H; intros <- <-; assumption|].
  apply bind_Ok in H. destruct H as [incs [Hp H]]. apply bind_Ok in H. destruct H as [sp' [Hi H]].
  assert (LP : length (pv_prices (sp_vector sp')) = n /\ sp_recipes sp' = rs /\ length (pv_recipe (sp_vector sp')) = n).
  { destruct SH as [S1 S2 S3 S4]. cbn [fst snd] in *. unfold increase_prices in Hi. apply bind_Ok in Hi. destruct Hi as [c [_ Hi]].
    destruct (existsb _ c); [discriminate|]. apply bind_Ok in Hi. destruct Hi as [df [_ Hi]]. apply bind_Ok in Hi. destruct Hi as [mn [_ Hi]].
    apply bind_Ok in Hi. destruct Hi as [p' [Hr Hi]]. injection Hi; intros <-. cbn. split; [|split; assumption].
    rewrite <- S2. revert Hr. generalize (pv_prices (sp_vector sp)). clear.
    match goal with |- context [raise_prices ?d _ _] => generalize d end. intros d.
    induction incs as [|[i x] incs IH]; intros p H; cbn [raise_prices] in H; [injection H; intros <-; reflexivity|].
    apply bind_Ok in H. destruct H as [q [_ H]]. apply IH in H. rewrite set_nth_length in H. assumption. }
  destruct LP as (L1 & L2 & L3). destruct SH as [S1 _ _ _]. cbn [fst] in S1.
  assert (RB : forall cats', remove_beaten cats (map_category_index_to_price sp') = Ok cats' -> length cats' = n).
  { intros cats' Hc. destruct (remove_beaten_ok cats (map_category_index_to_price sp')) as (c2 & E & L & _).
    - unfold map_category_index_to_price. congruence.
    - rewrite E in Hc. injection Hc; intros <-. congruence. }
  destruct (sp_status sp') as [[|]|].
  - apply bind_Ok in H. destruct H as [cats' [Hc H]]. injection H; intros <- <-. split; cbn [fst snd]; auto.
  - injection H; intros <- <-. split; cbn [fst snd]; auto.
  - apply bind_Ok in H. destruct H as [cats' [Hc H]]. injection H; intros <- <-. split; cbn [fst snd]; auto.
Qed.

Lemma int_round_unit : forall M n counts t rs s, setup n t rs -> distinct_categories t -> unit_counts counts t -> shape n rs s ->
  int_round M counts t (lift_state n s) = rmap (fun bs => (fst bs, lift_state n (snd bs))) (tree_round M t s).
Proof.
  intros M n counts t rs [cats sp] SU HD HU [S1 S2 S3 S4]. cbn [fst snd] in *. rewrite round_eq.
  unfold int_round, lift_state. cbn [fst snd]. rewrite largest_unit by assumption. cbn [bind fst snd].
  rewrite largest_combined.
  assert (EZ : Qeq_bool (Qn (csize (cat_at cats (tindex t)))) 0 = (csize (cat_at cats (tindex t)) =? 0)%nat).
  { destruct (Nat.eqb_spec (csize (cat_at cats (tindex t))) 0) as [->|N]; [reflexivity|].
    apply not_true_iff_false. intros X. apply Qeq_bool_iff in X. apply N. apply (Qn_eq _ 0%nat). exact X. }
  rewrite EZ. destruct (csize (cat_at cats (tindex t)) =? 0)%nat; [reflexivity|].
  assert (RC : forall i, In i (snd (largest_categories cats t)) -> (i < n)%nat).
  { assert (RG := su_range _ _ _ SU). unfold indices_in_range in RG. rewrite Forall_forall in RG.
    intros i Hi. apply RG. eapply cut_incl; [apply largest_cut|exact Hi]. }
  rewrite planned_ok by (intros; rewrite S1; auto). cbn [bind].
  set (incs := map (fun i => (i, tgt M (cat_at cats i))) (snd (largest_categories cats t))) in *.
  assert (EI : map fst incs = snd (largest_categories cats t)).
  { unfold incs. rewrite map_map. simpl. apply map_id. }
  rewrite (int_increase_ones n sp incs 0).
  2: { intros i x Hi. apply RC. rewrite <- EI. apply in_map_iff. exists (i, x). auto. }
  2: { rewrite S3. assert (SB := setup_binary _ _ _ SU). rewrite Forall_forall in SB. intros r Hr. apply SB. assumption. }
  2: assumption.
  2: { rewrite S3, EI. eapply chosen_one; eassumption. }
  destruct (increase_prices sp incs 0) as [sp'| |]; [|reflexivity|reflexivity]. cbn [rmap bind].
  change (isp_status (lift n sp')) with (sp_status sp').
  change (iv_prices (isp_vector (lift n sp'))) with (map_category_index_to_price sp').
  destruct (sp_status sp') as [[|]|]; [|reflexivity|].
  - destruct (remove_beaten cats (map_category_index_to_price sp')); reflexivity.
  - destruct (remove_beaten cats (map_category_index_to_price sp')); reflexivity.
Qed.

Lemma int_loop_unit : forall M n counts t rs, setup n t rs -> distinct_categories t -> unit_counts counts t ->
  forall fuel s, shape n rs s -> int_loop M counts fuel t (lift_state n s) = rmap (lift_state n) (tree_loop M fuel t s).
Proof.
  intros M n counts t rs SU HD HU. induction fuel as [|fuel IH]; intros s SH; [reflexivity|]. cbn [int_loop tree_loop].
  rewrite (int_round_unit M n counts t rs s SU HD HU SH).
  destruct (tree_round M t s) as [[b s']| |] eqn:E; [|reflexivity|reflexivity]. cbn [rmap bind fst snd].
  destruct b; [reflexivity|]. apply IH. eapply shape_step; eassumption.
Qed.

(** ** The gain from trade *)

Lemma groups_one : forall l, groups_from 1 [] l = map (fun v => [v]) l.
Proof. induction l as [|v l IH]; [reflexivity|]. simpl. f_equal. assumption. Qed.

Lemma combined_congr : forall cats cats' t,
  (forall i, In i (node_indices t) -> Forall2 Qeq (cvalues (cat_at cats i)) (cvalues (cat_at cats' i))) ->
  Forall2 Qeq (combined_values cats t) (combined_values cats' t).
Proof.
  intros cats cats' t. induction t as [i ch IH] using rtree_ind'. intros H.
  assert (Hi := H i (or_introl eq_refl)).
  destruct (list_eq_nil_dec ch) as [->|Hne]; [exact Hi|]. rewrite !combined_node by assumption.
  assert (HF : Forall2 Qeq (concat (map (combined_values cats) ch)) (concat (map (combined_values cats') ch))).
  { assert (HC : forall c, In c ch -> forall j, In j (node_indices c) -> Forall2 Qeq (cvalues (cat_at cats j)) (cvalues (cat_at cats' j))).
    { intros c Hc j Hj. apply H. cbn [node_indices]. right. apply in_concat. exists (node_indices c). split; [apply in_map; assumption|assumption]. }
    clear H Hi Hne. induction ch as [|c ch IHc]; [constructor|]. simpl. inversion IH; subst. apply Forall2_app.
    - apply H1. apply HC. left. reflexivity.
    - apply IHc; [assumption|]. intros c' Hc'. apply HC. right. assumption. }
  assert (HS : Forall2 Qeq (sort_desc (concat (map (combined_values cats) ch))) (sort_desc (concat (map (combined_values cats') ch)))).
  { rewrite (sort_desc_by (concat (map (combined_values cats) ch))), (sort_desc_by (concat (map (combined_values cats') ch))).
    exact (sort_rel _ (fun x : Q => x) (fun x : Q => x) (fun a b E => E) _ _ HF). }
  revert HS Hi. generalize (sort_desc (concat (map (combined_values cats) ch))) (sort_desc (concat (map (combined_values cats') ch))).
  generalize (cvalues (cat_at cats i)) (cvalues (cat_at cats' i)). clear. intros xs xs' ys ys' HY HX. revert ys ys' HY.
  induction HX as [|x x' xs xs' E HX IH]; intros ys ys' HY; [constructor|].
  inversion HY; subst; simpl; constructor; [|auto]. rewrite E. match goal with H : _ == _ |- _ => rewrite H end. reflexivity.
Qed.

Lemma gft_unit : forall cats counts t, sorted_cats cats -> unit_counts counts t ->
  int_optimal_trade_GFT cats counts t == optimal_trade_GFT cats t.
Proof.
  intros cats counts t HS HU. rewrite int_gft_iopt by (apply unit_positive; assumption). rewrite iopt_gain.
  unfold optimal_trade_GFT. apply Qsum_Forall2. apply (filter_rel _ _ Qeq).
  - intros a b E. apply Qle_bool_compat. assumption.
  - apply combined_congr. intros i Hi. rewrite gcats_at. unfold value_groups. rewrite (HU i Hi), groups_one, map_map.
    rewrite sort_desc_id by (apply sorted_cats_at; assumption). induction (cvalues (cat_at cats i)); simpl; constructor; auto. ring.
Qed.

Lemma deals_congr : forall cats cats' t,
  (forall i, In i (node_indices t) -> csize (cat_at cats i) = csize (cat_at cats' i)) ->
  tree_num_of_deals cats t = tree_num_of_deals cats' t.
Proof.
  intros cats cats' t. induction t as [i ch IH] using rtree_ind'. intros H. assert (Hi := H i (or_introl eq_refl)).
  destruct (list_eq_nil_dec ch) as [->|Hne]; [exact Hi|]. rewrite !deals_node by assumption. rewrite Hi. f_equal. f_equal.
  apply map_ext_in. intros c Hc. rewrite Forall_forall in IH. apply IH; [assumption|]. intros j Hj. apply H.
  cbn [node_indices]. right. apply in_concat. exists (node_indices c). split; [apply in_map; assumption|assumption].
Qed.

Lemma gcats_size_unit : forall cats counts i, count_at counts i = 1%nat ->
  csize (cat_at (gcats cats counts) i) = csize (cat_at cats i).
Proof.
  intros cats counts i H. unfold csize at 1. rewrite gcats_at, map_length, value_groups_length by lia. rewrite H. apply Nat.div_1_r.
Qed.

Lemma leaf_incl : forall t i, In i (leaf_indices t) -> In i (node_indices t).
Proof.
  intros t. induction t as [j ch IH] using rtree_ind'. intros i Hi. destruct (list_eq_nil_dec ch) as [->|Hne].
  - destruct Hi as [<-|[]]. left. reflexivity.
  - rewrite leaf_indices_node in Hi by assumption. apply in_concat in Hi. destruct Hi as (l & Hl & Hi).
    apply in_map_iff in Hl. destruct Hl as (c & <- & Hc). rewrite Forall_forall in IH. cbn [node_indices]. right.
    apply in_concat. exists (node_indices c). split; [apply in_map; assumption|]. auto.
Qed.

Lemma positive_filter_all : forall l k, min_list l = Some k -> (0 < k)%nat -> filter (fun k => 0 <? k)%nat l = l.
Proof.
  intros l k H Hk. destruct (min_list_spec l k H) as [_ L]. clear H. induction l as [|a l IH]; [reflexivity|]. simpl.
  assert (k <= a)%nat by (apply L; left; reflexivity). destruct (Nat.ltb_spec 0 a); [|lia]. f_equal. apply IH.
  intros; apply L; right; assumption.
Qed.

Lemma new_trade_unit : forall cats counts t prices, sorted_cats cats -> unit_counts counts t -> indices_in_range (length prices) t ->
  exists r r', new_int_trade cats counts t prices = Ok r /\ new_tree_trade cats t prices = Ok r' /\ same_trade r r'.
Proof.
  intros cats counts t prices HS HU HR. unfold new_int_trade, new_tree_trade.
  destruct (int_explained_ok cats counts prices t (unit_positive _ _ HU) HR) as (kmax & E1 & X1).
  destruct (deals_explained_ok cats prices t HR) as (kmin' & kmax' & E2 & X2 & X3).
  rewrite E1, E2. cbn [bind fst snd]. eexists. eexists. split; [reflexivity|]. split; [reflexivity|].
  assert (LG : leaf_groups cats counts t = map (fun i => csize (cat_at cats i)) (leaf_indices t)).
  { unfold leaf_groups. apply map_ext_in. intros i Hi. rewrite (HU i (leaf_incl t i Hi)). apply Nat.div_1_r. }
  rewrite LG in X1 |- *. unfold same_trade. cbn [tt_cats tt_tree tt_prices tt_deals tt_kmin tt_kmax tt_gft].
  repeat split; try reflexivity.
  - apply deals_congr. intros i Hi. apply gcats_size_unit. apply HU. assumption.
  - congruence.
  - intros Hk. unfold first_positive_min. rewrite (positive_filter_all _ _ X2 Hk), X2. reflexivity.
  - apply gft_unit; assumption.
Qed.

Lemma loop_sorted : forall M t fuel s s', tree_loop M fuel t s = Ok s' -> sorted_cats (fst s) -> sorted_cats (fst s').
Proof.
  assert (RB : forall cats prices cats', remove_beaten cats prices = Ok cats' -> sorted_cats cats -> sorted_cats cats').
  { induction cats as [|c cats IH]; intros prices cats' H HS; cbn [remove_beaten] in H; [injection H; intros <-; constructor|].
    destruct prices as [|p prices]; [discriminate|]. apply bind_Ok in H. destruct H as [c' [Hc H]].
    apply bind_Ok in H. destruct H as [cats2 [H2 H]]. injection H; intros <-. inversion HS; subst. constructor; [|eapply IH; eassumption].
    unfold csize, lowest_agent_value, remove_lowest_agent in Hc. destruct (cvalues c) as [|v l] eqn:Ec.
    - simpl in Hc. injection Hc; intros <-. rewrite Ec. constructor.
    - cbn [length Nat.ltb Nat.leb bind] in Hc. destruct (Qle_bool _ p); injection Hc; intros <-.
      + cbn [cvalues]. change (desc (removelast (v :: l))). rewrite removelast_firstn_len. apply desc_firstn. assumption.
      + rewrite Ec. assumption. }
  intros M t. induction fuel as [|fuel IH]; intros s s' H HS; [discriminate|]. cbn [tree_loop] in H.
  apply bind_Ok in H. destruct H as [[b s1] [H1 H]]. cbn [fst snd] in H.
  assert (HS1 : sorted_cats (fst s1)).
  { destruct s as [cats sp]. rewrite round_eq in H1.
    destruct (csize (cat_at cats (tindex t)) =? 0)%nat; [injection H1; intros <- _; assumption|].
    apply bind_Ok in H1. destruct H1 as [incs [_ H1]]. apply bind_Ok in H1. destruct H1 as [sp' [_ H1]].
    destruct (sp_status sp') as [[|]|].
    - apply bind_Ok in H1. destruct H1 as [cats' [Hc H1]]. injection H1; intros <- _. eapply RB; eassumption.
    - injection H1; intros <- _. assumption.
    - apply bind_Ok in H1. destruct H1 as [cats' [Hc H1]]. injection H1; intros <- _. eapply RB; eassumption. }
  destruct b; [injection H; intros <-; assumption|]. eapply IH; eassumption.
Qed.

Theorem int_auction_unit : forall M fuel m st counts t rs p0, new_int_tree (clone_market m) counts st = Ok t ->
  unit_counts counts t -> distinct_categories t -> tchildren t <> [] -> recipes (length m) t = Ok rs ->
  int_initial_prices rs (- M) = Ok p0 -> length p0 = length m ->
  match int_auction M fuel m st counts, tree_auction M p0 fuel m st with
  | Ok r, Ok r' => same_trade r r'
  | Raise e, Raise e' => e = e'
  | Timeout, Timeout => True
  | _, _ => False
  end.
Proof.
  intros M fuel m st counts t rs p0 HT HU HD HC HR HP HL.
  assert (HT' := int_tree_binary _ _ _ _ HT). assert (CL : length (clone_market m) = length m) by (unfold clone_market; apply map_length).
  assert (HRng := new_tree_indices _ _ _ HT'). rewrite CL in HRng.
  unfold int_auction, tree_auction. rewrite HT, HT'. cbn [bind]. rewrite CL.
  rewrite int_recipes_unit; [|assumption|assumption|intros; eapply int_tree_counts; eassumption].
  rewrite HR. cbn [bind].
  destruct (recipes_spec (length m) t HRng) as (rs' & E & F). rewrite HR in E. injection E; intros <-. clear E.
  assert (SU : setup (length m) t rs) by (split; assumption).
  assert (OT : exists o, tree_optimal_trade (clone_market m) t = Ok o).
  { unfold tree_optimal_trade. destruct (tchildren t); [congruence|]. eexists. reflexivity. }
  destruct OT as [o ->]. cbn [bind].
  assert (SB := setup_binary _ _ _ SU). assert (SN := setup_nonempty _ _ _ SU). rewrite Forall_forall in SB.
  destruct rs as [|r0 rs]; [congruence|]. unfold new_int_sim_prices, new_sim_prices.
  assert (AL : forallb (fun r => (length r =? length r0)%nat) (r0 :: rs) = true).
  { apply forallb_forall. intros r Hr. apply Nat.eqb_eq. destruct (SB r Hr) as [A _]. destruct (SB r0 (or_introl eq_refl)) as [B _]. congruence. }
  rewrite AL, HP. cbn [bind default_counts].
  assert (R0 : length r0 = length m) by (apply (SB r0 (or_introl eq_refl))).
  set (s0 := (clone_market m, mkSP (r0 :: rs) (new_price_vector_list r0 p0) None) : tree_state).
  assert (LS : lift_state (length m) s0 =
    (clone_market m, mkISP (r0 :: rs) (repeat 1%nat (length r0)) (new_int_vector_list r0 p0 (repeat 1%nat (length r0))) None)).
  { unfold lift_state, s0, lift, new_int_vector_list, ones. cbn [fst snd sp_recipes sp_vector sp_status new_price_vector_list pv_recipe pv_prices pv_status].
    rewrite R0. f_equal. f_equal. f_equal. unfold default_counts. destruct (length m) eqn:Em; reflexivity. }
  change (list category * int_sim_prices)%type with int_state in LS. rewrite <- LS.
  assert (SH : shape (length m) (r0 :: rs) s0).
  { split; [exact CL|exact HL|reflexivity|exact R0]. }
  rewrite (int_loop_unit M (length m) counts t (r0 :: rs) SU HD HU fuel s0 SH).
  fold s0. destruct (tree_loop M fuel t s0) as [s| |] eqn:EL; [|reflexivity|exact I]. cbn [rmap bind].
  assert (SH' : length (map_category_index_to_price (snd s)) = length m).
  { revert EL SH. generalize s0. clear - SU. induction fuel as [|fuel IH]; intros s1 H SH; [discriminate|]. cbn [tree_loop] in H.
    apply bind_Ok in H. destruct H as [[b s2] [H1 H]]. cbn [fst snd] in H. apply (shape_step _ _ _ _ _ _ _ SU SH) in H1.
    destruct b; [injection H; intros <-; apply H1|eapply IH; eassumption]. }
  assert (SS : sorted_cats (fst s)) by (eapply loop_sorted; [exact EL|apply clone_sorted]).
  change (fst (lift_state (length m) s)) with (fst s).
  change (iv_prices (isp_vector (snd (lift_state (length m) s)))) with (map_category_index_to_price (snd s)).
  destruct (new_trade_unit (fst s) counts t (map_category_index_to_price (snd s)) SS HU) as (r & r' & -> & -> & X).
  - rewrite SH'. exact HRng.
  - exact X.
Qed.
