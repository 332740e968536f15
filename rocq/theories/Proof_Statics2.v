(** * Better markets have better optimal trades (C96): recipe trees *)

From Coq Require Import String List Arith Lia QArith Lqa Permutation Sorted Bool.
From Verif Require Import Base Model_Agents Model_Trade Model_Prices Model_Market Model_RecipeTree Model_IntTree
  Spec_Market Spec_RecipeTree Spec_Ascending Spec_Statics Spec_Int Proof_Market Proof_Strategy Proof_Tree Proof_Tree2 Proof_Tree3 Proof_TA4
  Proof_Statics Proof_Int1 Proof_Int2.
Import ListNotations.
Open Scope Q_scope.

(** ** Combined values *)

Lemma combined_mono : forall cats cats' t, (forall i, pw (cvalues (cat_at cats i)) (cvalues (cat_at cats' i))) ->
  pw (combined_values cats t) (combined_values cats' t).
Proof.
  intros cats cats' t HP. induction t as [i ch IH] using rtree_ind'. destruct (list_eq_nil_dec ch) as [->|N]; [apply HP|].
  rewrite !combined_node by assumption. apply zip_add_pw; [apply HP|].
  apply dom_pw; [apply sort_desc_desc|apply sort_desc_desc|]. intros x.
  rewrite (at_least_perm x _ _ (sort_desc_perm _)), (at_least_perm x _ _ (sort_desc_perm (concat (map (combined_values cats') ch)))).
  apply dom_concat. intros c Hc. apply pw_dom. rewrite Forall_forall in IH. apply IH. assumption.
Qed.

Lemma pw_filter : forall l l', desc l -> desc l' -> pw l l' ->
  (length (filter (fun v => Qle_bool 0 v) l) <= length (filter (fun v => Qle_bool 0 v) l'))%nat
  /\ Qsum (filter (fun v => Qle_bool 0 v) l) <= Qsum (filter (fun v => Qle_bool 0 v) l').
Proof.
  induction l as [|a l IH]; intros l' D D' H.
  - simpl. split; [lia|]. apply Qsum_nonneg. rewrite Forall_forall. intros x Hx. apply filter_In in Hx.
    destruct Hx as [_ Hx]. apply Qle_bool_iff in Hx. assumption.
  - destruct l' as [|a' l']; [destruct H as [H _]; simpl in H; lia|].
    apply pw_cons in H. destruct H as [Ha H]. apply desc_inv in D. apply desc_inv in D'.
    destruct (IH l' ltac:(tauto) ltac:(tauto) H) as [X Y]. cbn [filter].
    destruct (Qle_bool_reflect 0 a); destruct (Qle_bool_reflect 0 a'); cbn [length]; rewrite ?Qsum_cons; split; try lia; try lra.
Qed.

Lemma improves_at : forall cats cats' i, improves cats cats' -> sorted_cats cats -> sorted_cats cats' ->
  pw (cvalues (cat_at cats i)) (cvalues (cat_at cats' i)).
Proof.
  intros cats cats' i H. revert i. induction H as [|c c' m m' Hc H IH]; intros i S S'.
  - apply pw_refl.
  - inversion S; subst. inversion S'; subst. destruct i; [|apply IH; assumption].
    apply improves_pw in Hc. rewrite !sort_desc_id in Hc by assumption. exact Hc.
Qed.

Lemma sorted_at : forall cats i, sorted_cats cats -> desc (cvalues (cat_at cats i)).
Proof.
  intros cats i H. unfold cat_at. destruct (nth_in_or_default i cats (mkCat "" [])) as [X|X].
  - unfold sorted_cats in H. rewrite Forall_forall in H. apply H. assumption.
  - rewrite X. constructor.
Qed.

Theorem tree_improves : forall cats cats' t, improves cats cats' -> sorted_cats cats -> sorted_cats cats' ->
  optimal_trade_GFT cats t <= optimal_trade_GFT cats' t
  /\ (length (filter (fun v => Qle_bool 0 v) (combined_values cats t))
      <= length (filter (fun v => Qle_bool 0 v) (combined_values cats' t)))%nat.
Proof.
  intros cats cats' t H S S'.
  destruct (pw_filter (combined_values cats t) (combined_values cats' t)) as [X Y].
  - apply combined_desc. intros i. apply sorted_at; assumption.
  - apply combined_desc. intros i. apply sorted_at; assumption.
  - apply combined_mono. intros i. apply improves_at; assumption.
  - split; assumption.
Qed.


Theorem tree_trade_improves : forall cats cats' t opt n g opt' n' g', improves cats cats' -> sorted_cats cats -> sorted_cats cats' ->
  tree_optimal_trade cats t = Ok (opt, n, g) -> tree_optimal_trade cats' t = Ok (opt', n', g') ->
  (n <= n')%nat /\ g <= g'.
Proof.
  intros cats cats' t opt n g opt' n' g' H S S' E E'. destruct (tree_improves cats cats' t H S S') as [X Y].
  destruct (tree_optimal_trade_spec _ _ _ _ _ E) as (_ & A2 & A3). destruct (tree_optimal_trade_spec _ _ _ _ _ E') as (_ & B2 & B3).
  rewrite (Forall2_length _ _ _ _ _ (opt_combined cats t)), (Forall2_length _ _ _ _ _ (opt_combined cats' t)) in Y.
  split; [lia|]. rewrite A3, B3. assumption.
Qed.

(** ** Raising values *)

Lemma zip_add_sum : forall xs ys, Qsum (zip_add xs ys) ==
  Qsum (firstn (Nat.min (length xs) (length ys)) xs) + Qsum (firstn (Nat.min (length xs) (length ys)) ys).
Proof.
  induction xs as [|x xs IH]; intros [|y ys]; cbn [zip_add length Nat.min firstn]; try (simpl; lra).
  rewrite !Qsum_cons, IH. ring.
Qed.

Lemma zip_add_len : forall xs ys, length (zip_add xs ys) = Nat.min (length xs) (length ys).
Proof. induction xs; intros [|y ys]; simpl; auto. Qed.

Definition raise_at (cats cats' : list category) (i : nat) : Q :=
  Qsum (cvalues (cat_at cats' i)) - Qsum (cvalues (cat_at cats i)).

Lemma concat_map_raise : forall cats cats' ch, 
  Forall (fun t => length (combined_values cats t) = length (combined_values cats' t)
    /\ Qsum (combined_values cats' t) - Qsum (combined_values cats t) <= Qsum (map (raise_at cats cats') (node_indices t))) ch ->
  length (concat (map (combined_values cats) ch)) = length (concat (map (combined_values cats') ch))
  /\ Qsum (concat (map (combined_values cats') ch)) - Qsum (concat (map (combined_values cats) ch))
     <= Qsum (map (raise_at cats cats') (concat (map node_indices ch))).
Proof.
  intros cats cats' ch H. induction H as [|t ch [H1 H2] H [IH1 IH2]]; [simpl; split; [reflexivity|lra]|].
  cbn [map concat]. rewrite !app_length, map_app, !Qsum_app. split; [lia|lra].
Qed.

Lemma combined_raise : forall cats cats' t,
  (forall i, pw (cvalues (cat_at cats i)) (cvalues (cat_at cats' i)) /\ length (cvalues (cat_at cats i)) = length (cvalues (cat_at cats' i))) ->
  length (combined_values cats t) = length (combined_values cats' t)
  /\ Qsum (combined_values cats' t) - Qsum (combined_values cats t) <= Qsum (map (raise_at cats cats') (node_indices t)).
Proof.
  intros cats cats' t HP. induction t as [i ch IH] using rtree_ind'. destruct (HP i) as [P1 P2].
  destruct (list_eq_nil_dec ch) as [->|N].
  - split; [exact P2|]. simpl. unfold raise_at. lra.
  - apply concat_map_raise in IH. destruct IH as [I1 I2].
    rewrite !combined_node by assumption. rewrite !zip_add_len, !sort_desc_length, I1, P2. split; [reflexivity|].
    rewrite !zip_add_sum, !sort_desc_length, I1, P2.
    assert (HS : pw (sort_desc (concat (map (combined_values cats) ch))) (sort_desc (concat (map (combined_values cats') ch)))).
    { apply dom_pw; [apply sort_desc_desc|apply sort_desc_desc|]. intros x.
      rewrite (at_least_perm x _ _ (sort_desc_perm _)), (at_least_perm x _ _ (sort_desc_perm (concat (map (combined_values cats') ch)))).
      apply dom_concat. intros c Hc. apply pw_dom. apply combined_mono. intros j. apply HP. }
    set (n := Nat.min _ _).
    assert (A := firstn_raise n _ _ P1 P2).
    assert (B := firstn_raise n _ _ HS ltac:(rewrite !sort_desc_length; exact I1)).
    rewrite (Qsum_perm _ _ (sort_desc_perm (concat (map (combined_values cats) ch)))),
      (Qsum_perm _ _ (sort_desc_perm (concat (map (combined_values cats') ch)))) in B.
    cbn [node_indices map]. rewrite Qsum_cons. unfold raise_at at 1. lra.
Qed.

Lemma filter_raise : forall l l', pw l l' -> length l = length l' ->
  Qsum (filter (fun v => Qle_bool 0 v) l') - Qsum (filter (fun v => Qle_bool 0 v) l) <= Qsum l' - Qsum l.
Proof.
  induction l as [|a l IH]; intros [|a' l'] H L; try discriminate L; [simpl; lra|].
  apply pw_cons in H. destruct H as [Ha H]. injection L as L. assert (X := IH _ H L). cbn [filter].
  destruct (Qle_bool_reflect 0 a); destruct (Qle_bool_reflect 0 a'); rewrite ?Qsum_cons; lra.
Qed.

Lemma Qsum_filter_le : forall (f : nat -> Q) (p : nat -> bool) l, (forall i, 0 <= f i) -> Qsum (map f (filter p l)) <= Qsum (map f l).
Proof.
  intros f p l H. induction l as [|a l IH]; [simpl; lra|]. cbn [filter]. assert (X := H a).
  destruct (p a); cbn [map]; rewrite ?Qsum_cons; lra.
Qed.

Lemma Qsum_outside : forall (f : nat -> Q) n l, (forall i, (n <= i)%nat -> f i == 0) ->
  Qsum (map f l) == Qsum (map f (filter (fun i => (i <? n)%nat) l)).
Proof.
  intros f n l H. induction l as [|a l IH]; [reflexivity|]. cbn [filter]. destruct (Nat.ltb_spec a n) as [L|L]; cbn [map]; rewrite ?Qsum_cons, IH.
  - reflexivity.
  - rewrite (H a L). ring.
Qed.

Lemma NoDup_sum : forall (f : nat -> Q) n l, NoDup l -> (forall i, 0 <= f i) -> (forall i, (n <= i)%nat -> f i == 0) ->
  Qsum (map f l) <= Qsum (map f (seq 0 n)).
Proof.
  intros f n l ND H0 HZ. rewrite (Qsum_outside f n l HZ).
  assert (P : Permutation (filter (fun i => (i <? n)%nat) l) (filter (fun i => existsb (Nat.eqb i) l) (seq 0 n))).
  { apply NoDup_Permutation; [apply NoDup_filter; assumption|apply NoDup_filter, seq_NoDup|].
    intros x. rewrite !filter_In, in_seq, Nat.ltb_lt, existsb_exists. split.
    - intros [A B]. split; [lia|]. exists x. split; [assumption|apply Nat.eqb_refl].
    - intros [A (y & B & C)]. apply Nat.eqb_eq in C. subst y. split; [assumption|lia]. }
  rewrite (Qsum_perm _ _ (Permutation_map f P)). apply Qsum_filter_le. assumption.
Qed.

Lemma raised_at : forall cats cats' i, raised cats cats' -> sorted_cats cats -> sorted_cats cats' ->
  pw (cvalues (cat_at cats i)) (cvalues (cat_at cats' i)) /\ length (cvalues (cat_at cats i)) = length (cvalues (cat_at cats' i)).
Proof.
  intros cats cats' i H S S'. split; [apply improves_at; try assumption; apply raised_market_improves; assumption|].
  clear S S'. revert i. induction H as [|c c' m m' Hc H IH]; intros i; [reflexivity|]. destruct i; [|apply IH].
  unfold cat_at. simpl. destruct Hc as (kept & HP & HF). rewrite (Permutation_length HP). eapply Forall2_len; eassumption.
Qed.

Lemma total_raise : forall cats cats', length cats = length cats' ->
  Qsum (map (raise_at cats cats') (seq 0 (length cats))) == total_value cats' - total_value cats.
Proof.
  induction cats as [|c m IH]; intros [|c' m'] L; try discriminate; [reflexivity|]. injection L as L.
  cbn [length seq map]. rewrite <- seq_shift, map_map. unfold total_value in *. cbn [map]. rewrite !Qsum_cons.
  assert (X := IH m' L). unfold raise_at, cat_at in *. cbn [nth]. rewrite X. ring.
Qed.

Theorem tree_raised : forall cats cats' t, raised cats cats' -> sorted_cats cats -> sorted_cats cats' -> distinct_categories t ->
  optimal_trade_GFT cats' t <= optimal_trade_GFT cats t + (total_value cats' - total_value cats).
Proof.
  intros cats cats' t H S S' HD. assert (HP := fun i => raised_at cats cats' i H S S').
  destruct (combined_raise cats cats' t HP) as [L X].
  assert (M := combined_mono cats cats' t (fun i => proj1 (HP i))).
  assert (Y := filter_raise _ _ M L). unfold optimal_trade_GFT.
  assert (LC := Forall2_len _ _ _ _ _ H).
  assert (Z := NoDup_sum (raise_at cats cats') (length cats) (node_indices t) HD).
  rewrite total_raise in Z by assumption.
  assert (Z' : Qsum (map (raise_at cats cats') (node_indices t)) <= total_value cats' - total_value cats).
  { apply Z.
    - intros i. unfold raise_at. destruct (HP i) as [A B]. assert (Q := pw_sum _ _ A B). lra.
    - intros i Hi. unfold raise_at, cat_at. rewrite !nth_overflow by lia. simpl. lra. }
  lra.
Qed.

(** ** Integer trees *)

Lemma groups_pw : forall c, (0 < c)%nat -> forall l l', pw l l' -> pw (map Qsum (groups c l)) (map Qsum (groups c l')).
Proof.
  intros c Hc l. induction l as [l H|l H IH] using (groups_ind c Hc); intros l' HP.
  - rewrite groups_short by assumption. split; simpl; [lia|intros; lia].
  - assert (L := proj1 HP). rewrite (groups_long c l), (groups_long c l') by lia. cbn [map].
    destruct (IH _ (pw_skipn c _ _ HP)) as [A B]. split; [simpl in *; lia|].
    intros [|k] Hk; cbn [nth].
    + apply pw_sum; [apply pw_firstn; assumption|]. rewrite !firstn_length. lia.
    + apply B. simpl in Hk. lia.
Qed.

Lemma improves_cat_at : forall cats cats' i, improves cats cats' ->
  pw (sort_desc (cvalues (cat_at cats i))) (sort_desc (cvalues (cat_at cats' i))).
Proof.
  intros cats cats' i H. revert i. induction H as [|c c' m m' Hc H IH]; intros i; [apply pw_refl|].
  destruct i; [|apply IH]. apply improves_pw. exact Hc.
Qed.

Lemma combined_mono_in : forall cats cats' t,
  (forall i, In i (node_indices t) -> pw (cvalues (cat_at cats i)) (cvalues (cat_at cats' i))) ->
  pw (combined_values cats t) (combined_values cats' t).
Proof.
  intros cats cats' t. induction t as [i ch IH] using rtree_ind'. intros HP.
  destruct (list_eq_nil_dec ch) as [->|N]; [apply HP; left; reflexivity|].
  rewrite !combined_node by assumption. apply zip_add_pw; [apply HP; left; reflexivity|].
  apply dom_pw; [apply sort_desc_desc|apply sort_desc_desc|]. intros x.
  rewrite (at_least_perm x _ _ (sort_desc_perm _)), (at_least_perm x _ _ (sort_desc_perm (concat (map (combined_values cats') ch)))).
  apply dom_concat. intros c Hc. apply pw_dom. rewrite Forall_forall in IH. apply IH; [assumption|].
  intros j Hj. apply HP. right. apply in_concat. exists (node_indices c). split; [apply in_map|]; assumption.
Qed.

Theorem int_improves : forall cats cats' counts t opt n g opt' n' g', improves cats cats' -> positive_counts counts t ->
  int_optimal_trade cats counts t = (opt, n, g) -> int_optimal_trade cats' counts t = (opt', n', g') ->
  (n <= n')%nat /\ g <= g' /\ int_optimal_trade_GFT cats counts t <= int_optimal_trade_GFT cats' counts t.
Proof.
  intros cats cats' counts t opt n g opt' n' g' H HP E E'.
  assert (HS : forall cc i, desc (cvalues (cat_at (gcats cc counts) i))) by (intros; apply sorted_at, gcats_sorted).
  destruct (pw_filter (combined_values (gcats cats counts) t) (combined_values (gcats cats' counts) t)) as [X Y].
  - apply combined_desc. apply HS.
  - apply combined_desc. apply HS.
  - apply combined_mono_in. intros i Hi. rewrite !gcats_at. unfold value_groups. apply groups_pw; [apply HP; assumption|].
    apply improves_cat_at. assumption.
  - rewrite (Forall2_length _ _ _ _ _ (iopt_rel cats counts t)), (Forall2_length _ _ _ _ _ (iopt_rel cats' counts t)) in X.
    assert (G : int_gain (iopt cats counts t) <= int_gain (iopt cats' counts t)).
    { rewrite !iopt_gain. exact Y. }
    assert (K : forall cc o k w, int_optimal_trade cc counts t = (o, k, w) ->
      k = length (iopt cc counts t) /\ w == int_gain (iopt cc counts t)).
    { intros cc o k w Q. unfold int_optimal_trade in Q. injection Q; intros E3 E2 E1.
      assert (O : o = map (fun d : int_deal => concat (snd d)) (iopt cc counts t)).
      { rewrite <- E1, detailed_combined, combined_imaster by assumption. rewrite map_filter. reflexivity. }
      split; [rewrite <- E2, E1, O, map_length; reflexivity|]. rewrite <- E3, Qsum_concat, E1, O, map_map. reflexivity. }
    destruct (K _ _ _ _ E) as [A B]. destruct (K _ _ _ _ E') as [A' B'].
    split; [lia|]. split; [rewrite B, B'; assumption|]. rewrite !int_gft_iopt by assumption. assumption.
Qed.

(** ** Raising values in integer trees *)

Lemma value_groups_zero : forall cur l, groups_from 0 cur l = [].
Proof.
  intros cur l. revert cur. induction l as [|v l IH]; intros cur; [reflexivity|]. cbn [groups_from]. rewrite app_length.
  replace (length cur + length [v] =? 0)%nat with false; [apply IH|]. symmetry. apply Nat.eqb_neq. simpl. lia.
Qed.

Lemma Qsum_map_concat : forall (g : list (list Q)), Qsum (map Qsum g) == Qsum (concat g).
Proof. induction g as [|x g IH]; [reflexivity|]. cbn [map concat]. rewrite Qsum_cons, Qsum_app, IH. reflexivity. Qed.

Lemma groups_sum : forall c l, (0 < c)%nat -> Qsum (map Qsum (groups c l)) == Qsum (firstn (length l / c * c) l).
Proof.
  intros c l Hc. rewrite Qsum_map_concat. rewrite <- (groups_length c l Hc).
  rewrite <- (groups_concat c l (length (groups c l)) Hc) by lia. rewrite firstn_all. reflexivity.
Qed.

Lemma raised_cat_at : forall cats cats' i, raised cats cats' ->
  pw (sort_desc (cvalues (cat_at cats i))) (sort_desc (cvalues (cat_at cats' i)))
  /\ length (sort_desc (cvalues (cat_at cats i))) = length (sort_desc (cvalues (cat_at cats' i))).
Proof.
  intros cats cats' i H. split; [apply improves_cat_at, raised_market_improves; assumption|]. rewrite !sort_desc_length.
  revert i. induction H as [|c c' m m' Hc H IH]; intros i; [reflexivity|]. destruct i; [|apply IH].
  unfold cat_at. simpl. destruct Hc as (kept & HP & HF). rewrite (Permutation_length HP). eapply Forall2_len; eassumption.
Qed.

Lemma gcats_raised : forall cats cats' counts i, raised cats cats' ->
  pw (cvalues (cat_at (gcats cats counts) i)) (cvalues (cat_at (gcats cats' counts) i))
  /\ length (cvalues (cat_at (gcats cats counts) i)) = length (cvalues (cat_at (gcats cats' counts) i))
  /\ raise_at (gcats cats counts) (gcats cats' counts) i <= raise_at cats cats' i.
Proof.
  intros cats cats' counts i H. destruct (raised_cat_at cats cats' i H) as [P L]. unfold raise_at. rewrite !gcats_at.
  unfold value_groups. assert (S := pw_sum _ _ P L).
  assert (T : Qsum (sort_desc (cvalues (cat_at cats' i))) - Qsum (sort_desc (cvalues (cat_at cats i)))
    == Qsum (cvalues (cat_at cats' i)) - Qsum (cvalues (cat_at cats i))).
  { rewrite (Qsum_perm _ _ (sort_desc_perm (cvalues (cat_at cats i)))), (Qsum_perm _ _ (sort_desc_perm (cvalues (cat_at cats' i)))). reflexivity. }
  destruct (Nat.eq_dec (count_at counts i) 0) as [Z|Z].
  - rewrite Z, !value_groups_zero. split; [apply pw_refl|]. split; [reflexivity|]. simpl. lra.
  - assert (HC : (0 < count_at counts i)%nat) by lia. split; [apply groups_pw; assumption|].
    split; [rewrite !map_length; fold (groups (count_at counts i) (sort_desc (cvalues (cat_at cats i)))); fold (groups (count_at counts i) (sort_desc (cvalues (cat_at cats' i))));
      rewrite !groups_length, L by assumption; reflexivity|].
    fold (groups (count_at counts i) (sort_desc (cvalues (cat_at cats i)))). fold (groups (count_at counts i) (sort_desc (cvalues (cat_at cats' i)))).
    rewrite !groups_sum, <- L by assumption.
    assert (X := firstn_raise (length (sort_desc (cvalues (cat_at cats i))) / count_at counts i * count_at counts i) _ _ P L). lra.
Qed.

Theorem int_raised : forall cats cats' counts t, raised cats cats' -> positive_counts counts t -> distinct_categories t ->
  int_optimal_trade_GFT cats' counts t <= int_optimal_trade_GFT cats counts t + (total_value cats' - total_value cats).
Proof.
  intros cats cats' counts t H HP HD. assert (G := fun i => gcats_raised cats cats' counts i H).
  destruct (combined_raise (gcats cats counts) (gcats cats' counts) t (fun i => conj (proj1 (G i)) (proj1 (proj2 (G i))))) as [L X].
  assert (M := combined_mono _ _ t (fun i => proj1 (G i))).
  assert (Y := filter_raise _ _ M L). rewrite !int_gft_iopt, !iopt_gain by assumption. unfold optimal_trade_GFT.
  assert (W : Qsum (map (raise_at (gcats cats counts) (gcats cats' counts)) (node_indices t))
              <= Qsum (map (raise_at cats cats') (node_indices t))).
  { generalize (node_indices t). induction l as [|i l IH]; [simpl; lra|]. cbn [map]. rewrite !Qsum_cons.
    destruct (G i) as (_ & _ & G3). lra. }
  assert (LC := Forall2_len _ _ _ _ _ H).
  assert (Z := NoDup_sum (raise_at cats cats') (length cats) (node_indices t) HD).
  rewrite total_raise in Z by assumption.
  assert (Z' : Qsum (map (raise_at cats cats') (node_indices t)) <= total_value cats' - total_value cats).
  { apply Z.
    - intros i. unfold raise_at. destruct (raised_cat_at cats cats' i H) as [A B]. assert (Q := pw_sum _ _ A B).
      rewrite (Qsum_perm _ _ (sort_desc_perm (cvalues (cat_at cats i)))), (Qsum_perm _ _ (sort_desc_perm (cvalues (cat_at cats' i)))) in Q. lra.
    - intros i Hi. unfold raise_at, cat_at. rewrite !nth_overflow by lia. simpl. lra. }
  lra.
Qed.
