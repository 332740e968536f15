(** * Trade reduction: refinement to a walk over the numbers of agents left *)

From Coq Require Import String List Arith Lia QArith Lqa Permutation Sorted Bool.
From Verif Require Import Base Model_Agents Model_Trade Model_Prices Model_Market Model_Ascending Model_TradeReduction
  Spec_Market Spec_Trade Spec_Ascending Proof_Market Proof_Trade Proof_Prices Proof_Ascending
  Proof_Ascending2 Proof_Ascending3 Proof_Ascending4 Proof_Deals.
Import ListNotations.
Open Scope Q_scope.

(** ** One pivot, given its category and value *)

Definition tr_keep' (s : tr_state) (i : nat) (v : Q) : result tr_state :=
  t' <- append_trader (tr_traders s) i v ;; Ok (mkTR (tr_remaining s) t' (tr_prices s)).

Definition tr_step (recipe : list nat) (z : bool) (s : tr_state) (p : nat * Q) : result tr_state :=
  let (i, v) := p in
  match tr_prices s with
  | Some _ => tr_keep' s i v
  | None =>
      best <- best_containing_PS (tr_remaining s) i v ;;
      let g := dot best recipe in
      if Qlt_bool 0 g || (z && Qeq_bool g 0) then
        prices <- calculate_prices i v best recipe ;;
        tr_keep' (mkTR (tr_remaining s) (tr_traders s) (Some prices)) i v
      else
        rem' <- append_trader (tr_remaining s) i v ;;
        Ok (mkTR rem' (tr_traders s) (tr_prices s))
  end.

Fixpoint pivots_from (i : nat) (ds : deal) : list (nat * Q) :=
  match ds with
  | [] => []
  | d :: ds' => map (fun v => (i, v)) (rev d) ++ pivots_from (S i) ds'
  end.

Lemma fold_result_app : forall A S (f : S -> A -> result S) l1 l2 s,
  fold_result f (l1 ++ l2) s = bind (fold_result f l1 s) (fun s' => fold_result f l2 s').
Proof.
  induction l1; intros l2 s; simpl; [reflexivity|]. destruct (f s a); simpl; [apply IHl1|reflexivity|reflexivity].
Qed.

Lemma fold_result_rel : forall A B S (f : S -> A -> result S) (g : S -> B -> result S) l l',
  Forall2 (fun a b => forall s, f s a = g s b) l l' -> forall s, fold_result f l s = fold_result g l' s.
Proof.
  induction 1; intros s; simpl; [reflexivity|]. rewrite H. destruct (g s y); simpl; [apply IHForall2|reflexivity|reflexivity].
Qed.

Lemma convert_at : forall rpre n a r rs x, (x < r)%nat ->
  convert_from n a (rpre ++ r :: rs) (nsum rpre + x) = (a + length rpre)%nat.
Proof.
  induction rpre as [|r0 rpre IH]; intros n a r rs x Hx; simpl.
  - destruct (Nat.ltb_spec x r); [lia|lia].
  - destruct (Nat.ltb_spec (r0 + nsum rpre + x) r0); [lia|].
    replace (r0 + nsum rpre + x - r0)%nat with (nsum rpre + x)%nat by lia.
    rewrite IH by assumption. lia.
Qed.

Lemma pivot_category_at : forall rpre a r rs x, (x < r)%nat ->
  nth_error (pivot_categories_from a (rpre ++ r :: rs)) (nsum rpre + x) = Some (a + length rpre)%nat.
Proof.
  induction rpre as [|r0 rpre IH]; intros a r rs x Hx; simpl.
  - rewrite nth_error_app1 by (rewrite repeat_length; assumption). rewrite Nat.add_0_r.
    apply nth_error_repeat. assumption.
  - rewrite nth_error_app2 by (rewrite repeat_length; lia). rewrite repeat_length.
    replace (r0 + nsum rpre + x - r0)%nat with (nsum rpre + x)%nat by lia.
    rewrite IH by assumption. f_equal. lia.
Qed.

Lemma tr_pivot_step : forall recipe z ps p i v, nth_error ps p = Some v ->
  nth_error (pivot_categories recipe) p = Some i -> convert_category_index recipe p = i ->
  forall s, tr_pivot recipe z ps s p = tr_step recipe z s (i, v).
Proof.
  intros recipe z ps p i v Hv Hc Hx s. unfold tr_pivot, tr_step.
  assert (K : forall s', tr_keep recipe s' p v = tr_keep' s' i v).
  { intros s'. unfold tr_keep, tr_keep'. unfold get at 1. rewrite Hc. reflexivity. }
  unfold get at 1. rewrite Hv. cbn [bind]. rewrite Hx.
  destruct (tr_prices s); [apply K|]. destruct (best_containing_PS (tr_remaining s) i v) as [best| |]; cbn [bind]; try reflexivity.
  destruct (Qlt_bool 0 (dot best recipe) || (z && Qeq_bool (dot best recipe) 0)); [|reflexivity].
  destruct (calculate_prices i v best recipe); cbn [bind]; try reflexivity. apply K.
Qed.

Lemma Forall2_map2 : forall A B C D (P : C -> D -> Prop) (f : A -> C) (g : B -> D) l l',
  Forall2 (fun a b => P (f a) (g b)) l l' -> Forall2 P (map f l) (map g l').
Proof. induction 1; simpl; constructor; auto. Qed.

Lemma Forall2_rev : forall A B (P : A -> B -> Prop) l l', Forall2 P l l' -> Forall2 P (rev l) (rev l').
Proof. induction 1; simpl; [constructor|]. apply Forall2_app; [assumption|constructor; [assumption|constructor]]. Qed.

Lemma Forall2_seq_nth : forall A (P : nat -> A -> Prop) (l : list A) a,
  (forall x y, nth_error l x = Some y -> P (a + x)%nat y) -> Forall2 P (seq a (length l)) l.
Proof.
  intros A P l. induction l as [|y l IH]; intros a H; simpl; constructor.
  - rewrite <- (Nat.add_0_r a). apply H. reflexivity.
  - apply IH. intros x w Hx. replace (S a + x)%nat with (a + S x)%nat by lia. apply H. assumption.
Qed.

Lemma fold_pivots : forall z recipe rpre ds pre s, length pre = nsum rpre ->
  Forall2 (fun r (d : list Q) => length d = r) recipe ds ->
  fold_result (tr_pivot (rpre ++ recipe) z (pre ++ concat ds)) (pivot_indexes_from (nsum rpre) recipe) s
  = fold_result (tr_step (rpre ++ recipe) z) (pivots_from (length rpre) ds) s.
Proof.
  intros z. induction recipe as [|r recipe IH]; intros rpre ds pre s Hpre Hds; inversion Hds; subst.
  - reflexivity.
  - rename y into d. simpl pivot_indexes_from. simpl pivots_from. rewrite !fold_result_app.
    assert (E : forall s0, fold_result (tr_pivot (rpre ++ length d :: recipe) z (pre ++ concat (d :: l')))
        (map (fun i => (nsum rpre + i)%nat) (rev (seq 0 (length d)))) s0
      = fold_result (tr_step (rpre ++ length d :: recipe) z) (map (fun v => (length rpre, v)) (rev d)) s0).
    { intros s0. apply fold_result_rel. apply Forall2_map2. apply Forall2_rev.
      apply Forall2_seq_nth. intros x y Hx. simpl. assert (Hlt : (x < length d)%nat) by (apply nth_error_Some; congruence).
      apply tr_pivot_step.
      - rewrite nth_error_app2 by lia. replace (nsum rpre + x - length pre)%nat with x by lia.
        simpl. rewrite nth_error_app1 by assumption. assumption.
      - unfold pivot_categories. rewrite pivot_category_at by assumption. reflexivity.
      - unfold convert_category_index. rewrite convert_at by assumption. reflexivity. }
    rewrite E. destruct (fold_result (tr_step (rpre ++ length d :: recipe) z) (map (fun v => (length rpre, v)) (rev d)) s) as [s1| |];
      cbn [bind]; try reflexivity.
    replace (rpre ++ length d :: recipe) with ((rpre ++ [length d]) ++ recipe) by (rewrite <- app_assoc; reflexivity).
    replace (nsum rpre + length d)%nat with (nsum (rpre ++ [length d])) by (rewrite nsum_app; simpl; lia).
    replace (S (length rpre)) with (length (rpre ++ [length d])) by (rewrite app_length; simpl; lia).
    replace (pre ++ concat (d :: l')) with ((pre ++ d) ++ concat l') by (simpl; rewrite <- app_assoc; reflexivity).
    apply IH; [rewrite app_length, nsum_app; simpl; lia|assumption].
Qed.

Lemma tr_ps_pivots : forall recipe z ds s, Forall2 (fun r (d : list Q) => length d = r) recipe ds ->
  tr_ps recipe z s (concat ds) = fold_result (tr_step recipe z) (pivots_from 0 ds) s.
Proof. intros recipe z ds s H. exact (fold_pivots z recipe [] ds [] s eq_refl H). Qed.

(** A list that is pointwise equal to a flattened deal is a flattened deal. *)
Lemma unconcat : forall ds0 ps, qeq ps (concat ds0) -> exists ds, ps = concat ds /\ Forall2 qeq ds ds0.
Proof.
  induction ds0 as [|d0 ds0 IH]; intros ps H; simpl in H.
  - inversion H; subst. exists []. split; [reflexivity|constructor].
  - apply Forall2_app_inv_r in H. destruct H as [d [ps' [H1 [H2 ->]]]].
    destruct (IH ps' H2) as [ds [-> Hd]]. exists (d :: ds). split; [reflexivity|constructor; assumption].
Qed.

Definition piv_eq (p q : nat * Q) : Prop := fst p = fst q /\ snd p == snd q.

Lemma pivots_eq : forall ds ds0 i, Forall2 qeq ds ds0 -> Forall2 piv_eq (pivots_from i ds) (pivots_from i ds0).
Proof.
  intros ds ds0 i H. revert i. induction H; intros i; simpl; [constructor|].
  apply Forall2_app; [|apply IHForall2]. apply Forall2_map2. apply Forall2_rev.
  clear - H. induction H; constructor; auto. split; [reflexivity|assumption].
Qed.

Lemma deal_sizes : forall m recipe t ds, length recipe = length m -> enough (S t) m recipe ->
  Forall2 qeq ds (ps_deal m recipe t) -> Forall2 (fun r (d : list Q) => length d = r) recipe ds.
Proof.
  unfold ps_deal. intros m. induction m as [|c m IH]; intros [|r recipe] t ds Hl He H; simpl in *; try discriminate.
  - inversion H; subst. constructor.
  - inversion H as [|d d0 ds' ds0 Hd Hds]; subst. constructor.
    + rewrite (qeq_length _ _ Hd). apply block_length. apply (He 0%nat c r eq_refl eq_refl).
    + apply (IH recipe t ds'); [lia| |assumption]. intros i c' r' H5 H6. apply (He (S i) c' r' H5 H6).
Qed.

(** The whole loop as one fold over the pivots of the blocks. *)
Lemma fold_tr_ps : forall m recipe z, length recipe = length m -> forall ts lps,
  (forall t, In t ts -> enough (S t) m recipe) ->
  Forall2 qeq lps (map (fun t => concat (ps_deal m recipe t)) ts) ->
  exists pl, Forall2 piv_eq pl (concat (map (fun t => pivots_from 0 (ps_deal m recipe t)) ts))
    /\ forall s, fold_result (tr_ps recipe z) lps s = fold_result (tr_step recipe z) pl s.
Proof.
  intros m recipe z Hl ts. induction ts as [|t ts IH]; intros lps He H.
  - inversion H; subst. exists []. split; [constructor|reflexivity].
  - simpl in H. inversion H as [|ps ps0 lps' lps0 Hps Hlps]; subst. destruct (unconcat _ _ Hps) as [ds [-> Hd]].
    assert (Hs : Forall2 (fun r (d : list Q) => length d = r) recipe ds).
    { apply (deal_sizes m recipe t); [assumption|apply He; left; reflexivity|assumption]. }
    destruct (IH lps' ltac:(intros; apply He; right; assumption) Hlps) as [pl' [G1 G2]].
    exists (pivots_from 0 ds ++ pl'). split.
    + simpl. apply Forall2_app; [apply pivots_eq; assumption|assumption].
    + intros s. simpl. rewrite tr_ps_pivots by assumption. rewrite fold_result_app.
      destruct (fold_result (tr_step recipe z) (pivots_from 0 ds) s); cbn [bind]; [apply G2|reflexivity|reflexivity].
Qed.

(** ** The pivots as a stream driven by the numbers of agents left *)

Fixpoint stream (m : market) (o : list nat) (ns : list nat) : list (nat * Q) :=
  match o with
  | [] => []
  | i :: o' => (i, nth (nth i ns 0 - 1)%nat (vals m i) 0) :: stream m o' (dec i ns)
  end.

Fixpoint decs (o : list nat) (ns : list nat) : list nat :=
  match o with [] => ns | i :: o' => decs o' (dec i ns) end.

Lemma stream_app : forall m o1 o2 ns, stream m (o1 ++ o2) ns = stream m o1 ns ++ stream m o2 (decs o1 ns).
Proof. induction o1; intros o2 ns; simpl; [reflexivity|]. rewrite IHo1. reflexivity. Qed.

Lemma decs_app : forall o1 o2 ns, decs (o1 ++ o2) ns = decs o2 (decs o1 ns).
Proof. induction o1; intros; simpl; auto. Qed.

Lemma dec_length : forall i ns, length (dec i ns) = length ns.
Proof. intros. unfold dec. apply set_nth_length. Qed.

Lemma decs_length : forall o ns, length (decs o ns) = length ns.
Proof. induction o; intros; simpl; [reflexivity|]. rewrite IHo. apply dec_length. Qed.

Lemma decs_repeat : forall a i j ns, nth j (decs (repeat i a) ns) 0%nat = (if Nat.eq_dec i j then nth j ns 0 - a else nth j ns 0)%nat.
Proof.
  induction a as [|a IH]; intros i j ns; simpl; [destruct (Nat.eq_dec i j); lia|].
  rewrite IH. destruct (Nat.eq_dec i j) as [->|H].
  - rewrite nth_dec_same. lia.
  - apply nth_dec_other. assumption.
Qed.

Lemma stream_repeat : forall m i a ns, stream m (repeat i a) ns
  = map (fun y => (i, nth (nth i ns 0 - 1 - y)%nat (vals m i) 0)) (seq 0 a).
Proof.
  intros m i a. induction a as [|a IH]; intros ns; simpl; [reflexivity|].
  rewrite IH. rewrite seq_map_shift. f_equal; [f_equal; f_equal; lia|].
  apply map_ext. intros y. rewrite nth_dec_same. f_equal. f_equal. lia.
Qed.

(** Number of pivots of category j that a list of recipe entries starting at category a uses. *)
Lemma decs_pivots : forall recipe a ns j, nth j (decs (pivot_categories_from a recipe) ns) 0%nat
  = (if (a <=? j)%nat then nth j ns 0 - nth (j - a) recipe 0 else nth j ns 0)%nat.
Proof.
  induction recipe as [|r recipe IH]; intros a ns j; simpl.
  - destruct (j - a)%nat; simpl; destruct (a <=? j)%nat; lia.
  - rewrite decs_app, IH, !decs_repeat.
    destruct (Nat.leb_spec (S a) j); destruct (Nat.leb_spec a j); try lia;
    destruct (Nat.eq_dec a j); try lia.
    + replace (j - a)%nat with (S (j - S a)) by lia. reflexivity.
    + subst. rewrite Nat.sub_diag. reflexivity.
Qed.

Lemma rev_seq_nth : forall (f : nat -> Q) r, rev (map f (seq 0 r)) = map (fun y => f (r - 1 - y)%nat) (seq 0 r).
Proof.
  intros f r. apply list_ext_nth with (d := 0).
  - rewrite rev_length, !map_length, !seq_length. reflexivity.
  - intros x Hx. rewrite rev_length, map_length, seq_length in Hx.
    rewrite rev_nth by (rewrite map_length, seq_length; assumption). rewrite map_length, seq_length.
    rewrite !nth_map_seq by lia. f_equal. lia.
Qed.

Lemma block_as_map : forall t v r, (S t * r <= length v)%nat ->
  block t v r = map (fun x => nth (t * r + x) v 0) (seq 0 r).
Proof.
  intros t v r H. apply list_ext_nth with (d := 0).
  - rewrite map_length, seq_length. apply block_length. assumption.
  - intros x Hx. rewrite block_length in Hx by assumption. rewrite block_nth by assumption.
    rewrite nth_map_seq by assumption. reflexivity.
Qed.

Lemma pivots_stream_from : forall mfull recipe (m : market) a t ns, length recipe = length m ->
  (forall j c, nth_error m j = Some c -> vals mfull (a + j) = cvalues c) ->
  (forall j c r, nth_error m j = Some c -> nth_error recipe j = Some r ->
     (S t * r <= csize c)%nat /\ nth (a + j) ns 0%nat = (S t * r)%nat) ->
  stream mfull (pivot_categories_from a recipe) ns = pivots_from a (ps_deal m recipe t).
Proof.
  intros mfull. unfold ps_deal. induction recipe as [|r recipe IH]; intros [|c m] a t ns Hl Hv Hn; simpl in Hl; try discriminate.
  - reflexivity.
  - cbn [pivot_categories_from map2 pivots_from]. rewrite stream_app. f_equal.
    + destruct (Hn 0%nat c r eq_refl eq_refl) as [H1 H2]. rewrite Nat.add_0_r in H2.
      assert (Hv0 := Hv 0%nat c eq_refl). rewrite Nat.add_0_r in Hv0.
      rewrite stream_repeat, Hv0, H2, (block_as_map t (cvalues c) r H1), rev_seq_nth, map_map.
      apply map_ext_in. intros y Hy. apply in_seq in Hy. f_equal. f_equal. simpl. lia.
    + apply IH; [lia| |].
      * intros j c' Hc. replace (S a + j)%nat with (a + S j)%nat by lia. apply Hv. assumption.
      * intros j c' r' Hc Hr. destruct (Hn (S j) c' r' Hc Hr) as [H1 H2]. split; [assumption|].
        rewrite decs_repeat. destruct (Nat.eq_dec a (S a + j)); [lia|].
        replace (S a + j)%nat with (a + S j)%nat by lia. assumption.
Qed.

(** Start of the block walk: u*r_j agents in each category. *)
Definition at_block (u : nat) (recipe : list nat) : list nat := map (fun r => u * r)%nat recipe.

Lemma at_block_nth : forall u recipe j, nth j (at_block u recipe) 0%nat = (u * nth j recipe 0)%nat.
Proof.
  intros. unfold at_block. replace 0%nat with (u * 0)%nat at 1 by lia. apply map_nth.
Qed.

Lemma list_nat_ext : forall (l l' : list nat), length l = length l' ->
  (forall j, nth j l 0%nat = nth j l' 0%nat) -> l = l'.
Proof. intros. apply list_ext_nth with (d := 0%nat); auto. Qed.

Lemma at_block_step : forall u recipe, decs (pivot_categories recipe) (at_block (S u) recipe) = at_block u recipe.
Proof.
  intros u recipe. apply list_nat_ext; [rewrite decs_length; unfold at_block; rewrite !map_length; reflexivity|].
  intros j. unfold pivot_categories. rewrite decs_pivots. simpl. rewrite !at_block_nth.
  replace (j - 0)%nat with j by lia. lia.
Qed.

Lemma pivots_stream : forall m recipe t, length recipe = length m -> enough (S t) m recipe ->
  stream m (pivot_categories recipe) (at_block (S t) recipe) = pivots_from 0 (ps_deal m recipe t).
Proof.
  intros m recipe t Hl He. apply pivots_stream_from; [assumption| |].
  - intros j c Hc. simpl. unfold vals. rewrite (nth_error_nth _ _ _ Hc). reflexivity.
  - intros j c r Hc Hr. split; [apply (He j c r Hc Hr)|]. simpl (0 + j)%nat. rewrite at_block_nth.
    rewrite (nth_error_nth _ _ _ Hr). reflexivity.
Qed.

(** The order in which the pivots of u blocks are processed. *)
Definition tr_order (u : nat) (recipe : list nat) : list nat := concat (repeat (pivot_categories recipe) u).

Lemma blocks_stream : forall m recipe u, length recipe = length m -> enough u m recipe ->
  concat (map (fun t => pivots_from 0 (ps_deal m recipe t)) (rev (seq 0 u)))
  = stream m (tr_order u recipe) (at_block u recipe).
Proof.
  intros m recipe u Hl. induction u as [|u IH]; intros He; [reflexivity|].
  unfold tr_order. rewrite seq_S, rev_app_distr. cbn [rev app map concat repeat plus].
  rewrite stream_app. rewrite pivots_stream by assumption. rewrite at_block_step. f_equal.
  apply IH. eapply enough_le; [|exact He]. lia.
Qed.

Lemma order_end : forall u recipe, decs (tr_order u recipe) (at_block u recipe) = at_block 0 recipe.
Proof.
  intros u recipe. induction u as [|u IH]; [reflexivity|].
  unfold tr_order. cbn [repeat concat]. rewrite decs_app, at_block_step. exact IH.
Qed.
