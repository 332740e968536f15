(** * The deals of the optimal trade, listed by increasing gain, are the blocks from the last
      to the first (up to equality of rationals) *)

From Coq Require Import String List Arith Lia QArith Lqa Permutation Sorted Bool.
From Verif Require Import Base Model_Agents Model_Trade Model_Prices Model_Market
  Spec_Market Proof_Market Proof_Ascending Proof_Ascending4.
Import ListNotations.
Open Scope Q_scope.

(** Pointwise equality of lists of numbers. *)
Definition qeq (l l' : list Q) : Prop := Forall2 Qeq l l'.

Lemma qeq_refl : forall l, qeq l l.
Proof. unfold qeq. induction l; constructor; auto. reflexivity. Qed.

Lemma qeq_sym : forall l l', qeq l l' -> qeq l' l.
Proof. unfold qeq. induction 1; constructor; auto. symmetry. assumption. Qed.

Lemma qeq_trans : forall a b c, qeq a b -> qeq b c -> qeq a c.
Proof.
  unfold qeq. intros a b c H. revert c. induction H; intros c Hc; inversion Hc; subst; constructor; auto.
  etransitivity; eassumption.
Qed.

Lemma qeq_length : forall l l', qeq l l' -> length l = length l'.
Proof. unfold qeq. induction 1; simpl; congruence. Qed.

Lemma qeq_app : forall a a' b b', qeq a a' -> qeq b b' -> qeq (a ++ b) (a' ++ b').
Proof. unfold qeq. intros. apply Forall2_app; assumption. Qed.

Lemma qeq_nth : forall l l' x d, qeq l l' -> nth x l d == nth x l' d.
Proof. unfold qeq. intros l l' x d H. revert x. induction H; intros [|n]; simpl; auto; try reflexivity. Qed.

Lemma qeq_skipn : forall n l l', qeq l l' -> qeq (skipn n l) (skipn n l').
Proof. unfold qeq. intros n l l' H. revert n. induction H; intros [|n]; simpl; auto; constructor; auto. Qed.

Lemma qeq_firstn : forall n l l', qeq l l' -> qeq (firstn n l) (firstn n l').
Proof. unfold qeq. intros n l l' H. revert n. induction H; intros [|n]; simpl; auto; constructor; auto. Qed.

Lemma qeq_sum : forall l l', qeq l l' -> Qsum l == Qsum l'.
Proof. apply Forall2_Qsum. Qed.

Lemma qeq_desc : forall l l', qeq l l' -> desc l -> desc l'.
Proof.
  unfold qeq, desc. induction 1; intros Hd; [constructor|].
  apply StronglySorted_inv in Hd. destruct Hd as [Hd Ha]. constructor; [auto|].
  clear - H0 Ha H. induction H0; [constructor|]. inversion Ha; subst. constructor; [lra|auto].
Qed.

Lemma qeq_In : forall l l' v, qeq l l' -> In v l -> exists v', In v' l' /\ v == v'.
Proof.
  unfold qeq. induction 1; intros Hin; [destruct Hin|]. destruct Hin as [->|Hin].
  - exists y. split; [left; reflexivity|assumption].
  - destruct (IHForall2 Hin) as [v' [H1 H2]]. exists v'. split; [right; assumption|assumption].
Qed.

Lemma qeq_of_nth : forall l l', length l = length l' ->
  (forall x, (x < length l)%nat -> nth x l 0 == nth x l' 0) -> qeq l l'.
Proof.
  unfold qeq. induction l as [|a l IH]; intros [|b l'] H Hx; simpl in H; try discriminate; constructor.
  - apply (Hx 0%nat). simpl. lia.
  - apply IH; [lia|]. intros x Hlt. apply (Hx (S x)). simpl. lia.
Qed.

(** Sorting respects pointwise equality up to a permutation. *)
Lemma qeq_perm : forall l l' m, qeq l l' -> Permutation l m -> exists m', Permutation l' m' /\ qeq m m'.
Proof.
  intros l l' m H Hp. revert l' H. induction Hp; intros l0 H0.
  - inversion H0; subst. exists []. split; constructor.
  - inversion H0; subst. destruct (IHHp _ H4) as [m' [P1 P2]]. exists (y :: m'). split; [constructor; assumption|constructor; assumption].
  - inversion H0; subst. inversion H4; subst. exists (y1 :: y0 :: l'0). split; [apply perm_swap|].
    constructor; [assumption|]. constructor; assumption.
  - destruct (IHHp1 _ H0) as [m1 [H1 H2]]. destruct (IHHp2 _ H2) as [m2 [H3 H4]].
    exists m2. split; [eapply perm_trans; eassumption|assumption].
Qed.

(** Two descending lists that are permutations of each other up to equality. *)
Lemma desc_qeq : forall l l' p, desc l -> desc l' -> Permutation l p -> qeq p l' -> qeq l l'.
Proof.
  intros l l' p Hd Hd' Hp Hq.
  destruct (qeq_perm p l' l Hq (Permutation_sym Hp)) as [m' [H1 H2]].
  apply qeq_trans with m'; [assumption|]. apply desc_perm_eq; [eapply qeq_desc; eassumption|assumption|].
  apply Permutation_sym. assumption.
Qed.

(** Appending a value that is at least all others puts it in front. *)
Lemma append_front : forall l l' v v', qeq l l' -> v == v' -> desc (v' :: l') ->
  qeq (sort_desc (l ++ [v])) (v' :: l').
Proof.
  intros l l' v v' Hq Hv Hd. apply desc_qeq with (p := v :: l).
  - apply sort_desc_desc.
  - assumption.
  - eapply perm_trans; [apply sort_desc_perm|]. apply Permutation_sym, Permutation_cons_append.
  - constructor; assumption.
Qed.

(** ** Sorting a list whose keys decrease *)

Section SortRev.
  Context {A : Type} (key : A -> Q) (E : A -> A -> Prop).
  Hypothesis Erefl : forall x, E x x.
  Hypothesis Etrans : forall x y z, E x y -> E y z -> E x z.
  Hypothesis Esym : forall x y, E x y -> E y x.

  Let le := fun x y => Qle_bool (key x) (key y).

  Lemma all_E_shift : forall x L, (forall y, In y L -> E y x) -> Forall2 E (x :: L) (L ++ [x]).
  Proof.
    intros x L H.
    assert (G : forall z, E z x -> Forall2 E (z :: L) (L ++ [x])).
    { induction L as [|y L IH]; intros z Hz; simpl.
      - constructor; [assumption|constructor].
      - constructor.
        + apply Etrans with x; [assumption|]. apply Esym. apply H. left. reflexivity.
        + apply IH; [intros w Hw; apply H; right; assumption|]. apply H. left. reflexivity. }
    apply G. apply Erefl.
  Qed.

  Lemma insert_last : forall x L, StronglySorted (fun a b => key a <= key b) L ->
    (forall y, In y L -> key y <= key x) -> (forall y, In y L -> key y == key x -> E y x) ->
    Forall2 E (insert le x L) (L ++ [x]).
  Proof.
    intros x L Hs Hk He. induction L as [|y L IH]; simpl; [constructor; [apply Erefl|constructor]|].
    unfold le at 1. destruct (Qle_bool_reflect (key x) (key y)) as [H|H].
    - apply (all_E_shift x (y :: L)). intros z Hz. apply He; [assumption|].
      assert (key z <= key x) by (apply Hk; assumption).
      assert (key y <= key z).
      { destruct Hz as [->|Hz]; [lra|]. apply StronglySorted_inv in Hs. destruct Hs as [_ Hs].
        rewrite Forall_forall in Hs. apply Hs. assumption. }
      lra.
    - constructor; [apply Erefl|]. apply IH.
      + apply StronglySorted_inv in Hs. tauto.
      + intros z Hz. apply Hk. right. assumption.
      + intros z Hz. apply He. right. assumption.
  Qed.

  Lemma Forall2_E_trans : forall a b c, Forall2 E a b -> Forall2 E b c -> Forall2 E a c.
  Proof.
    intros a b c H. revert c. induction H; intros c Hc; inversion Hc; subst; constructor; eauto.
  Qed.

  Lemma sort_by_rev : forall l, StronglySorted (fun a b => key b <= key a) l ->
    (forall x y, In x l -> In y l -> key x == key y -> E x y) ->
    Forall2 E (sort_by key l) (rev l).
  Proof.
    induction l as [|x l IH]; intros Hs He; [constructor|].
    apply StronglySorted_inv in Hs. destruct Hs as [Hs Hx].
    change (sort_by key (x :: l)) with (insert le x (sort_by key l)). simpl rev.
    apply Forall2_E_trans with (sort_by key l ++ [x]).
    - assert (P := sort_by_perm _ key l). apply insert_last.
      + apply sort_by_sorted.
      + intros y Hy. rewrite Forall_forall in Hx. apply Hx. eapply Permutation_in; eassumption.
      + intros y Hy. apply He; [right; eapply Permutation_in; eassumption|left; reflexivity].
    - apply Forall2_app; [|constructor; [apply Erefl|constructor]].
      apply IH; [assumption|]. intros a b Ha Hb. apply He; right; assumption.
  Qed.
End SortRev.

(** ** Blocks *)

Lemma dominated_equal : forall l l', Forall2 (fun a b => b <= a) l l' -> Qsum l == Qsum l' -> qeq l l'.
Proof.
  intros l l' H. unfold qeq.
  assert (G : Forall2 (fun a b => b <= a) l l' -> Qsum l' <= Qsum l).
  { clear H. intros H. induction H; simpl; lra. }
  induction H; intros E; [constructor|].
  assert (L : Qsum l' <= Qsum l).
  { clear - H0. induction H0; simpl; lra. }
  simpl in E. constructor; [lra|]. apply IHForall2; [intros; assumption|lra].
Qed.

Lemma block_nth : forall t v r x d, (x < r)%nat -> nth x (block t v r) d = nth (t * r + x) v d.
Proof.
  intros t v r x d H. unfold block.
  assert (G : forall (l : list Q) n y, (y < n)%nat -> nth y (firstn n l) d = nth y l d).
  { intros l n. revert l. induction n; intros [|a l] [|y] Hy; simpl; try lia; auto. apply IHn. lia. }
  rewrite G by assumption. clear G H. revert v. induction (t * r)%nat; intros [|a v]; simpl; auto.
  destruct x; reflexivity.
Qed.

Lemma block_dominates : forall t s v r, desc v -> (t <= s)%nat -> (S s * r <= length v)%nat ->
  Forall2 (fun a b => b <= a) (block t v r) (block s v r).
Proof.
  intros t s v r Hd Hts Hl.
  assert (L1 : length (block t v r) = r) by (apply block_length; nia).
  assert (L2 : length (block s v r) = r) by (apply block_length; nia).
  assert (G : forall (P : Q -> Q -> Prop) l l', length l = length l' ->
    (forall x, (x < length l)%nat -> P (nth x l 0) (nth x l' 0)) -> Forall2 P l l').
  { intros P. induction l as [|a l IH]; intros [|b l'] Hlen Hx; simpl in Hlen; try discriminate; constructor.
    - apply (Hx 0%nat). simpl. lia.
    - apply IH; [lia|]. intros x Hlt. apply (Hx (S x)). simpl. lia. }
  apply G; [congruence|]. intros x Hx. rewrite L1 in Hx. rewrite !block_nth by assumption.
  apply desc_nth; [assumption|nia|nia].
Qed.

Lemma ps_dominates : forall m recipe t s, sorted_market m -> (t <= s)%nat -> enough (S s) m recipe ->
  Forall2 (fun a b => b <= a) (concat (ps_deal m recipe t)) (concat (ps_deal m recipe s)).
Proof.
  unfold ps_deal. induction m as [|c m IH]; intros [|r recipe] t s Hs Hts He; simpl; try constructor.
  apply Forall2_app.
  - apply block_dominates; [inversion Hs; assumption|assumption|]. exact (He 0%nat c r eq_refl eq_refl).
  - apply IH; [inversion Hs; assumption|assumption|]. intros i c' r' H1 H2. apply (He (S i) c' r' H1 H2).
Qed.

Lemma ps_gain_concat : forall m recipe t, Qsum (concat (ps_deal m recipe t)) == ps_gain m recipe t.
Proof. intros. apply deal_gain_concat. Qed.

Lemma StronglySorted_map_seq : forall A (R : A -> A -> Prop) (f : nat -> A) n a,
  (forall i j, (a <= i < j)%nat -> (j < a + n)%nat -> R (f i) (f j)) -> StronglySorted R (map f (seq a n)).
Proof.
  intros A R f n. induction n as [|n IH]; intros a H; simpl; constructor.
  - apply IH. intros i j H1 H2. apply H; lia.
  - apply Forall_forall. intros x Hx. apply in_map_iff in Hx. destruct Hx as [j [<- Hj]]. apply in_seq in Hj.
    apply H; lia.
Qed.

(** The deals of the optimal trade, in the order in which optimal_trade lists them. *)
Lemma deals_order : forall m recipe k, sorted_market m -> enough k m recipe ->
  Forall2 qeq (sort_by Qsum (map (fun t => concat (ps_deal m recipe t)) (seq 0 k)))
    (rev (map (fun t => concat (ps_deal m recipe t)) (seq 0 k))).
Proof.
  intros m recipe k Hs He. apply sort_by_rev.
  - apply qeq_refl.
  - apply qeq_trans.
  - apply qeq_sym.
  - apply StronglySorted_map_seq. intros i j Hij Hj. rewrite !ps_gain_concat.
    apply ps_gain_mono; [assumption|lia|]. eapply enough_le; [|exact He]. lia.
  - assert (G : forall t s, (t <= s < k)%nat -> Qsum (concat (ps_deal m recipe t)) == Qsum (concat (ps_deal m recipe s)) ->
      qeq (concat (ps_deal m recipe t)) (concat (ps_deal m recipe s))).
    { intros t s Hts E. apply dominated_equal; [|assumption]. apply ps_dominates; [assumption|lia|].
      eapply enough_le; [|exact He]. lia. }
    intros x y Hx Hy E. apply in_map_iff in Hx. apply in_map_iff in Hy.
    destruct Hx as [t [<- Ht]]. destruct Hy as [s [<- Hsq]]. apply in_seq in Ht. apply in_seq in Hsq.
    destruct (le_lt_dec t s) as [H|H].
    + apply G; [lia|assumption].
    + apply qeq_sym. apply G; [lia|]. symmetry. assumption.
Qed.
