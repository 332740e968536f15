(** * Sorted reports: what a change of one report does to a sorted list *)

From Coq Require Import String List Arith Lia QArith Lqa Permutation Sorted Bool.
From Verif Require Import Base Model_Agents Model_Market Model_Ascending Spec_Ascending.
Import ListNotations.
Open Scope Q_scope.

Definition ins (pos : nat) (v : Q) (l : list Q) : list Q := firstn pos l ++ v :: skipn pos l.

Lemma filter_length_perm : forall A (f : A -> bool) l l', Permutation l l' ->
  length (filter f l) = length (filter f l').
Proof.
  intros A f l l' H. induction H; simpl.
  - reflexivity.
  - destruct (f x); simpl; congruence.
  - destruct (f x), (f y); reflexivity.
  - congruence.
Qed.

Lemma better_perm : forall v l l', Permutation l l' -> better v l = better v l'.
Proof. intros. apply filter_length_perm. assumption. Qed.

Lemma at_least_perm : forall v l l', Permutation l l' -> at_least v l = at_least v l'.
Proof. intros. apply filter_length_perm. assumption. Qed.

Lemma at_least_length : forall v l, (at_least v l <= length l)%nat.
Proof. intros v l. unfold at_least. induction l; simpl; [lia|]. destruct (Qle_bool v a); simpl; lia. Qed.

Lemma position_perm : forall v l l' pos, Permutation l l' -> possible_position l v pos -> possible_position l' v pos.
Proof.
  intros v l l' pos H [H1 H2]. split.
  - rewrite <- (better_perm v l l' H). assumption.
  - rewrite <- (at_least_perm v l l' H). assumption.
Qed.

Lemma at_least_zero : forall v l, Forall (fun x => x < v) l -> at_least v l = 0%nat.
Proof.
  intros v l H. unfold at_least. induction H; simpl; [reflexivity|].
  destruct (Qle_bool_reflect v x); [lra|assumption].
Qed.

Lemma better_zero : forall v l, Forall (fun x => x <= v) l -> better v l = 0%nat.
Proof.
  intros v l H. unfold better. induction H; simpl; [reflexivity|].
  destruct (Qlt_bool_reflect v x); [lra|assumption].
Qed.

Lemma firstn_at_least : forall l v n, desc l -> (n <= at_least v l)%nat -> Forall (fun x => v <= x) (firstn n l).
Proof.
  induction l as [|a l IH]; intros v n Hd Hn; [rewrite firstn_nil; constructor|].
  apply desc_inv in Hd. destruct Hd as [Hd Ha]. destruct n as [|n]; [constructor|].
  unfold at_least in Hn. simpl in Hn. destruct (Qle_bool_reflect v a) as [H|H].
  - simpl in Hn. simpl. constructor; [assumption|]. apply IH; [assumption|]. unfold at_least. lia.
  - exfalso. fold (at_least v l) in Hn. rewrite at_least_zero in Hn; [lia|].
    eapply Forall_impl; [|exact Ha]. intros x Hx. simpl in Hx. lra.
Qed.

Lemma skipn_better : forall l v n, desc l -> (better v l <= n)%nat -> Forall (fun x => x <= v) (skipn n l).
Proof.
  induction l as [|a l IH]; intros v n Hd Hn; [rewrite skipn_nil; constructor|].
  assert (Hd0 := Hd). apply desc_inv in Hd. destruct Hd as [Hd Ha].
  destruct n as [|n].
  - unfold better in Hn. simpl in Hn. destruct (Qlt_bool_reflect v a) as [H|H]; [simpl in Hn; lia|].
    simpl. constructor; [lra|]. eapply Forall_impl; [|exact Ha]. intros x Hx. simpl in Hx. lra.
  - simpl. apply IH; [assumption|]. unfold better in Hn. simpl in Hn.
    destruct (Qlt_bool_reflect v a) as [H|H].
    + simpl in Hn. unfold better. lia.
    + rewrite better_zero; [lia|]. eapply Forall_impl; [|exact Ha]. intros x Hx. simpl in Hx. lra.
Qed.

Lemma ins_desc : forall l v pos, desc l -> possible_position l v pos -> desc (ins pos v l).
Proof.
  intros l v pos Hd [H1 H2]. unfold ins.
  assert (A := firstn_at_least l v pos Hd H2). assert (B := skipn_better l v pos Hd H1).
  rewrite Forall_forall in A, B. apply desc_app.
  - apply desc_firstn. assumption.
  - constructor; [apply desc_skipn; assumption|]. apply Forall_forall. assumption.
  - intros a b Ha [<-|Hb]; [auto|]. apply A in Ha. apply B in Hb. lra.
Qed.

Lemma ins_perm : forall l v pos, Permutation (ins pos v l) (v :: l).
Proof.
  intros. unfold ins. eapply perm_trans; [apply Permutation_sym, Permutation_middle|].
  rewrite firstn_skipn. apply Permutation_refl.
Qed.

(** The sorted reports, with the agent at any of his possible positions. *)
Lemma sorted_ins : forall pre post v pos, possible_position (pre ++ post) v pos ->
  Forall2 Qeq (sort_desc (pre ++ v :: post)) (ins pos v (sort_desc (pre ++ post))).
Proof.
  intros pre post v pos H. apply desc_perm_eq.
  - apply sort_desc_desc.
  - apply ins_desc; [apply sort_desc_desc|]. eapply position_perm; [|exact H].
    apply Permutation_sym, sort_desc_perm.
  - eapply perm_trans; [apply sort_desc_perm|]. eapply perm_trans; [apply Permutation_sym, Permutation_middle|].
    apply Permutation_sym. eapply perm_trans; [apply ins_perm|]. apply perm_skip, sort_desc_perm.
Qed.

Lemma ins_length : forall pos v l, length (ins pos v l) = S (length l).
Proof. intros. rewrite (Permutation_length (ins_perm l v pos)). reflexivity. Qed.

Lemma ins_before : forall pos v l x d, (pos <= length l)%nat -> (x < pos)%nat -> nth x (ins pos v l) d = nth x l d.
Proof.
  intros. unfold ins. rewrite app_nth1 by (rewrite firstn_length_le; lia).
  rewrite <- (firstn_skipn pos l) at 2. rewrite app_nth1; [reflexivity|]. rewrite firstn_length_le; lia.
Qed.

Lemma ins_at : forall pos v l d, (pos <= length l)%nat -> nth pos (ins pos v l) d = v.
Proof.
  intros. unfold ins. rewrite app_nth2; rewrite firstn_length_le by lia; [|lia].
  rewrite Nat.sub_diag. reflexivity.
Qed.

Lemma ins_after : forall pos v l x d, (pos <= length l)%nat -> (pos <= x)%nat ->
  nth (S x) (ins pos v l) d = nth x l d.
Proof.
  intros pos v l x d H1 H2. unfold ins. rewrite app_nth2; rewrite firstn_length_le by lia; [|lia].
  replace (S x - pos)%nat with (S (x - pos))%nat by lia. simpl.
  rewrite <- (firstn_skipn pos l) at 2. rewrite app_nth2; rewrite firstn_length_le by lia; [reflexivity|lia].
Qed.

Lemma Forall2_nth : forall l l' x d, Forall2 Qeq l l' -> nth x l d == nth x l' d.
Proof.
  intros l l' x d H. revert x. induction H; intros [|n]; simpl; auto; try reflexivity.
Qed.

(** Two reports lo <= hi of one agent, hi not behind lo.  The two sorted lists agree behind
    lo's position, and up to it all values are at least lo. *)
Lemma two_reports : forall pre post lo hi bl bh d,
  possible_position (pre ++ post) lo bl -> possible_position (pre ++ post) hi bh ->
  lo <= hi -> (bh <= bl)%nat ->
  let Ll := sort_desc (pre ++ lo :: post) in
  let Lh := sort_desc (pre ++ hi :: post) in
  length Ll = length Lh /\ (bl < length Ll)%nat
  /\ (forall n, (bl < n)%nat -> nth n Lh d == nth n Ll d)
  /\ nth bl Ll d == lo /\ nth bh Lh d == hi /\ lo <= nth bl Lh d.
Proof.
  intros pre post lo hi bl bh d Hl Hh Hle Hb Ll Lh.
  assert (EL := sorted_ins pre post lo bl Hl). assert (EH := sorted_ins pre post hi bh Hh).
  fold Ll in EL. fold Lh in EH.
  assert (A1 : (bl <= length (sort_desc (pre ++ post)))%nat).
  { rewrite sort_desc_length. destruct Hl as [_ Hl]. assert (X := at_least_length lo (pre ++ post)). lia. }
  assert (D : desc (ins bl lo (sort_desc (pre ++ post)))).
  { apply ins_desc; [apply sort_desc_desc|]. eapply position_perm; [|exact Hl]. apply Permutation_sym, sort_desc_perm. }
  set (O := sort_desc (pre ++ post)) in *.
  assert (LL : length Ll = S (length O)) by (rewrite (Forall2_length _ _ _ _ _ EL); apply ins_length).
  assert (LH : length Lh = S (length O)) by (rewrite (Forall2_length _ _ _ _ _ EH); apply ins_length).
  split; [congruence|]. split; [lia|]. split; [|split; [|split]].
  - intros n Hn. rewrite (Forall2_nth _ _ n d EL), (Forall2_nth _ _ n d EH).
    destruct n as [|n]; [lia|]. rewrite !ins_after by lia. reflexivity.
  - rewrite (Forall2_nth _ _ _ d EL), ins_at by assumption. reflexivity.
  - rewrite (Forall2_nth _ _ _ d EH), ins_at by lia. reflexivity.
  - rewrite (Forall2_nth _ _ _ d EH).
    destruct (Nat.eq_dec bh bl) as [->|Hne]; [rewrite ins_at by assumption; assumption|].
    destruct bl as [|bl]; [lia|]. rewrite ins_after by lia.
    assert (X := desc_nth _ d bl (S bl) D ltac:(lia) ltac:(rewrite ins_length; lia)).
    rewrite ins_at in X by assumption. rewrite ins_before in X by lia. assumption.
Qed.

(** A strictly better report is never placed behind a worse one. *)
Lemma position_order : forall others lo hi bl bh,
  possible_position others lo bl -> possible_position others hi bh -> lo < hi -> (bh <= bl)%nat.
Proof.
  intros others lo hi bl bh [H1 _] [_ H2] H.
  assert (X : (at_least hi others <= better lo others)%nat); [|lia].
  unfold at_least, better. clear -H. induction others as [|a l IH]; simpl; [lia|].
  destruct (Qle_bool_reflect hi a); destruct (Qlt_bool_reflect lo a); simpl; try lia. lra.
Qed.
