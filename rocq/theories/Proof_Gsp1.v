(** * Rankings and pigeonholes *)
From Coq Require Import String List Arith Lia QArith Lqa Permutation Sorted Bool FinFun.
From Verif Require Import Base Model_Agents Model_Market Spec_Ascending Spec_Group Proof_Strategy.
Import ListNotations.
Open Scope Q_scope.

Lemma filter_nth_seq : forall A (f : A -> bool) (l : list A) d,
  length (filter f l) = length (filter (fun j => f (nth j l d)) (seq 0 (length l))).
Proof.
  intros A f l d. induction l as [|a l IH]; [reflexivity|].
  assert (E : forall k, length (filter (fun j => f (nth j (a :: l) d)) (map S k)) = length (filter (fun j => f (nth j l d)) k)).
  { induction k as [|x k IHk]; [reflexivity|]. cbn [map filter nth]. cbn [nth] in IHk. destruct (f (nth x l d)); cbn [length]; rewrite IHk; reflexivity. }
  cbn [length seq]. rewrite <- seq_shift. cbn [filter]. change (nth 0 (a :: l) d) with a.
  destruct (f a); cbn [length]; rewrite E, IH; reflexivity.
Qed.

Lemma filter_le_imp : forall A (f g : A -> bool) l, (forall x, In x l -> f x = true -> g x = true) ->
  (length (filter f l) <= length (filter g l))%nat.
Proof.
  intros A f g l H. induction l as [|a l IH]; [reflexivity|]. cbn [filter].
  assert (IH' := IH (fun x Hx => H x (or_intror Hx))).
  destruct (f a) eqn:E.
  - rewrite (H a (or_introl eq_refl) E). simpl. lia.
  - destruct (g a); simpl; lia.
Qed.

Lemma filter_seq_lt : forall n s, (s <= n)%nat -> length (filter (fun x => x <? s)%nat (seq 0 n)) = s.
Proof.
  intros n s H. replace n with (s + (n - s))%nat by lia. rewrite seq_app, filter_app, app_length.
  assert (E1 : forall a b, (forall x, In x (seq a b) -> (x < s)%nat) -> length (filter (fun x => x <? s)%nat (seq a b)) = b).
  { intros a b. revert a. induction b as [|b IH]; intros a Ha; [reflexivity|]. cbn [seq filter].
    destruct (Nat.ltb_spec a s) as [_|X]; [|specialize (Ha a (or_introl eq_refl)); lia]. cbn [length]. rewrite IH; [reflexivity|].
    intros x Hx. apply Ha. right. assumption. }
  assert (E2 : forall a b, (s <= a)%nat -> length (filter (fun x => x <? s)%nat (seq a b)) = 0%nat).
  { intros a b. revert a. induction b as [|b IH]; intros a Ha; [reflexivity|]. cbn [seq filter].
    destruct (Nat.ltb_spec a s); [lia|]. apply IH. lia. }
  rewrite E1, E2; [lia|lia|]. intros x Hx. apply in_seq in Hx. lia.
Qed.

Section Bijection.
  Variables (n : nat) (f : nat -> nat).
  Hypothesis Hr : forall j, (j < n -> f j < n)%nat.
  Hypothesis Hinj : forall j k, (j < n)%nat -> (k < n)%nat -> f j = f k -> j = k.

  Lemma map_seq_nodup : NoDup (map f (seq 0 n)).
  Proof.
    assert (G : forall l, NoDup l -> (forall x, In x l -> (x < n)%nat) -> NoDup (map f l)).
    { induction l as [|a l IH]; intros Hn Hl; [constructor|]. inversion Hn; subst. cbn [map]. constructor.
      - intro Hin. apply in_map_iff in Hin. destruct Hin as (b & Eb & Hb).
        assert (b = a) by (apply Hinj; auto; [apply Hl; right|apply Hl; left]; auto). subst. contradiction.
      - apply IH; auto. intros x Hx. apply Hl. right. assumption. }
    apply G; [apply seq_NoDup|]. intros x Hx. apply in_seq in Hx. lia.
  Qed.

  Lemma map_seq_perm : Permutation (map f (seq 0 n)) (seq 0 n).
  Proof.
    apply NoDup_Permutation_bis; [apply map_seq_nodup|rewrite map_length; lia|].
    intros x Hx. apply in_map_iff in Hx. destruct Hx as (y & <- & Hy). apply in_seq in Hy. apply in_seq. specialize (Hr y). lia.
  Qed.

  Lemma filter_map_len : forall (g : nat -> bool) l, length (filter (fun j => g (f j)) l) = length (filter g (map f l)).
  Proof. induction l as [|a l IH]; [reflexivity|]. cbn [filter map]. destruct (g (f a)); simpl; rewrite IH; reflexivity. Qed.

  Lemma count_below : forall s, (s <= n)%nat -> length (filter (fun j => f j <? s)%nat (seq 0 n)) = s.
  Proof.
    intros s Hs. rewrite (filter_map_len (fun x => x <? s)%nat).
    rewrite (filter_length_perm _ _ _ _ map_seq_perm). apply filter_seq_lt. assumption.
  Qed.

  Lemma count_above : forall s, (s <= n)%nat -> length (filter (fun j => s <=? f j)%nat (seq 0 n)) = (n - s)%nat.
  Proof.
    intros s Hs. assert (H := count_below s Hs).
    assert (E : forall l, (length (filter (fun j => f j <? s)%nat l) + length (filter (fun j => s <=? f j)%nat l) = length l)%nat).
    { induction l as [|a l IH]; [reflexivity|]. cbn [filter length].
      destruct (Nat.ltb_spec (f a) s); destruct (Nat.leb_spec s (f a)); cbn [length]; lia. }
    specialize (E (seq 0 n)). rewrite H, seq_length in E. lia.
  Qed.
End Bijection.

(** The value at the place of an agent in the sorted list is his own. *)
Lemma ranking_sorted : forall l rank j d, ranking l rank -> (j < length l)%nat ->
  nth (rank j) (sort_desc l) d == nth j l 0.
Proof.
  intros l rank j d (Hr & Hi & Ho) Hj. set (v := nth j l 0).
  assert (Hb : (better v l <= rank j)%nat).
  { unfold better. rewrite (filter_nth_seq _ _ l 0).
    rewrite <- (count_below (length l) rank Hr Hi (rank j)) by (specialize (Hr j Hj); lia).
    apply filter_le_imp. intros x Hx E. apply in_seq in Hx. apply Qlt_bool_iff in E. apply Nat.ltb_lt. apply Ho; auto. lia. }
  assert (Ha : (S (rank j) <= at_least v l)%nat).
  { assert (E : (at_least v l + length (filter (fun x => Qlt_bool x v) l) = length l)%nat).
    { unfold at_least. clearbody v. clear. induction l as [|a l IH]; [reflexivity|]. cbn [filter length].
      destruct (Qle_bool_reflect v a); destruct (Qlt_bool_reflect a v); cbn [length]; first [lra | lia]. }
    assert (X : (length (filter (fun x => Qlt_bool x v) l) <= length l - S (rank j))%nat).
    { rewrite (filter_nth_seq _ _ l 0).
      rewrite <- (count_above (length l) rank Hr Hi (S (rank j))) by (specialize (Hr j Hj); lia).
      apply filter_le_imp. intros x Hx E'. apply in_seq in Hx. apply Qlt_bool_iff in E'. apply Nat.leb_le. apply Ho; auto. lia. }
    specialize (Hr j Hj). lia. }
  rewrite (better_perm v l (sort_desc l)) in Hb by (apply Permutation_sym, sort_desc_perm).
  rewrite (at_least_perm v l (sort_desc l)) in Ha by (apply Permutation_sym, sort_desc_perm).
  assert (Hd := sort_desc_desc l).
  assert (Hlen : (rank j < length (sort_desc l))%nat) by (rewrite sort_desc_length; auto).
  assert (F1 := firstn_at_least _ _ _ Hd Ha). assert (F2 := skipn_better _ _ _ Hd Hb).
  rewrite Forall_forall in F1, F2. apply Qle_antisym.
  - apply F2.
    assert (E : nth (rank j) (sort_desc l) d = nth 0 (skipn (rank j) (sort_desc l)) d).
    { rewrite <- (firstn_skipn (rank j) (sort_desc l)) at 1. rewrite app_nth2; rewrite firstn_length_le by lia; [|lia].
      rewrite Nat.sub_diag. reflexivity. }
    rewrite E. apply nth_In. rewrite skipn_length. lia.
  - apply F1.
    assert (E : nth (rank j) (sort_desc l) d = nth (rank j) (firstn (S (rank j)) (sort_desc l)) d).
    { rewrite <- (firstn_skipn (S (rank j)) (sort_desc l)) at 1. rewrite app_nth1 by (rewrite firstn_length_le; lia). reflexivity. }
    rewrite E. apply nth_In. rewrite firstn_length_le; lia.
Qed.

(** Among the [s] best of one ranking, one is not among the [s-1] best of the other. *)
Lemma pigeon : forall l l' rank rank' s, ranking l rank -> ranking l' rank' -> length l = length l' -> (0 < s <= length l)%nat ->
  exists j, (j < length l /\ rank j <= s - 1 /\ s - 1 <= rank' j)%nat.
Proof.
  intros l l' rank rank' s (Hr & Hi & _) (Hr' & Hi' & _) HL Hs. rewrite <- HL in Hr', Hi'.
  destruct (existsb (fun j => (rank j <? s) && (s - 1 <=? rank' j))%nat (seq 0 (length l))) eqn:E.
  - apply existsb_exists in E. destruct E as (j & Hj & E). apply in_seq in Hj. apply andb_true_iff in E. destruct E as [E1 E2].
    apply Nat.ltb_lt in E1. apply Nat.leb_le in E2. exists j. lia.
  - exfalso.
    assert (X : (length (filter (fun j => rank j <? s)%nat (seq 0 (length l))) <= length (filter (fun j => rank' j <? s - 1)%nat (seq 0 (length l))))%nat).
    { apply filter_le_imp. intros x Hx E1. destruct (Nat.ltb_spec (rank' x) (s - 1)) as [|Hge]; [reflexivity|].
      apply not_true_iff_false in E. exfalso. apply E. apply existsb_exists. exists x. split; [assumption|].
      rewrite E1. apply Nat.leb_le. assumption. }
    rewrite (count_below _ _ Hr Hi s), (count_below _ _ Hr' Hi' (s - 1)%nat) in X by lia. lia.
Qed.
