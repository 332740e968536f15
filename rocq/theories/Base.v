(** * Base: exceptions as values, lists of rationals, stable sorting.

    Nothing in this file models a particular line of /repo; it fixes how Python
    notions used throughout the code base are represented:
    - an exception is a value of type [result];
    - a Python number is a rational [Q];
    - [list.sort] is a stable insertion sort [isort]. *)

From Coq Require Import List Arith Lia QArith Lqa Permutation Sorted Bool ZArith.
Import ListNotations.
Open Scope Q_scope.

(** Python exceptions raised by the modelled code. *)
Inductive exn : Type :=
| ValueError | IndexError | ZeroDivisionError | TypeError | UnboundLocalError.

(** Outcome of a Python call.  [Timeout] means that the fuel given to a
    [while True] loop ran out; theorems say when it cannot occur. *)
Inductive result (A : Type) : Type :=
| Ok (a : A)
| Raise (e : exn)
| Timeout.
Arguments Ok {A} a.
Arguments Raise {A} e.
Arguments Timeout {A}.

(** Sequencing of calls: the first exception propagates. *)
Definition bind {A B} (m : result A) (f : A -> result B) : result B :=
  match m with
  | Ok a => f a
  | Raise e => Raise e
  | Timeout => Timeout
  end.

Notation "x <- m ;; k" := (bind m (fun x => k))
  (at level 61, m at next level, right associativity).

(** [l[i]] for a non-negative index [i]. *)
Definition get {A} (l : list A) (i : nat) : result A :=
  match nth_error l i with
  | Some a => Ok a
  | None => Raise IndexError
  end.

(** [l[i] = x] for a list index in range (identity when out of range; every
    caller checks the range first). *)
Fixpoint set_nth {A} (i : nat) (x : A) (l : list A) : list A :=
  match l, i with
  | [], _ => []
  | _ :: l', O => x :: l'
  | a :: l', S i' => a :: set_nth i' x l'
  end.

(** Python's [sum] of a list of numbers. *)
Definition Qsum (l : list Q) : Q := fold_right Qplus 0 l.

(** Python's [sum] of a list of ints. *)
Definition nsum (l : list nat) : nat := fold_right Nat.add 0%nat l.

(** An int used as a number. *)
Definition Qn (n : nat) : Q := inject_Z (Z.of_nat n).

(** Decidable comparison [a < b]. *)
Definition Qlt_bool (a b : Q) : bool := negb (Qle_bool b a).

(** Stable insertion sort: [le x y] means "x may stay in front of y". *)
Section Sort.
  Context {A : Type} (le : A -> A -> bool).

  Fixpoint insert (x : A) (l : list A) : list A :=
    match l with
    | [] => [x]
    | y :: l' => if le x y then x :: y :: l' else y :: insert x l'
    end.

  Fixpoint isort (l : list A) : list A :=
    match l with
    | [] => []
    | x :: l' => insert x (isort l')
    end.
End Sort.

(** [l.sort(reverse=True)]: descending, stable. *)
Definition sort_desc (l : list Q) : list Q := isort (fun x y => Qle_bool y x) l.

(** [l.sort(key=key)]: ascending by key, stable. *)
Definition sort_by {A} (key : A -> Q) (l : list A) : list A :=
  isort (fun x y => Qle_bool (key x) (key y)) l.

(** [l.sort(key=key, reverse=True)]: descending by key, stable. *)
Definition sort_by_desc {A} (key : A -> Q) (l : list A) : list A :=
  isort (fun x y => Qle_bool (key y) (key x)) l.

(** A list sorted in descending order. *)
Definition desc (l : list Q) : Prop := StronglySorted (fun a b => b <= a) l.

(** ** Lemmas on booleans and results *)

Lemma Qlt_bool_iff : forall a b, Qlt_bool a b = true <-> a < b.
Proof.
  intros a b. unfold Qlt_bool. rewrite negb_true_iff.
  split; intro H.
  - apply Qnot_le_lt. intro H1. apply Qle_bool_iff in H1. congruence.
  - apply not_true_iff_false. intro H1. apply Qle_bool_iff in H1. lra.
Qed.

Lemma Qlt_bool_false : forall a b, Qlt_bool a b = false <-> b <= a.
Proof.
  intros a b. unfold Qlt_bool. rewrite negb_false_iff. apply Qle_bool_iff.
Qed.

Lemma Qle_bool_false : forall a b, Qle_bool a b = false <-> b < a.
Proof.
  intros a b. rewrite <- not_true_iff_false, Qle_bool_iff. split; intro; lra.
Qed.

Lemma Qle_bool_reflect : forall a b, reflect (a <= b) (Qle_bool a b).
Proof. intros. apply iff_reflect. symmetry. apply Qle_bool_iff. Qed.

Lemma Qlt_bool_reflect : forall a b, reflect (a < b) (Qlt_bool a b).
Proof. intros. apply iff_reflect. symmetry. apply Qlt_bool_iff. Qed.

Lemma bind_Ok : forall A B (m : result A) (f : A -> result B) b,
  bind m f = Ok b -> exists a, m = Ok a /\ f a = Ok b.
Proof. intros A B [a|e|] f b H; simpl in H; try discriminate. eauto. Qed.

Lemma get_Ok : forall A (l : list A) i a, get l i = Ok a <-> nth_error l i = Some a.
Proof.
  intros A l i a. unfold get. destruct (nth_error l i); split; congruence.
Qed.

Lemma get_lt : forall A (l : list A) i d, (i < length l)%nat -> get l i = Ok (nth i l d).
Proof. intros. apply get_Ok. apply nth_error_nth'. assumption. Qed.

Lemma Qn_pos : forall n, (0 < n)%nat -> 0 < Qn n.
Proof. intros. unfold Qn, inject_Z, Qlt. simpl. lia. Qed.

Lemma Qn_nonneg : forall n, 0 <= Qn n.
Proof. intros. unfold Qn, inject_Z, Qle. simpl. lia. Qed.

Lemma Qn_plus : forall a b, Qn (a + b) == Qn a + Qn b.
Proof. intros. unfold Qn. rewrite Nat2Z.inj_add, inject_Z_plus. reflexivity. Qed.

Lemma Qn_mult : forall a b, Qn (a * b) == Qn a * Qn b.
Proof. intros. unfold Qn. rewrite Nat2Z.inj_mul, inject_Z_mult. reflexivity. Qed.

Lemma Qn_S : forall a, Qn (S a) == Qn a + 1.
Proof. intros. replace (S a) with (a + 1)%nat by lia. rewrite Qn_plus. reflexivity. Qed.

Lemma Qn_le : forall a b, (a <= b)%nat <-> Qn a <= Qn b.
Proof. intros. unfold Qn. rewrite <- Zle_Qle. lia. Qed.

Lemma Qn_lt : forall a b, (a < b)%nat <-> Qn a < Qn b.
Proof. intros. unfold Qn. rewrite <- Zlt_Qlt. lia. Qed.

Lemma Qn_eq : forall a b, (a = b)%nat <-> Qn a == Qn b.
Proof. intros. unfold Qn, Qeq. simpl. lia. Qed.

Lemma Qn_0 : Qn 0 == 0. Proof. reflexivity. Qed.
Lemma Qn_1 : Qn 1 == 1. Proof. reflexivity. Qed.

(** ** Sums *)

Lemma Qsum_cons : forall a l, Qsum (a :: l) = a + Qsum l.
Proof. reflexivity. Qed.

Lemma Qsum_app : forall l1 l2, Qsum (l1 ++ l2) == Qsum l1 + Qsum l2.
Proof. induction l1; intros; simpl; [ring|rewrite IHl1; ring]. Qed.

Lemma Qsum_perm : forall l1 l2, Permutation l1 l2 -> Qsum l1 == Qsum l2.
Proof.
  induction 1; simpl.
  - reflexivity.
  - rewrite IHPermutation. reflexivity.
  - ring.
  - etransitivity; eassumption.
Qed.

Lemma nsum_app : forall l1 l2, nsum (l1 ++ l2) = (nsum l1 + nsum l2)%nat.
Proof. induction l1; intros; simpl; [reflexivity|rewrite IHl1; lia]. Qed.

Lemma Qsum_concat : forall ll, Qsum (concat ll) == Qsum (map Qsum ll).
Proof. induction ll; simpl; [reflexivity|]. rewrite Qsum_app, IHll. reflexivity. Qed.

Lemma Qsum_lower : forall l c, Forall (fun x => c <= x) l -> Qn (length l) * c <= Qsum l.
Proof.
  induction 1; simpl length; simpl Qsum.
  - rewrite Qn_0. lra.
  - rewrite Qn_S. lra.
Qed.

Lemma Qsum_upper : forall l c, Forall (fun x => x <= c) l -> Qsum l <= Qn (length l) * c.
Proof.
  induction 1; simpl length; simpl Qsum.
  - rewrite Qn_0. lra.
  - rewrite Qn_S. lra.
Qed.

Lemma Qsum_nonneg : forall l, Forall (fun x => 0 <= x) l -> 0 <= Qsum l.
Proof. induction 1; simpl; lra. Qed.

Lemma Qsum_map_le : forall A (f g : A -> Q) l,
  (forall x, In x l -> f x <= g x) -> Qsum (map f l) <= Qsum (map g l).
Proof.
  induction l; simpl; intros H; [lra|].
  assert (f a <= g a) by (apply H; auto).
  assert (Qsum (map f l) <= Qsum (map g l)) by (apply IHl; auto). lra.
Qed.

Lemma Qsum_map_ext : forall A (f g : A -> Q) l,
  (forall x, In x l -> f x == g x) -> Qsum (map f l) == Qsum (map g l).
Proof.
  induction l; simpl; intros H; [reflexivity|].
  rewrite H by auto. rewrite IHl by auto. reflexivity.
Qed.

Lemma Qsum_map_plus : forall A (f g : A -> Q) l,
  Qsum (map (fun x => f x + g x) l) == Qsum (map f l) + Qsum (map g l).
Proof. induction l; simpl; [ring|]. rewrite IHl. ring. Qed.

Lemma Qsum_map_scale : forall A (f : A -> Q) c l,
  Qsum (map (fun x => c * f x) l) == c * Qsum (map f l).
Proof. induction l; simpl; [ring|]. rewrite IHl. ring. Qed.

(** ** set_nth *)

Lemma set_nth_length : forall A i (x : A) l, length (set_nth i x l) = length l.
Proof. induction i; destruct l; simpl; auto. Qed.

Lemma set_nth_same : forall A i (x : A) l, (i < length l)%nat ->
  nth_error (set_nth i x l) i = Some x.
Proof. induction i; destruct l; simpl; intros; try lia; auto. apply IHi. lia. Qed.

Lemma set_nth_other : forall A i j (x : A) l, i <> j ->
  nth_error (set_nth i x l) j = nth_error l j.
Proof.
  induction i; destruct l; destruct j; simpl; intros; try congruence; auto.
Qed.

Lemma nth_set_nth_same : forall A i (x d : A) l, (i < length l)%nat ->
  nth i (set_nth i x l) d = x.
Proof. induction i; destruct l; simpl; intros; try lia; auto. apply IHi. lia. Qed.

Lemma nth_set_nth_other : forall A i j (x d : A) l, i <> j ->
  nth j (set_nth i x l) d = nth j l d.
Proof.
  induction i; destruct l; destruct j; simpl; intros; try congruence; auto.
Qed.

(** ** Sorting *)

Section SortFacts.
  Context {A : Type} (le : A -> A -> bool).

  Lemma insert_perm : forall x l, Permutation (insert le x l) (x :: l).
  Proof.
    induction l; simpl; [apply Permutation_refl|].
    destruct (le x a); [apply Permutation_refl|].
    eapply perm_trans; [apply perm_skip; exact IHl|apply perm_swap].
  Qed.

  Lemma isort_perm : forall l, Permutation (isort le l) l.
  Proof.
    induction l; simpl; [constructor|].
    eapply perm_trans; [apply insert_perm|apply perm_skip; exact IHl].
  Qed.

  Lemma isort_length : forall l, length (isort le l) = length l.
  Proof. intros. apply Permutation_length, isort_perm. Qed.

  Hypothesis le_total : forall x y, le x y = false -> le y x = true.
  Hypothesis le_trans : forall x y z, le x y = true -> le y z = true -> le x z = true.

  Lemma insert_sorted : forall x l,
    StronglySorted (fun a b => le a b = true) l ->
    StronglySorted (fun a b => le a b = true) (insert le x l).
  Proof.
    induction l as [|y l IH]; simpl; intros H.
    - repeat constructor.
    - destruct (le x y) eqn:E.
      + constructor; [assumption|]. constructor; [assumption|].
        apply StronglySorted_inv in H. destruct H as [_ H].
        eapply Forall_impl; [|exact H]. intros z Hz. eapply le_trans; eassumption.
      + apply StronglySorted_inv in H. destruct H as [H1 H2].
        constructor; [apply IH; assumption|].
        apply le_total in E.
        apply Forall_forall. intros z Hz.
        apply (Permutation_in _ (insert_perm x l)) in Hz. destruct Hz as [->|Hz].
        * assumption.
        * rewrite Forall_forall in H2. apply H2. assumption.
  Qed.

  Lemma isort_sorted : forall l, StronglySorted (fun a b => le a b = true) (isort le l).
  Proof. induction l; simpl; [constructor|apply insert_sorted; assumption]. Qed.

  Lemma isort_sorted_id : forall l,
    StronglySorted (fun a b => le a b = true) l -> isort le l = l.
  Proof.
    induction l as [|x l IH]; simpl; intros H; [reflexivity|].
    apply StronglySorted_inv in H. destruct H as [H1 H2].
    rewrite IH by assumption.
    destruct l as [|y l]; simpl; [reflexivity|].
    inversion H2; subst. rewrite H3. reflexivity.
  Qed.
End SortFacts.

Lemma StronglySorted_iff : forall A (R S : A -> A -> Prop),
  (forall x y, R x y -> S x y) -> forall l, StronglySorted R l -> StronglySorted S l.
Proof.
  intros A R S H l Hl. induction Hl; constructor; auto.
  eapply Forall_impl; [|eassumption]. auto.
Qed.

Lemma sort_desc_perm : forall l, Permutation (sort_desc l) l.
Proof. intros. apply isort_perm. Qed.

Lemma sort_desc_desc : forall l, desc (sort_desc l).
Proof.
  intros l. unfold desc, sort_desc.
  eapply StronglySorted_iff with (R := fun a b => Qle_bool b a = true).
  - intros x y H. apply Qle_bool_iff. assumption.
  - apply isort_sorted.
    + intros x y H. apply Qle_bool_false in H. apply Qle_bool_iff. lra.
    + intros x y z H1 H2. rewrite Qle_bool_iff in *. lra.
Qed.

Lemma sort_desc_id : forall l, desc l -> sort_desc l = l.
Proof.
  intros l H. apply isort_sorted_id.
  eapply StronglySorted_iff; [|exact H]. intros x y Hxy. apply Qle_bool_iff. assumption.
Qed.

Lemma sort_desc_length : forall l, length (sort_desc l) = length l.
Proof. intros. apply isort_length. Qed.

Lemma sort_by_perm : forall A (key : A -> Q) l, Permutation (sort_by key l) l.
Proof. intros. apply isort_perm. Qed.

Lemma sort_by_sorted : forall A (key : A -> Q) l,
  StronglySorted (fun a b => key a <= key b) (sort_by key l).
Proof.
  intros A key l.
  eapply StronglySorted_iff with (R := fun a b => Qle_bool (key a) (key b) = true).
  - intros x y H. apply Qle_bool_iff. assumption.
  - apply isort_sorted.
    + intros x y H. apply Qle_bool_false in H. apply Qle_bool_iff. lra.
    + intros x y z H1 H2. rewrite Qle_bool_iff in *. lra.
Qed.

Lemma sort_by_id : forall A (key : A -> Q) l,
  StronglySorted (fun a b => key a <= key b) l -> sort_by key l = l.
Proof.
  intros A key l H. apply isort_sorted_id.
  eapply StronglySorted_iff; [|exact H]. intros x y Hxy. apply Qle_bool_iff. assumption.
Qed.

Lemma sort_by_desc_perm : forall A (key : A -> Q) l, Permutation (sort_by_desc key l) l.
Proof. intros. apply isort_perm. Qed.

Lemma sort_by_desc_sorted : forall A (key : A -> Q) l,
  StronglySorted (fun a b => key b <= key a) (sort_by_desc key l).
Proof.
  intros A key l.
  eapply StronglySorted_iff with (R := fun a b => Qle_bool (key b) (key a) = true).
  - intros x y H. apply Qle_bool_iff. assumption.
  - apply isort_sorted.
    + intros x y H. apply Qle_bool_false in H. apply Qle_bool_iff. lra.
    + intros x y z H1 H2. rewrite Qle_bool_iff in *. lra.
Qed.

Lemma sort_by_desc_id : forall A (key : A -> Q) l,
  StronglySorted (fun a b => key b <= key a) l -> sort_by_desc key l = l.
Proof.
  intros A key l H. apply isort_sorted_id.
  eapply StronglySorted_iff; [|exact H]. intros x y Hxy. apply Qle_bool_iff. assumption.
Qed.

(** ** Descending lists *)

Lemma desc_inv : forall a l, desc (a :: l) -> desc l /\ Forall (fun x => x <= a) l.
Proof. intros a l H. apply StronglySorted_inv in H. exact H. Qed.

Lemma desc_nth : forall l d i j, desc l -> (i <= j)%nat -> (j < length l)%nat ->
  nth j l d <= nth i l d.
Proof.
  induction l as [|a l IH]; intros d i j H Hij Hj; simpl in Hj; [lia|].
  apply desc_inv in H. destruct H as [H1 H2].
  destruct j; destruct i; simpl; try lia; try lra.
  - rewrite Forall_forall in H2. apply H2. apply nth_In. lia.
  - apply IH; try assumption; lia.
Qed.

Lemma desc_of_nth : forall l,
  (forall i j a b, (i < j)%nat -> nth_error l i = Some a -> nth_error l j = Some b -> b <= a) ->
  desc l.
Proof.
  induction l as [|a l IH]; intros H; [constructor|].
  constructor.
  - apply IH. intros i j x y Hij Hx Hy. apply (H (S i) (S j) x y); auto. lia.
  - apply Forall_forall. intros x Hx. apply In_nth_error in Hx. destruct Hx as [n Hn].
    apply (H O (S n) a x); auto. lia.
Qed.

Lemma desc_app_inv : forall l1 l2, desc (l1 ++ l2) ->
  desc l1 /\ desc l2 /\ (forall a b, In a l1 -> In b l2 -> b <= a).
Proof.
  induction l1 as [|x l1 IH]; simpl; intros l2 H.
  - repeat split; [constructor|assumption|]. intros a b [].
  - apply desc_inv in H. destruct H as [H1 H2]. apply IH in H1.
    destruct H1 as [H3 [H4 H5]]. rewrite Forall_app in H2. destruct H2 as [H6 H7].
    repeat split; auto.
    + constructor; assumption.
    + intros a b [->|Ha] Hb; auto. rewrite Forall_forall in H7. auto.
Qed.

Lemma desc_app : forall l1 l2, desc l1 -> desc l2 ->
  (forall a b, In a l1 -> In b l2 -> b <= a) -> desc (l1 ++ l2).
Proof.
  induction l1 as [|x l1 IH]; simpl; intros l2 H1 H2 H3; [assumption|].
  apply desc_inv in H1. destruct H1 as [H4 H5].
  constructor.
  - apply IH; auto.
  - apply Forall_app. split; [assumption|]. apply Forall_forall. intros; auto.
Qed.

Lemma desc_firstn : forall n l, desc l -> desc (firstn n l).
Proof.
  intros n l H. rewrite <- (firstn_skipn n l) in H. apply desc_app_inv in H. tauto.
Qed.

Lemma desc_skipn : forall n l, desc l -> desc (skipn n l).
Proof.
  intros n l H. rewrite <- (firstn_skipn n l) in H. apply desc_app_inv in H. tauto.
Qed.

Lemma desc_firstn_skipn : forall n l a b, desc l ->
  In a (firstn n l) -> In b (skipn n l) -> b <= a.
Proof.
  intros n l a b H Ha Hb. rewrite <- (firstn_skipn n l) in H.
  apply desc_app_inv in H. destruct H as [_ [_ H]]. auto.
Qed.

(** Sum of any [m] members of a descending list is at most the sum of its
    [m] first members. *)
Lemma top_sum_max : forall l s rest,
  desc l -> Permutation (s ++ rest) l -> Qsum s <= Qsum (firstn (length s) l).
Proof.
  induction l as [|a l IH]; intros s rest Hd Hp.
  - apply Permutation_sym, Permutation_nil in Hp. apply app_eq_nil in Hp.
    destruct Hp; subst. simpl. lra.
  - apply desc_inv in Hd. destruct Hd as [Hd Ha].
    assert (Hin : In a (s ++ rest)).
    { eapply Permutation_in; [apply Permutation_sym; exact Hp|left; reflexivity]. }
    apply in_app_or in Hin. destruct Hin as [Hin|Hin].
    + apply in_split in Hin. destruct Hin as [s1 [s2 ->]].
      assert (Hp' : Permutation ((s1 ++ s2) ++ rest) l).
      { apply Permutation_cons_inv with (a := a).
        eapply perm_trans; [|exact Hp].
        rewrite <- !app_assoc. simpl. apply Permutation_middle. }
      specialize (IH _ _ Hd Hp').
      rewrite app_length. simpl length. rewrite Nat.add_succ_r. simpl firstn.
      rewrite app_length in IH. simpl Qsum.
      rewrite Qsum_app in *. simpl. lra.
    + apply in_split in Hin. destruct Hin as [r1 [r2 ->]].
      assert (Hp' : Permutation (s ++ (r1 ++ r2)) l).
      { apply Permutation_cons_inv with (a := a).
        eapply perm_trans; [|exact Hp].
        rewrite !app_assoc. apply Permutation_middle. }
      destruct s as [|b s]; [simpl; lra|].
      assert (Hb : b <= a).
      { rewrite Forall_forall in Ha. apply Ha. eapply Permutation_in; [exact Hp'|].
        left. reflexivity. }
      assert (Hp2 : Permutation (s ++ (b :: r1 ++ r2)) l).
      { eapply perm_trans; [|exact Hp']. simpl.
        apply Permutation_sym, Permutation_middle. }
      specialize (IH _ _ Hd Hp2). simpl. lra.
Qed.

Lemma Forall2_length : forall A B (R : A -> B -> Prop) l l', Forall2 R l l' -> length l = length l'.
Proof. induction 1; simpl; congruence. Qed.

Lemma Forall2_Qsum : forall l l', Forall2 Qeq l l' -> Qsum l == Qsum l'.
Proof. induction 1; simpl; [reflexivity|]. rewrite H, IHForall2. reflexivity. Qed.

(** Descending permutations of each other are pointwise equal. *)
Lemma desc_perm_eq : forall l l', desc l -> desc l' -> Permutation l l' ->
  Forall2 Qeq l l'.
Proof.
  induction l as [|a l IH]; intros l' Hl Hl' Hp.
  - apply Permutation_nil in Hp. subst. constructor.
  - destruct l' as [|b l'].
    { apply Permutation_sym, Permutation_nil in Hp. discriminate. }
    assert (Hl0 := Hl). assert (Hl0' := Hl').
    apply desc_inv in Hl. apply desc_inv in Hl'. destruct Hl as [Hl Ha]. destruct Hl' as [Hl' Hb].
    rewrite Forall_forall in Ha, Hb.
    assert (Hab : a == b).
    { assert (In a (b :: l')) by (eapply Permutation_in; [exact Hp|left; reflexivity]).
      assert (In b (a :: l)) by (eapply Permutation_in; [apply Permutation_sym; exact Hp|left; reflexivity]).
      assert (a <= b) by (destruct H as [->|H]; [lra|auto]).
      assert (b <= a) by (destruct H0 as [->|H0]; [lra|auto]). lra. }
    constructor; [exact Hab|].
    destruct (in_split a (b :: l')) as [l1 [l2 E]].
    { eapply Permutation_in; [exact Hp|left; reflexivity]. }
    assert (Hp' : Permutation l (l1 ++ l2)).
    { apply Permutation_cons_inv with (a := a). eapply perm_trans; [exact Hp|].
      rewrite E. apply Permutation_sym, Permutation_middle. }
    destruct l1 as [|c l1].
    + simpl in E. inversion E; subst. simpl in Hp'. apply IH; assumption.
    + simpl in E. inversion E; subst.
      (* l' = l1 ++ a :: l2, and everything in front of a is between a and b == a *)
      assert (Hd2 : desc (c :: l1 ++ l2)).
      { rewrite app_comm_cons in *. apply desc_app_inv in Hl0'. destruct Hl0' as [H1 [H2 H3]].
        apply desc_app; auto.
        - apply desc_inv in H2. tauto.
        - intros; apply H3; auto. right; auto. }
      specialize (IH _ Hl Hd2 Hp').
      assert (Hmid : Forall2 Qeq (c :: l1 ++ l2) (l1 ++ a :: l2)).
      { clear IH Hp' Hd2 Hp E.
        assert (Hall : forall x, In x l1 -> x == c).
        { intros x Hx. assert (x <= c) by (apply Hb; apply in_or_app; auto).
          apply desc_app_inv in Hl'. destruct Hl' as [_ [_ H3]].
          assert (a <= x) by (apply H3; [auto|left; reflexivity]). lra. }
        clear - Hall Hab. revert c Hab Hall.
        induction l1 as [|d l1 IH]; intros c Hab Hall; simpl.
        - constructor; [lra|]. induction l2; constructor; auto. reflexivity.
        - constructor.
          + symmetry. apply Hall. left. reflexivity.
          + apply IH.
            * rewrite (Hall d) by (left; reflexivity). assumption.
            * intros x Hx. rewrite (Hall d) by (left; reflexivity).
              apply Hall. right. assumption. }
      clear - IH Hmid. revert IH Hmid. generalize (c :: l1 ++ l2) (l1 ++ a :: l2).
      intros m n H. revert n. induction H; intros n Hn; inversion Hn; subst; constructor.
      * rewrite H. assumption.
      * auto.
Qed.

(** Canonical rationals: equal numbers are identical. *)
Definition canonical (l : list Q) : Prop := Forall (fun q => Qred q = q) l.

Lemma canonical_eq : forall a b, Qred a = a -> Qred b = b -> a == b -> a = b.
Proof. intros a b Ha Hb H. rewrite <- Ha, <- Hb. apply Qred_complete. assumption. Qed.

Lemma sort_desc_canonical : forall l l', canonical l -> Permutation l l' ->
  sort_desc l = sort_desc l'.
Proof.
  intros l l' Hc Hp.
  assert (H : Forall2 Qeq (sort_desc l) (sort_desc l')).
  { apply desc_perm_eq; try apply sort_desc_desc.
    eapply perm_trans; [apply sort_desc_perm|].
    eapply perm_trans; [exact Hp|apply Permutation_sym, sort_desc_perm]. }
  assert (C1 : canonical (sort_desc l)).
  { unfold canonical. eapply Permutation_Forall; [apply Permutation_sym, sort_desc_perm|exact Hc]. }
  assert (C2 : canonical (sort_desc l')).
  { unfold canonical. eapply Permutation_Forall; [|exact Hc].
    eapply perm_trans; [exact Hp|apply Permutation_sym, sort_desc_perm]. }
  revert C1 C2. induction H; intros C1 C2; [reflexivity|].
  inversion C1; inversion C2; subst. f_equal; auto. apply canonical_eq; assumption.
Qed.
