(** * C106: the sorted list with one agent's report *)

From Coq Require Import ZArith Reals List Lia Lra Sorted Permutation.
From Coq Require Import SpecFloat.
From Flocq Require Import Core BinarySingleNaN.
From Verif Require Import Base Model_Float Spec_Float Spec_FloatTruth Proof_Float Proof_Float2.
Import ListNotations.

Local Open Scope nat_scope.

Lemma flt_fle : forall x y, finite_double x -> finite_double y -> flt x y = negb (fle y x).
Proof.
  intros x y Hx Hy. destruct (finite_B x Hx) as (b & Fb & ->). destruct (finite_B y Hy) as (b' & Fb' & ->).
  change (flt (B2SF b) (B2SF b')) with (Bltb b b'). rewrite fle_B. rewrite Bltb_correct, Bleb_correct by assumption.
  destruct (Rlt_bool_spec (B2R b) (B2R b')); destruct (Rle_bool_spec (B2R b') (B2R b)); try reflexivity; lra.
Qed.

Lemma insert_after : forall x a b, Forall (fun z => fle x z = true) a -> f_insert x (a ++ b) = a ++ f_insert x b.
Proof. intros x a b H. induction H as [|z a H1 H2 IH]; cbn [app f_insert]; [reflexivity|]. rewrite H1, IH. reflexivity. Qed.

Lemma insert_before : forall y a b, Exists (fun z => fle y z = false) a -> f_insert y (a ++ b) = f_insert y a ++ b.
Proof.
  intros y a b H. induction a as [|z a IH]; [inversion H|]. cbn [app f_insert]. destruct (fle y z) eqn:E; [|reflexivity].
  cbn [app]. rewrite IH; [reflexivity|]. inversion H; subst; [congruence|assumption].
Qed.

Lemma insert_head : forall y b, Forall (fun z => fle y z = false) b -> f_insert y b = y :: b.
Proof. intros y [|z b] H; [reflexivity|]. inversion H; subst. cbn [f_insert]. rewrite H2. reflexivity. Qed.

(** The list [l] is [s] with [x] put at position [n]; what comes before is not below [x], what comes after not above. *)
Definition has (x : double) (n : nat) (s l : list double) : Prop :=
  exists a b, s = a ++ b /\ l = a ++ x :: b /\ length a = n /\ Forall (fun z => fle x z = true) a /\ Forall (fun z => fle z x = true) b.

Lemma has_insert : forall x y n s l, finite_double x -> finite_double y -> Forall finite_double s -> has x n s l ->
  has x ((if flt x y then 1 else 0) + n) (f_insert y s) (f_insert y l).
Proof.
  intros x y n s l Fx Fy Fs (a & b & -> & -> & <- & HA & HB). rewrite flt_fle by assumption.
  apply Forall_app in Fs. destruct Fs as [FA FB].
  destruct (fle y x) eqn:E; cbn [negb].
  - assert (YA : Forall (fun z => fle y z = true) a).
    { rewrite Forall_forall in *. intros z Hz. apply (fle_trans y x z); auto. apply finite_dbl. exact Fy. }
    exists a, (f_insert y b). rewrite !insert_after by exact YA. cbn [f_insert]. rewrite E. split; [reflexivity|]. split; [reflexivity|].
    split; [reflexivity|]. split; [exact HA|]. rewrite Forall_forall in *. intros z Hz. apply (Permutation_in _ (insert_perm y b)) in Hz.
    destruct Hz as [<-|Hz]; auto.
  - assert (XY : fle x y = true) by (apply fle_total; assumption).
    destruct (Exists_dec (fun z => fle y z = false) a) as [EX|NE].
    { intros z. destruct (fle y z); [right; discriminate|left; reflexivity]. }
    + exists (f_insert y a), b. rewrite !insert_before by exact EX. split; [reflexivity|]. split; [reflexivity|].
      split; [rewrite (Permutation_length (insert_perm y a)); reflexivity|]. split; [|exact HB].
      rewrite Forall_forall in *. intros z Hz. apply (Permutation_in _ (insert_perm y a)) in Hz. destruct Hz as [<-|Hz]; auto.
    + assert (YA : Forall (fun z => fle y z = true) a).
      { apply Forall_forall. intros z Hz. destruct (fle y z) eqn:EZ; [reflexivity|]. exfalso. apply NE. apply Exists_exists. exists z. auto. }
      exists (a ++ [y]), b. rewrite !insert_after by exact YA. cbn [f_insert]. rewrite E.
      assert (YB : Forall (fun z => fle y z = false) b).
      { rewrite Forall_forall in *. intros z Hz. destruct (fle y z) eqn:EZ; [|reflexivity]. exfalso.
        assert (fle y x = true) by (apply (fle_trans y z x); auto; apply finite_dbl; exact Fy). congruence. }
      rewrite insert_head by exact YB. rewrite <- !app_assoc. cbn [app]. split; [reflexivity|]. split; [reflexivity|].
      split; [rewrite app_length; cbn [length]; lia|]. split; [|exact HB]. apply Forall_app. split; [exact HA|]. constructor; [exact XY|constructor].
Qed.

Lemma has_start : forall x s, finite_double x -> Forall finite_double s -> fdesc s ->
  has x (length (filter (fun y => fle x y) s)) s (f_insert x s).
Proof.
  intros x s Fx Fs S. induction s as [|y s IH]; cbn [filter f_insert].
  - exists [], []. repeat split; constructor.
  - inversion Fs as [|? ? F1 F2]; subst. inversion S as [|? ? S1 S2]; subst. destruct (fle x y) eqn:E.
    + destruct (IH F2 S1) as (a & b & Es & El & En & HA & HB). exists (y :: a), b. rewrite Es at 1. rewrite El. cbn [app length]. rewrite En.
      split; [reflexivity|]. split; [reflexivity|]. split; [reflexivity|]. split; [constructor; assumption|exact HB].
    + assert (YX : fle y x = true) by (apply fle_total; assumption).
      assert (ALL : Forall (fun z => fle z x = true) s).
      { rewrite Forall_forall in *. intros z Hz. apply (fle_trans z y x); auto. apply finite_dbl. auto. }
      assert (E0 : filter (fun y => fle x y) s = []).
      { clear - S2 E Fx F1 F2. induction s as [|z s IH]; [reflexivity|]. inversion S2; inversion F2; subst. cbn [filter].
        destruct (fle x z) eqn:EZ; [|auto]. exfalso. assert (fle x y = true) by (apply (fle_trans x z y); auto; apply finite_dbl; exact Fx). congruence. }
      rewrite E0. exists [], (y :: s). repeat split; [constructor|]. constructor; assumption.
Qed.

Lemma filter_perm_len : forall (f : double -> bool) l l', Permutation l l' -> length (filter f l) = length (filter f l').
Proof.
  intros f l l' P. induction P; cbn [filter]; try congruence.
  - destruct (f x); cbn [length]; congruence.
  - destruct (f x), (f y); reflexivity.
Qed.

Lemma sort_app : forall l l', f_sort (l ++ l') = fold_left (fun acc x => f_insert x acc) l' (f_sort l).
Proof. intros. unfold f_sort. apply fold_left_app. Qed.

(** Sorting a category: the others in order, and the agent at its position. *)
Lemma sort_position : forall pre post x, finite_double x -> Forall finite_double pre -> Forall finite_double post ->
  has x (position pre post x) (f_sort (pre ++ post)) (f_sort (pre ++ x :: post)).
Proof.
  intros pre post x Fx F1 F2. rewrite !sort_app. cbn [fold_left].
  assert (H0 : has x (length (filter (fun y => fle x y) pre)) (f_sort pre) (f_insert x (f_sort pre))).
  { rewrite <- (filter_perm_len _ _ _ (sort_perm pre)). apply has_start; [exact Fx|apply sort_forall; exact F1|apply sort_sorted; exact F1]. }
  unfold position. set (n := length (filter _ pre)) in *. clearbody n. revert H0.
  assert (FS : Forall finite_double (f_sort pre)) by (apply sort_forall; exact F1). revert FS.
  generalize (f_insert x (f_sort pre)). generalize (f_sort pre). revert n. clear F1.
  induction F2 as [|y post Fy F2 IH]; intros n s l FS H; cbn [fold_left filter].
  - cbn [length]. rewrite Nat.add_0_r. exact H.
  - assert (I := has_insert x y n s l Fx Fy FS H).
    replace (n + length (if flt x y then y :: filter (fun y0 => flt x y0) post else filter (fun y0 => flt x y0) post))
      with ((if flt x y then 1 else 0) + n + length (filter (fun y0 => flt x y0) post)) by (destruct (flt x y); cbn [length]; lia).
    apply IH; [|exact I]. rewrite Forall_forall in *. intros z Hz. apply (Permutation_in _ (insert_perm y s)) in Hz. destruct Hz as [<-|Hz]; auto.
Qed.

Lemma filter_incl_len : forall (f g : double -> bool) l, (forall x, In x l -> f x = true -> g x = true) -> length (filter f l) <= length (filter g l).
Proof.
  intros f g l H. induction l as [|x l IH]; cbn [filter]; [lia|]. assert (I := IH (fun y Y => H y (or_intror Y))).
  assert (X := H x (or_introl eq_refl)). destruct (f x), (g x); cbn [length]; first [lia | (specialize (X eq_refl); discriminate)].
Qed.

(** A higher report moves the agent forward. *)
Lemma position_mono : forall pre post lo hi, finite_double lo -> finite_double hi -> Forall finite_double pre -> Forall finite_double post ->
  fle lo hi = true -> position pre post hi <= position pre post lo.
Proof.
  intros pre post lo hi Fl Fh F1 F2 H. unfold position. rewrite Forall_forall in *. apply Nat.add_le_mono; apply filter_incl_len; intros y Hy E.
  - apply (fle_trans lo hi y); auto. apply finite_dbl. exact Fl.
  - rewrite flt_fle in * by auto. destruct (fle y lo) eqn:EY; [|reflexivity]. exfalso.
    assert (X : fle y hi = true) by (apply (fle_trans y lo hi); auto using finite_dbl). rewrite X in E. discriminate.
Qed.

(** Two reports: up to the position of the lower one the lists differ, behind it they do not. *)
Lemma two_sorted : forall pre post lo hi, finite_double lo -> finite_double hi -> Forall finite_double pre -> Forall finite_double post ->
  fle lo hi = true ->
  exists xl xh q top, f_sort (pre ++ lo :: post) = (xl ++ [lo]) ++ q /\ f_sort (pre ++ hi :: post) = (xh ++ [top]) ++ q /\
    length xl = position pre post lo /\ length xh = length xl /\ fle lo top = true.
Proof.
  intros pre post lo hi Fl Fh F1 F2 H.
  destruct (sort_position pre post lo Fl F1 F2) as (a & b & Es & E1 & L1 & A1 & B1).
  destruct (sort_position pre post hi Fh F1 F2) as (a' & b' & Es' & E2 & L2 & A2 & B2).
  assert (M := position_mono pre post lo hi Fl Fh F1 F2 H). rewrite <- L1, <- L2 in M. rewrite Es in Es'.
  (* a = a' ++ m, b' = m ++ b *)
  assert (X : exists m, a = a' ++ m /\ b' = m ++ b).
  { clear - Es' M. revert a Es' M. induction a' as [|z a' IH]; intros a E M; [exists a; split; [reflexivity|symmetry; exact E]|].
    destruct a as [|z' a]; [cbn in M; lia|]. cbn [app] in E. injection E as <- E. cbn [length] in M. destruct (IH a E ltac:(lia)) as (m & -> & ->). exists m. split; reflexivity. }
  destruct X as (m & -> & ->).
  destruct (rev m) as [|top m'] eqn:Em.
  - assert (m = []) by (rewrite <- (rev_involutive m), Em; reflexivity). subst m. exists (a' ++ []), a', b, hi.
    rewrite E1, E2, <- !app_assoc. cbn [app]. rewrite app_nil_r in *. repeat split; auto.
  - assert (ET : m = rev m' ++ [top]) by (rewrite <- (rev_involutive m), Em; reflexivity). subst m.
    exists (a' ++ rev m' ++ [top]), (a' ++ hi :: rev m'), b, top. rewrite E1, E2. repeat (rewrite <- !app_assoc; cbn [app]).
    split; [reflexivity|]. split; [reflexivity|]. split; [exact L1|]. split; [rewrite !app_length; cbn [length]; lia|].
    rewrite !Forall_app in A1. destruct A1 as (_ & _ & A1). inversion A1; assumption.
Qed.
