(** * The ascending auction on doubles: termination and individual rationality *)

From Coq Require Import ZArith Reals List Lia Lra Sorted Permutation.
From Coq Require Import SpecFloat.
From Flocq Require Import Core BinarySingleNaN.
From Verif Require Import Base Model_Float Spec_Float Proof_Float.
Import ListNotations.

Local Open Scope nat_scope.

(** ** Lists *)

Lemma nth_set_same : forall A (l : list A) i x, i < length l -> nth_error (set_nth i x l) i = Some x.
Proof. induction l as [|a l IH]; intros [|i] x H; simpl in *; try lia; auto. apply IH. lia. Qed.

Lemma nth_set_other : forall A (l : list A) i j x, i <> j -> nth_error (set_nth i x l) j = nth_error l j.
Proof. induction l as [|a l IH]; intros [|i] [|j] x H; simpl; try lia; auto. Qed.

Lemma set_len : forall A (l : list A) i x, length (set_nth i x l) = length l.
Proof. induction l as [|a l IH]; intros [|i] x; simpl; auto. Qed.

Lemma nsum_set : forall A (f : A -> nat) (l : list A) i x y, nth_error l i = Some x -> f y < f x ->
  nsum (map f (set_nth i y l)) < nsum (map f l).
Proof.
  unfold nsum. induction l as [|a l IH]; intros [|i] x y H Hl; simpl in *; try discriminate.
  - inversion H; subst. lia.
  - specialize (IH i x y H Hl). lia.
Qed.

Lemma rev_last : forall A (c : list A) low r, rev c = low :: r -> c = removelast c ++ [low].
Proof.
  intros A c low r H. assert (E : c = rev r ++ [low]).
  { rewrite <- (rev_involutive c), H. reflexivity. }
  rewrite E at 2. rewrite removelast_app by discriminate. simpl. rewrite app_nil_r. exact E.
Qed.

Lemma argmax_in : forall key l best, In (f_argmax_from key best l) (best :: l).
Proof.
  induction l as [|x l IH]; intros best; simpl; [auto|].
  destruct (flt _ _); [destruct (IH x) as [E|E]|destruct (IH best) as [E|E]]; simpl in *; auto.
Qed.

(** ** One round *)

Definition relevant (recipe : list nat) : list nat :=
  filter (fun i => Nat.ltb 0 (nth i recipe 0)) (seq 0 (length recipe)).

Lemma relevant_in : forall recipe i, In i (relevant recipe) -> exists r, nth_error recipe i = Some (S r).
Proof.
  intros recipe i H. apply filter_In in H. destruct H as [H1 H2]. apply in_seq in H1. apply Nat.ltb_lt in H2.
  rewrite (nth_error_nth' recipe 0) by lia. exists (Nat.pred (nth i recipe 0)). f_equal. lia.
Qed.

Lemma relevant_nonempty : forall recipe, Exists (fun r => 0 < r) recipe -> relevant recipe <> [].
Proof.
  intros recipe H E. apply Exists_exists in H. destruct H as (r & H1 & H2).
  apply (In_nth _ _ 0) in H1. destruct H1 as (i & H1 & H3).
  assert (K : In i (relevant recipe)).
  { apply filter_In. split; [apply in_seq; lia|]. rewrite H3. apply Nat.ltb_lt. assumption. }
  rewrite E in K. destruct K.
Qed.

(** The state after one round: [None] when the round fails or the category is empty. *)
Lemma increase_ok : forall recipe prices i r low p, nth_error recipe i = Some (S r) -> nth_error prices i = Some p ->
  exists b np, f_increase recipe prices i low = Ok (b, set_nth i np prices) /\
    (b = false -> np = low) /\
    (b = true -> exists w, w = fsub (f_dot prices recipe) (fmul (fint (Z.of_nat (S r))) p) /\
       fle (fint 0) (fadd w (fmul (fint (Z.of_nat (S r))) low)) = true /\
       np = fdiv (fsub (fint 0) w) (fint (Z.of_nat (S r)))).
Proof.
  intros recipe prices i r low p Hr Hp. unfold f_increase, f_sum_without, get. rewrite Hr, Hp. cbn [bind].
  destruct (fle (fint 0) _) eqn:E.
  - change (S r =? 0) with false. cbv iota. eexists true, _. split; [reflexivity|]. split; [discriminate|].
    intros _. eexists. split; [reflexivity|]. split; [assumption|reflexivity].
  - eexists false, _. split; [reflexivity|]. split; [reflexivity|discriminate].
Qed.

(** ** Termination *)

Lemma f_loop_ends : forall recipe fuel cats prices,
  length cats = length recipe -> length prices = length recipe -> relevant recipe <> [] ->
  nsum (map (@length double) cats) < fuel ->
  exists res, f_loop fuel recipe cats prices = Ok res.
Proof.
  intros recipe. induction fuel as [|fuel IH]; intros cats prices Lc Lp NE Hf; [lia|].
  cbn [f_loop]. change (filter _ _) with (relevant recipe).
  destruct (relevant recipe) as [|x l] eqn:R; [congruence|].
  assert (Im : In (f_argmax_from (f_potential cats recipe) x l) (relevant recipe)) by (rewrite R; apply argmax_in).
  set (main := f_argmax_from _ _ _) in *.
  destruct (relevant_in _ _ Im) as (r & Hr).
  assert (Hi : main < length recipe) by (apply nth_error_Some; congruence).
  destruct (nth_error cats main) as [c|] eqn:Hc; [|apply nth_error_None in Hc; lia].
  destruct (nth_error prices main) as [p|] eqn:Hp; [|apply nth_error_None in Hp; lia].
  unfold get. rewrite Hc. cbn [bind].
  destruct (rev c) as [|low rc] eqn:Rc; [eexists; reflexivity|].
  destruct (increase_ok recipe prices main r low p Hr Hp) as (b & np & E & _). rewrite E. cbn [bind fst snd].
  destruct b; [eexists; reflexivity|].
  apply IH; rewrite ?set_len; auto.
  apply rev_last in Rc.
  assert (length (removelast c) < length c).
  { rewrite Rc at 2. rewrite app_length. simpl. lia. }
  pose proof (nsum_set _ (@length double) cats main c (removelast c) Hc H). lia.
Qed.

Lemma sort_len : forall l, length (f_sort l) = length l.
Proof.
  intros l. unfold f_sort.
  assert (I : forall x l, length (f_insert x l) = S (length l)).
  { intros x m. induction m as [|y m IH]; simpl; [reflexivity|]. destruct (fle x y); simpl; auto. }
  assert (G : forall l acc, length (fold_left (fun acc x => f_insert x acc) l acc) = length acc + length l).
  { induction l0 as [|x l0 IH]; intros acc; simpl; [lia|]. rewrite IH, I. lia. }
  rewrite G. reflexivity.
Qed.

Lemma auction_ends : forall cats recipe, length recipe = length cats -> Exists (fun r => 0 < r) recipe ->
  exists res, f_auction cats recipe = Ok res.
Proof.
  intros cats recipe L E. unfold f_auction. rewrite (proj2 (Nat.eqb_eq _ _) L).
  apply f_loop_ends; rewrite ?map_length, ?repeat_length; auto; [apply relevant_nonempty; assumption|].
  rewrite map_map. rewrite (map_ext _ (@length double) sort_len). lia.
Qed.

(** ** Doubles *)

Definition dbl (x : double) : Prop := exists b : bf, x = B2SF b.

Lemma finite_B : forall x, finite_double x -> exists b : bf, is_finite b = true /\ x = B2SF b.
Proof.
  intros x [V F]. exists (SF2B x V). split; [|symmetry; apply B2SF_SF2B].
  rewrite <- is_finite_SF_B2SF, B2SF_SF2B. destruct x; simpl in *; auto; contradiction.
Qed.

Lemma finite_dbl : forall x, finite_double x -> dbl x.
Proof. intros x H. destruct (finite_B x H) as (b & _ & E). exists b. exact E. Qed.

Lemma dbl_int : forall z, dbl (fint z).
Proof. intros. eexists. apply int_B. Qed.
Lemma dbl_add : forall x y, dbl x -> dbl y -> dbl (fadd x y).
Proof. intros x y [a ->] [b ->]. eexists. apply add_B. Qed.
Lemma dbl_sub : forall x y, dbl x -> dbl y -> dbl (fsub x y).
Proof. intros x y [a ->] [b ->]. eexists. apply sub_B. Qed.
Lemma dbl_mul : forall x y, dbl x -> dbl y -> dbl (fmul x y).
Proof. intros x y [a ->] [b ->]. eexists. apply mul_B. Qed.
Lemma dbl_div : forall x y, dbl x -> dbl y -> dbl (fdiv x y).
Proof. intros x y [a ->] [b ->]. eexists. apply div_B. Qed.

Lemma dbl_dot_from : forall xx yy acc, dbl acc -> Forall dbl xx -> dbl (f_dot_from acc xx yy).
Proof.
  induction xx as [|x xx IH]; intros [|y yy] acc Ha Hx; simpl; auto. inversion Hx; subst.
  apply IH; [|assumption]. apply dbl_add; [assumption|]. apply dbl_mul; [assumption|apply dbl_int].
Qed.

Lemma fle_trans : forall p v v', dbl p -> finite_double v -> finite_double v' ->
  fle p v = true -> fle v v' = true -> fle p v' = true.
Proof.
  intros p v v' [bp ->] Hv Hv' H1 H2.
  destruct (finite_B v Hv) as (b & Fb & ->). destruct (finite_B v' Hv') as (b' & Fb' & ->).
  destruct (is_finite bp) eqn:Fp.
  - rewrite fle_B in *. apply Bleb_iff in H1; [|assumption..]. apply Bleb_iff in H2; [|assumption..].
    apply Bleb_iff; [assumption..|]. lra.
  - destruct bp as [s|[]| |s m e B]; try discriminate.
    + destruct b' as [s'|[]| |[] m' e' B']; try discriminate; reflexivity.
    + destruct b as [s'|[]| |[] m' e' B']; try discriminate.
Qed.

Lemma fle_total : forall v v', finite_double v -> finite_double v' -> fle v v' = false -> fle v' v = true.
Proof.
  intros v v' Hv Hv' H. destruct (finite_B v Hv) as (b & Fb & ->). destruct (finite_B v' Hv') as (b' & Fb' & ->).
  rewrite fle_B in *. apply Bleb_iff; [assumption..|].
  destruct (Rle_lt_dec (B2R b) (B2R b')) as [L|L]; [|lra].
  exfalso. apply Bool.not_true_iff_false in H. apply H. apply Bleb_iff; assumption.
Qed.

(** ** Sorting *)

Lemma insert_perm : forall x l, Permutation (f_insert x l) (x :: l).
Proof.
  intros x l. induction l as [|y l IH]; simpl; [reflexivity|]. destruct (fle x y); [|reflexivity].
  rewrite IH. apply perm_swap.
Qed.

Lemma sort_perm : forall l, Permutation (f_sort l) l.
Proof.
  intros l. unfold f_sort.
  assert (G : forall l acc, Permutation (fold_left (fun acc x => f_insert x acc) l acc) (acc ++ l)).
  { induction l0 as [|x l0 IH]; intros acc; simpl; [rewrite app_nil_r; reflexivity|].
    rewrite IH, insert_perm. simpl. apply Permutation_middle. }
  apply (G l []).
Qed.

Lemma insert_sorted : forall x l, finite_double x -> Forall finite_double l -> fdesc l -> fdesc (f_insert x l).
Proof.
  intros x l Fx Fl S. induction l as [|y l IH]; simpl.
  - constructor; constructor.
  - inversion Fl as [|y' l' F1 F2 Eq]; subst. inversion S as [|y' l' S1 S2 Eq]; subst.
    destruct (fle x y) eqn:E.
    + constructor; [apply IH; assumption|].
      rewrite Forall_forall. intros z Hz. apply (Permutation_in _ (insert_perm x l)) in Hz. destruct Hz as [<-|Hz]; [assumption|].
      rewrite Forall_forall in S2. auto.
    + constructor; [assumption|]. apply fle_total in E; [|assumption..].
      constructor; [assumption|]. rewrite Forall_forall in *. intros z Hz.
      apply (fle_trans z y x); auto. apply finite_dbl. auto.
Qed.

Lemma sort_sorted : forall l, Forall finite_double l -> fdesc (f_sort l).
Proof.
  intros l Fl. unfold f_sort.
  assert (G : forall l acc, Forall finite_double l -> Forall finite_double acc -> fdesc acc ->
    fdesc (fold_left (fun acc x => f_insert x acc) l acc)).
  { induction l0 as [|x l0 IH]; intros acc F1 F2 S; simpl; [assumption|]. inversion F1; subst.
    apply IH; [assumption| |apply insert_sorted; assumption].
    rewrite Forall_forall in *. intros z Hz. apply (Permutation_in _ (insert_perm x acc)) in Hz.
    destruct Hz as [<-|Hz]; auto. }
  apply G; [assumption|constructor|constructor].
Qed.

Lemma sort_forall : forall (P : double -> Prop) l, Forall P l -> Forall P (f_sort l).
Proof.
  intros P l H. rewrite Forall_forall in *. intros z Hz. apply H. apply (Permutation_in _ (sort_perm l)). assumption.
Qed.

(** ** Individual rationality *)

(** A category of the state and its price. *)
Definition good (c : list double) (p : double) : Prop :=
  Forall finite_double c /\ fdesc c /\ dbl p /\ Forall (fun v => fle p v = true) c.

Definition inv (cats : list (list double)) (prices : list double) : Prop :=
  Forall2 good cats prices.

Lemma Forall2_set : forall A B (P : A -> B -> Prop) l l' i x y, Forall2 P l l' -> P x y ->
  Forall2 P (set_nth i x l) (set_nth i y l').
Proof.
  intros A B P l l' i x y H Hx. revert i. induction H as [|a b l l' H1 H2 IH]; intros [|i]; simpl; constructor; auto.
Qed.

Lemma Forall2_set_r : forall A B (P : A -> B -> Prop) l l' i x y, Forall2 P l l' -> nth_error l i = Some x -> P x y ->
  Forall2 P l (set_nth i y l').
Proof.
  intros A B P l l' i x y H. revert i. induction H as [|a b l l' H1 H2 IH]; intros [|i] E Hx; simpl in *; try discriminate; constructor; auto.
  inversion E; subst. assumption.
Qed.

Lemma Forall2_nth : forall A B (P : A -> B -> Prop) l l' i x y, Forall2 P l l' ->
  nth_error l i = Some x -> nth_error l' i = Some y -> P x y.
Proof.
  intros A B P l l' i x y H. revert i. induction H as [|a b l l' H1 H2 IH]; intros [|i] E E'; simpl in *; try discriminate; eauto.
  congruence.
Qed.

Lemma removelast_good : forall c low p, good (c ++ [low]) p -> good c low.
Proof.
  intros c low p (F & S & D & I). apply Forall_app in F. destruct F as [F1 F2].
  assert (Fl : finite_double low) by (inversion F2; assumption).
  assert (G : fdesc c /\ Forall (fun v => fle low v = true) c).
  { clear F2 D I F1. induction c as [|x c IH]; simpl in *; [split; constructor|].
    inversion S as [|x' l' S1 S2 Eq]; subst. destruct (IH S1) as [A B]. apply Forall_app in S2. destruct S2 as [S2 S3].
    split; constructor; auto. inversion S3; assumption. }
  destruct G as [G1 G2]. repeat split; auto. apply finite_dbl. assumption.
Qed.

Lemma good_dbl : forall cats prices, inv cats prices -> Forall dbl prices.
Proof. intros cats prices H. induction H as [|c p cats prices (_ & _ & D & _) H IH]; constructor; auto. Qed.

Lemma low_le : forall c low p v, good (c ++ [low]) p -> In v (c ++ [low]) -> v = low \/ fle low v = true.
Proof.
  intros c low p v G H. apply in_app_or in H. destruct H as [H|[H|[]]]; [right|auto].
  apply removelast_good in G. destruct G as (_ & _ & _ & G). rewrite Forall_forall in G. auto.
Qed.

Lemma loop_good : forall recipe fuel cats prices cats' prices',
  length cats = length recipe ->
  Forall (fun r => r <= 1) recipe -> inv cats prices ->
  f_loop fuel recipe cats prices = Ok (cats', prices') -> inv cats' prices'.
Proof.
  intros recipe. induction fuel as [|fuel IH]; intros cats prices cats' prices' Lc R1 I H; [discriminate|].
  cbn [f_loop] in H. change (filter _ _) with (relevant recipe) in H.
  destruct (relevant recipe) as [|x l] eqn:R; [discriminate|].
  assert (Im : In (f_argmax_from (f_potential cats recipe) x l) (relevant recipe)) by (rewrite R; apply argmax_in).
  set (main := f_argmax_from _ _ _) in *.
  destruct (relevant_in _ _ Im) as (r & Hr).
  assert (Hi : main < length recipe) by (apply nth_error_Some; congruence).
  assert (Lp : length prices = length recipe).
  { rewrite <- Lc. symmetry. eapply Forall2_length. exact I. }
  destruct (nth_error cats main) as [c|] eqn:Hc; [|apply nth_error_None in Hc; lia].
  destruct (nth_error prices main) as [p|] eqn:Hp; [|apply nth_error_None in Hp; lia].
  unfold get in H. rewrite Hc in H. cbn [bind] in H.
  destruct (rev c) as [|low rc] eqn:Rc; [inversion H; subst; assumption|].
  apply rev_last in Rc.
  destruct (increase_ok recipe prices main r low p Hr Hp) as (b & np & E & E1 & E2). rewrite E in H. cbn [bind fst snd] in H.
  pose proof (Forall2_nth _ _ _ _ _ _ _ _ I Hc Hp) as G.
  destruct b.
  - inversion H; subst cats' prices'. clear H. apply (Forall2_set_r _ _ _ _ _ _ c); [assumption..|].
    destruct (E2 eq_refl) as (w & Ew & L & En).
    assert (r = 0) by (rewrite Forall_forall in R1; assert (S r <= 1) by (apply R1; eapply nth_error_In; eassumption); lia).
    subst r. change (fint (Z.of_nat 1)) with (fint 1) in *.
    assert (Dw : dbl w).
    { subst w. apply dbl_sub.
      - apply dbl_dot_from; [apply dbl_int|]. eapply good_dbl. eassumption.
      - apply dbl_mul; [apply dbl_int|]. destruct G as (_ & _ & D & _). exact D. }
    assert (Fl : finite_double low).
    { destruct G as (F & _). rewrite Rc in F. apply Forall_app in F. destruct F as [_ F]. inversion F; assumption. }
    assert (K : fle np low = true).
    { destruct Dw as [bw ->]. destruct (finite_B low Fl) as (bl & Fb & ->). rewrite En. apply stop_price; assumption. }
    assert (Dn : dbl np).
    { rewrite En. apply dbl_div; [|apply dbl_int]. apply dbl_sub; [apply dbl_int|assumption]. }
    destruct G as (G1 & G2 & G3 & G4). repeat split; auto.
    rewrite Forall_forall. intros v Hv. rewrite Rc in Hv.
    destruct (low_le (removelast c) low p v) as [->|Q]; auto.
    { rewrite <- Rc. repeat split; assumption. }
    apply (fle_trans np low v); auto. rewrite Forall_forall in G1. apply G1. rewrite Rc. assumption.
  - rewrite (E1 eq_refl) in H. apply IH in H; auto; [rewrite set_len; assumption|].
    apply Forall2_set; [assumption|]. rewrite Rc in G. apply removelast_good in G. assumption.
Qed.

Lemma start_good : forall cats n, Forall (Forall finite_double) cats ->
  Forall (Forall (fun v => fle (fint (-100000000)) v = true)) cats -> n = length cats ->
  inv (map f_sort cats) (repeat (fint (-100000000)) n).
Proof.
  intros cats n F L ->. induction cats as [|c cats IH]; cbn [map length repeat]; constructor.
  - inversion F; inversion L; subst. repeat split; [apply sort_forall; assumption|apply sort_sorted; assumption|apply dbl_int|].
    apply sort_forall. assumption.
  - inversion F; inversion L; subst. apply IH; assumption.
Qed.

Lemma float_rational : forall cats recipe cats' prices,
  Forall (Forall finite_double) cats -> Forall (Forall (fun v => fle (fint (-100000000)) v = true)) cats ->
  Forall (fun r => r <= 1) recipe -> f_auction cats recipe = Ok (cats', prices) ->
  forall i c p v, nth_error cats' i = Some c -> nth_error prices i = Some p -> In v c -> fle p v = true.
Proof.
  intros cats recipe cats' prices F L R H i c p v Hc Hp Hv. unfold f_auction in H.
  destruct (length recipe =? length cats) eqn:E; [|discriminate]. apply Nat.eqb_eq in E.
  apply loop_good in H; auto; [|rewrite map_length; auto|apply start_good; auto].
  destruct (Forall2_nth _ _ _ _ _ _ _ _ H Hc Hp) as (_ & _ & _ & G). rewrite Forall_forall in G. auto.
Qed.

(** ** The remaining agents are the best ones, for every recipe *)

Lemma firstn_removelast' : forall A (l : list A) k, removelast (firstn k l) = firstn (Nat.pred (length (firstn k l))) l.
Proof.
  intros A l k. rewrite removelast_firstn_len. rewrite firstn_firstn. f_equal. rewrite firstn_length. lia.
Qed.

Lemma loop_prefix : forall recipe fuel (cats0 : list (list double)) cats prices cats' prices',
  Forall2 (fun c0 c => exists k, c = firstn k c0) cats0 cats ->
  f_loop fuel recipe cats prices = Ok (cats', prices') ->
  Forall2 (fun c0 c => exists k, c = firstn k c0) cats0 cats'.
Proof.
  intros recipe. induction fuel as [|fuel IH]; intros cats0 cats prices cats' prices' I H; [discriminate|].
  cbn [f_loop] in H. destruct (filter _ _) as [|x l]; [discriminate|].
  set (main := f_argmax_from _ _ _) in *. unfold get in H.
  destruct (nth_error cats main) as [c|] eqn:Hc; [|discriminate]. cbn [bind] in H.
  destruct (rev c) as [|low rc]; [inversion H; subst; assumption|].
  apply bind_Ok in H. destruct H as ([b np] & E & H). cbn [fst snd] in H. destruct b; [inversion H; subst; assumption|].
  apply (IH cats0) in H; [assumption|].
  destruct (nth_error cats0 main) as [c0|] eqn:H0.
  - apply (Forall2_set_r _ _ _ _ _ _ c0); [assumption..|].
    destruct (Forall2_nth _ _ _ _ _ _ _ _ I H0 Hc) as (k & ->). rewrite firstn_removelast'. eexists. reflexivity.
  - apply nth_error_None in H0. apply Forall2_length in I. assert (main < length cats) by (apply nth_error_Some; congruence). lia.
Qed.

Lemma float_best : forall cats recipe cats' prices, f_auction cats recipe = Ok (cats', prices) ->
  Forall2 (fun c c' => exists k, c' = firstn k (f_sort c)) cats cats'.
Proof.
  intros cats recipe cats' prices H. unfold f_auction in H. destruct (_ =? _); [|discriminate].
  apply (loop_prefix _ _ (map f_sort cats)) in H.
  - clear - H. remember (map f_sort cats) as m eqn:E. revert cats E.
    induction H as [|a b l l' H1 H2 IH]; intros [|c cats] E; try discriminate; constructor; inversion E; subst; auto.
  - clear. induction (map f_sort cats) as [|c l IH]; constructor; auto. exists (length c). rewrite firstn_all. reflexivity.
Qed.

Lemma float_best_agents : forall cats recipe cats' prices,
  Forall (Forall finite_double) cats -> f_auction cats recipe = Ok (cats', prices) ->
  Forall2 (fun c c' => exists out, Permutation c (c' ++ out) /\ fdesc c'
                                   /\ forall v w, In v c' -> In w out -> fle w v = true) cats cats'.
Proof.
  intros cats recipe cats' prices F H. apply float_best in H. revert F.
  induction H as [|c c' cs cs' (k & ->) H IH]; intros F; constructor.
  - inversion F as [|? ? Fc _]; subst. exists (skipn k (f_sort c)). pose proof (sort_sorted c Fc) as S.
    rewrite <- (firstn_skipn k (f_sort c)) in S. pose proof (sort_perm c) as P.
    split; [rewrite firstn_skipn; symmetry; exact P|].
    generalize dependent (firstn k (f_sort c)). generalize (skipn k (f_sort c)). clear.
    intros b a S. induction a as [|x a IHa]; simpl in *; [split; [constructor|tauto]|].
    inversion S as [|? ? S' X]; subst. destruct (IHa S') as [A B]. rewrite Forall_forall in X. split.
    + constructor; auto. rewrite Forall_forall. intros y Hy. apply X, in_or_app. auto.
    + intros v w [<-|Hv] Hw; auto. apply X, in_or_app. auto.
  - apply IH. inversion F; assumption.
Qed.
