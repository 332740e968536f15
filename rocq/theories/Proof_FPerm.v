(** * C123: the sorts give the same list for every order *)

From Coq Require Import String ZArith Reals Qreals QArith List Lia Lra Sorted Permutation.
From Coq Require Import SpecFloat.
From Flocq Require Import Core BinarySingleNaN.
From Verif Require Import Base Model_Float Model_FloatMcAfee Model_FloatTradeReduction Spec_Float Spec_FloatMcAfee Spec_FloatOrder Proof_Float Proof_Float2 Proof_FM1.
From Verif Require Proof_FT3.
Import ListNotations.

Local Open Scope nat_scope.
#[local] Existing Instance hprec.
#[local] Existing Instance hmax.

Lemma fle_antisym : forall x y, ordinary x -> ordinary y -> fle x y = true -> fle y x = true -> x = y.
Proof.
  intros x y [Fx Nx] [Fy Ny] H1 H2. destruct (finite_B x Fx) as (a & Fa & ->). destruct (finite_B y Fy) as (b & Fb & ->).
  rewrite fle_B in H1, H2. apply Bleb_iff in H1; [|assumption..]. apply Bleb_iff in H2; [|assumption..].
  assert (E : B2R a = B2R b) by lra. f_equal.
  destruct a as [s|s| |s m e V]; try discriminate; destruct b as [s'|s'| |s' m' e' V']; try discriminate.
  - destruct s; [exfalso; apply Nx; reflexivity|]. destruct s'; [exfalso; apply Ny; reflexivity|]. reflexivity.
  - exfalso. cbn [B2R] in E. symmetry in E. apply Float_prop.eq_0_F2R in E. destruct s'; discriminate.
  - exfalso. cbn [B2R] in E. apply Float_prop.eq_0_F2R in E. destruct s; discriminate.
  - apply B2R_inj; auto.
Qed.

Lemma sorted_unique : forall l l', Permutation l l' -> Forall ordinary l -> fdesc l -> fdesc l' -> l = l'.
Proof.
  induction l as [|a l IH]; intros l' P O S S'.
  - apply Permutation_nil in P. auto.
  - destruct l' as [|b l']; [apply Permutation_sym, Permutation_nil in P; discriminate|].
    inversion O as [|? ? Oa Ol]; subst. inversion S as [|? ? S1 S2]; subst. inversion S' as [|? ? S3 S4]; subst.
    assert (IB : In b (a :: l)) by (apply (Permutation_in _ (Permutation_sym P)); left; reflexivity).
    assert (IA : In a (b :: l')) by (apply (Permutation_in _ P); left; reflexivity).
    assert (a = b) as <-.
    { destruct IB as [->|IB]; [reflexivity|]. destruct IA as [->|IA]; [reflexivity|]. rewrite Forall_forall in *. apply fle_antisym; auto. }
    f_equal. apply IH; auto. apply Permutation_cons_inv in P. exact P.
Qed.

Lemma ordinary_finite : forall l, Forall ordinary l -> Forall finite_double l.
Proof. apply Forall_impl. intros x [H _]. exact H. Qed.

Lemma forall_perm : forall A (P : A -> Prop) l l', Permutation l l' -> Forall P l -> Forall P l'.
Proof. intros A P l l' H F. rewrite Forall_forall in *. intros x Hx. apply F. apply (Permutation_in _ (Permutation_sym H)). exact Hx. Qed.

Lemma sort_relisted : forall l l', Permutation l l' -> Forall ordinary l -> f_sort l = f_sort l'.
Proof.
  intros l l' P O. assert (O' := forall_perm _ _ _ _ P O). assert (P1 := sort_perm l). assert (P2 := sort_perm l').
  apply sorted_unique.
  - eapply perm_trans; [|eapply perm_trans; [exact P|]]; [apply Permutation_sym in P1 || idtac; first [exact P1 | apply Permutation_sym; exact P1] | first [exact P2 | apply Permutation_sym; exact P2]].
  - apply sort_forall. exact O.
  - apply sort_sorted. apply ordinary_finite. exact O.
  - apply sort_sorted. apply ordinary_finite. exact O'.
Qed.

Lemma desc_sorted : forall l, Forall finite_double l -> fdesc (f_desc l).
Proof.
  intros l F. unfold f_desc. apply (Proof_FT3.isort_sorted _ (fun x y => fle y x) finite_double); [| |exact F].
  - intros x y Fx Fy. destruct (fle y x) eqn:E; [left; reflexivity|right; apply fle_total; assumption].
  - intros x y z Fx Fy Fz H1 H2. apply (fle_trans z y x); auto. apply finite_dbl. exact Fz.
Qed.

Lemma desc_relisted : forall l l', Permutation l l' -> Forall ordinary l -> f_desc l = f_desc l'.
Proof.
  intros l l' P O. assert (O' := forall_perm _ _ _ _ P O). assert (P1 := f_desc_perm l). assert (P2 := f_desc_perm l').
  apply sorted_unique.
  - eapply perm_trans; [exact P1|eapply perm_trans; [exact P|apply Permutation_sym; exact P2]].
  - apply (forall_perm _ _ l); [apply Permutation_sym; exact P1|exact O].
  - apply desc_sorted. apply ordinary_finite. exact O.
  - apply desc_sorted. apply ordinary_finite. exact O'.
Qed.

Lemma map_relisted : forall (f : list double -> list double) cats cats', (forall l l', Permutation l l' -> Forall ordinary l -> f l = f l') ->
  relisted cats cats' -> Forall (Forall ordinary) cats -> map f cats = map f cats' /\ map (@length double) cats = map (@length double) cats' /\
  (forall A (z : A), map (fun _ : list double => z) cats = map (fun _ => z) cats') /\ length cats = length cats'.
Proof.
  intros f cats cats' E R. induction R as [|l l' cats cats' P R IH]; intros O; [repeat split|].
  inversion O as [|? ? O1 O2]; subst. destruct (IH O2) as (A1 & A2 & A3 & A4). cbn [map length]. rewrite (E l l' P O1), A1, A2, A4, (Permutation_length P).
  repeat split. intros A z. rewrite A3. reflexivity.
Qed.

Lemma auction_relisted : forall cats cats' recipe, relisted cats cats' -> Forall (Forall ordinary) cats -> f_auction cats recipe = f_auction cats' recipe.
Proof.
  intros cats cats' recipe R O. destruct (map_relisted f_sort _ _ sort_relisted R O) as (A1 & A2 & _ & A4). unfold f_auction. rewrite A1, A2, A4. reflexivity.
Qed.

Lemma mcafee_relisted : forall it cats cats' h, relisted cats cats' -> Forall (Forall ordinary) cats -> f_mcafee it cats h = f_mcafee it cats' h.
Proof.
  intros it cats cats' h R O. destruct (map_relisted f_desc _ _ desc_relisted R O) as (A1 & _ & A3 & _). unfold f_mcafee. rewrite A1, !A3. reflexivity.
Qed.

Lemma reduction_relisted : forall it cats cats' g, relisted cats cats' -> Forall (Forall ordinary) cats -> f_trade_reduction it cats g = f_trade_reduction it cats' g.
Proof.
  intros it cats cats' g R O. destruct (map_relisted f_desc _ _ desc_relisted R O) as (A1 & _ & A3 & _). unfold f_trade_reduction. rewrite A1, !A3. reflexivity.
Qed.
