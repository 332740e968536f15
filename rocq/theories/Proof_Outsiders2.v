(** * Agents whose values are below the prices (C114): trade reduction *)

From Coq Require Import String List Arith Lia QArith Lqa Permutation Sorted.
From Verif Require Import Base Model_Agents Model_Prices Model_Trade Model_Market Model_Ascending Model_TradeReduction
  Spec_Market Spec_Trade Spec_Ascending Spec_TradeReduction Spec_Outsiders Proof_Market Proof_Ascending
  Proof_Ascending2 Proof_TR Proof_TR2 Proof_TR5 Proof_TR14 Proof_Outsiders.
Import ListNotations.
Open Scope Q_scope.

Lemma differ_below_eq : forall P Q m m', Forall2 Qeq P Q -> differ_below P m m' -> differ_below Q m m'.
Proof.
  intros P Q m m' E [L H]. split; [assumption|]. intros j Hj. destruct (H j Hj) as (N & common & low & low' & H1 & H2 & H3 & H4).
  assert (X : nth j P 0 == nth j Q 0) by (clear -E; revert j; induction E; intros [|j]; simpl; auto; reflexivity).
  split; [assumption|]. exists common, low, low'. split; [assumption|]. split; [assumption|].
  split; (eapply Forall_impl; [|eassumption]); intros v Hv; cbn beta in *; lra.
Qed.

Lemma qeq_sym : forall l l' : list Q, Forall2 Qeq l l' -> Forall2 Qeq l' l.
Proof. intros l l' H. induction H; constructor; [symmetry; assumption|assumption]. Qed.

Lemma qeq_trans : forall l1 l2 l3 : list Q, Forall2 Qeq l1 l2 -> Forall2 Qeq l2 l3 -> Forall2 Qeq l1 l3.
Proof.
  intros l1 l2 l3 H. revert l3. induction H as [|x y l l' E F IH]; intros l3 G; inversion G; subst; constructor; [lra|auto].
Qed.

Lemma auction_exists : forall M m recipe cap t z, trade_reduction_M M cap m recipe z = Ok t -> has_positive_entry recipe ->
  exists ta, ascending_auction_M M (S (total_agents m)) m recipe = Ok ta.
Proof.
  intros M m recipe cap t z H HP. destruct (ascending_terminates M (S (total_agents m)) m recipe) as [(ta & Ha & _)|(_ & N)]; [lia|exists ta; assumption|exfalso].
  destruct N as [N|N]; [|contradiction]. unfold trade_reduction_M in H. destruct (Nat.eqb_spec (length recipe) (length m)); [contradiction|discriminate].
Qed.

Theorem reduction_outsiders : forall M cap m m' recipe t t' P, 0 < M -> ones_but_last recipe -> no_spare m recipe -> no_spare m' recipe ->
  values_small M recipe m -> values_small M recipe m' -> cap_suffices cap m recipe -> cap_suffices cap m' recipe ->
  trade_reduction_M M cap m recipe true = Ok t -> trade_reduction_M M cap m' recipe true = Ok t' ->
  tprices t = Some P -> (0 < num_of_deals t)%nat -> differ_below P m m' ->
  (exists P', tprices t' = Some P' /\ Forall2 Qeq P P') /\ Forall2 same_agents (tcats t) (tcats t') /\ num_of_deals t' = num_of_deals t.
Proof.
  intros M cap m m' recipe t t' P HM HR NS NS' SM SM' CS CS' H H' HP D HD.
  assert (HPE : has_positive_entry recipe).
  { destruct HR as (n & r & Hr & ->). exists n, r. split; [|assumption]. rewrite nth_error_app2 by (rewrite repeat_length; lia). rewrite repeat_length, Nat.sub_diag. reflexivity. }
  destruct (auction_exists M m recipe cap t true H HPE) as [ta Ha]. destruct (auction_exists M m' recipe cap t' true H' HPE) as [ta' Ha'].
  destruct (tr_ascending_last _ _ _ _ _ _ _ HM HR NS SM CS H Ha) as [E1 F1].
  destruct (tr_ascending_last _ _ _ _ _ _ _ HM HR NS' SM' CS' H' Ha') as [E2 F2].
  destruct (F1 D) as (C1 & P1 & Pa & HP1 & HPa & EP). rewrite HP in HP1. injection HP1 as <-.
  assert (HPa' : exists Pa', tprices ta' = Some Pa').
  { destruct (auction_outcome _ _ _ _ _ Ha') as (_ & _ & ns & stop & _ & _ & Et & _). rewrite Et. cbn. eexists. reflexivity. }
  destruct HPa' as [Pa' HPa'].
  destruct (ascending_outsiders M _ _ m m' recipe ta ta' Pa Pa' HM (proj1 SM) (proj1 SM') Ha Ha' HPa HPa') as (X1 & X2 & X3);
    [apply (differ_below_eq P Pa); assumption|].
  destruct F2 as (C2 & P' & Pa2 & HP' & HPa2 & EP'); [lia|]. rewrite HPa' in HPa2. injection HPa2 as <-.
  split; [|split; [|lia]].
  - exists P'. split; [assumption|]. eapply qeq_trans; [exact EP|]. eapply qeq_trans; [exact X1|]. apply qeq_sym. assumption.
  - clear -C1 C2 X2. revert C2 X2. generalize (tcats ta'). generalize (tcats t'). induction C1 as [|c d l l' Ec F IH]; intros l2 l3 C2 X2.
    + inversion X2; subst. inversion C2; subst. constructor.
    + inversion X2 as [|? e ? l4 Ed F4]; subst. inversion C2 as [|g ? l5 ? Eg F5]; subst. constructor; [|apply (IH _ _ F5 F4)].
      destruct Ec as [n1 v1], Ed as [n2 v2], Eg as [n3 v3]. split; [congruence|].
      eapply qeq_trans; [exact v1|]. eapply qeq_trans; [exact v2|]. apply qeq_sym. assumption.
Qed.

Theorem reduction_outsiders_ones : forall M cap m m' recipe t t' P, 0 < M -> all_ones recipe ->
  values_small M recipe m -> values_small M recipe m' -> cap_suffices cap m recipe -> cap_suffices cap m' recipe ->
  trade_reduction_M M cap m recipe true = Ok t -> trade_reduction_M M cap m' recipe true = Ok t' ->
  tprices t = Some P -> (0 < num_of_deals t)%nat -> differ_below P m m' ->
  (exists P', tprices t' = Some P' /\ Forall2 Qeq P P') /\ Forall2 same_agents (tcats t) (tcats t') /\ num_of_deals t' = num_of_deals t.
Proof.
  intros M cap m m' recipe t t' P HM HR SM SM' CS CS' H H' HP D HD.
  assert (L : length recipe = length m).
  { unfold trade_reduction_M in H. destruct (Nat.eqb_spec (length recipe) (length m)); [assumption|discriminate]. }
  assert (NE : recipe <> []) by (destruct CS as (i & c & r & _ & X & _); intros ->; destruct i; discriminate).
  apply (reduction_outsiders M cap m m' recipe); try assumption.
  - exists (length recipe - 1)%nat, 1%nat. split; [lia|]. clear -HR NE. induction HR as [|x l Hx HF IH]; [congruence|]. subst x.
    destruct l as [|y l]; [reflexivity|]. cbn [length Nat.sub]. rewrite IH at 1 by discriminate. cbn [length Nat.sub]. rewrite Nat.sub_0_r. reflexivity.
  - apply ones_no_spare; assumption.
  - apply ones_no_spare; [assumption|assumption|]. destruct HD as [X _]. congruence.
Qed.
