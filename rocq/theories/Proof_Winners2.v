(** * The values of the agents who are left do not matter (C115): trade reduction *)

From Coq Require Import String List Arith Lia QArith Lqa Permutation Sorted.
From Verif Require Import Base Model_Agents Model_Prices Model_Trade Model_Market Model_Ascending Model_TradeReduction
  Spec_Market Spec_Trade Spec_Ascending Spec_TradeReduction Spec_Winners Proof_Market Proof_Ascending
  Proof_Ascending2 Proof_TR Proof_TR2 Proof_TR3 Proof_TR5 Proof_TR14 Proof_Outsiders Proof_Outsiders2 Proof_Winners.
Import ListNotations.
Open Scope Q_scope.

Lemma qeq_same_values : forall l l', Forall2 Qeq l l' -> same_values l l'.
Proof. intros l l' H. exists l. split; [apply Permutation_refl|assumption]. Qed.

Lemma cats_nth : forall (l l' : list category) j, Forall2 cat_eq l l' -> Forall2 Qeq (cvalues (nth j l dcat)) (cvalues (nth j l' dcat)).
Proof. intros l l' j H. revert j. induction H as [|x y l l' [_ E] F IH]; intros [|j]; cbn [nth]; try constructor; [exact E|apply IH]. Qed.

Lemma changes_left_eq : forall P Pa m l la new m', Forall2 Qeq P Pa -> Forall2 cat_eq l la -> changes_left P m l new m' -> changes_left Pa m la new m'.
Proof.
  intros P Pa m l la new m' E C [L H]. split; [assumption|]. intros j Hj. destruct (H j Hj) as (N & LN & G & others & S1 & S2).
  assert (X : nth j P 0 == nth j Pa 0) by (clear -E; revert j; induction E; intros [|j]; simpl; auto; reflexivity).
  assert (Y := cats_nth l la j C). change (mkCat "" []) with dcat in *.
  split; [assumption|]. split; [rewrite LN; unfold csize; apply (Forall2_length _ _ _ _ _ Y)|].
  split; [eapply Forall_impl; [|exact G]; intros v Hv; cbn beta in *; lra|].
  exists others. split; [|assumption]. eapply same_values_trans; [exact S1|]. apply same_values_app; [apply qeq_same_values; assumption|apply same_values_perm, Permutation_refl].
Qed.

Theorem reduction_winners : forall M cap m m' recipe new t t' P, 0 < M -> ones_but_last recipe -> no_spare m recipe ->
  values_small M recipe m -> values_small M recipe m' -> cap_suffices cap m recipe ->
  trade_reduction_M M cap m recipe true = Ok t -> trade_reduction_M M cap m' recipe true = Ok t' ->
  tprices t = Some P -> (0 < num_of_deals t)%nat -> changes_left P m (tcats t) new m' ->
  (exists P', tprices t' = Some P' /\ Forall2 Qeq P P') /\ num_of_deals t' = num_of_deals t
  /\ forall j, (j < length m)%nat -> same_values (new j) (cvalues (nth j (tcats t') (mkCat "" []))).
Proof.
  intros M cap m m' recipe new t t' P HM HR NS SM SM' CS H H' HP D HD.
  assert (SZ : map csize m' = map csize m).
  { destruct HD as [L HD]. apply (nth_ext _ _ 0%nat 0%nat); [rewrite !map_length; assumption|]. intros j Hj. rewrite map_length, L in Hj.
    destruct (HD j Hj) as (_ & LN & _ & others & S1 & S2).
    assert (E : forall l l', same_values l l' -> length l = length l').
    { intros l l' (l0 & X & Y). rewrite (Permutation_length X). apply (Forall2_length _ _ _ _ _ Y). }
    apply E in S1. apply E in S2. rewrite app_length in S1, S2. change 0%nat with (csize (mkCat "" [])). rewrite !map_nth. unfold csize in *. lia. }
  assert (AT : forall i c', nth_error m' i = Some c' -> exists c, nth_error m i = Some c /\ csize c = csize c').
  { intros i c' E. assert (X := map_nth_error csize i m' E). rewrite SZ in X. destruct (nth_error m i) as [c|] eqn:E5.
    - rewrite (map_nth_error csize i m E5) in X. injection X as X. exists c. auto.
    - apply nth_error_None in E5. rewrite (proj2 (nth_error_None (map csize m) i)) in X by (rewrite map_length; assumption). discriminate. }
  assert (AT' : forall i c, nth_error m i = Some c -> exists c', nth_error m' i = Some c' /\ csize c' = csize c).
  { intros i c E. assert (X := map_nth_error csize i m E). rewrite <- SZ in X. destruct (nth_error m' i) as [c'|] eqn:E5.
    - rewrite (map_nth_error csize i m' E5) in X. injection X as X. exists c'. auto.
    - apply nth_error_None in E5. rewrite (proj2 (nth_error_None (map csize m') i)) in X by (rewrite map_length; assumption). discriminate. }
  assert (NS' : no_spare m' recipe).
  { destruct NS as (s & N1 & i & c & r & E1 & E2 & E3 & E4). exists s. split.
    - intros k c' r' K1 K2. destruct (AT k c' K1) as (ck & K3 & K4). rewrite <- K4. apply (N1 k ck r' K3 K2).
    - destruct (AT' i c E1) as (c' & K1 & K2). exists i, c', r. repeat (split; [assumption|]). congruence. }
  assert (CS' : cap_suffices cap m' recipe).
  { destruct CS as (i & c & r & E1 & E2 & E3 & E4). destruct (AT' i c E1) as (c' & K1 & K2). exists i, c', r. repeat (split; [assumption|]). lia. }
  assert (HPE : has_positive_entry recipe).
  { destruct HR as (n & r & Hr & ->). exists n, r. split; [|assumption]. rewrite nth_error_app2 by (rewrite repeat_length; lia). rewrite repeat_length, Nat.sub_diag. reflexivity. }
  destruct (auction_exists M m recipe cap t true H HPE) as [ta Ha]. destruct (auction_exists M m' recipe cap t' true H' HPE) as [ta' Ha'].
  destruct (tr_ascending_last _ _ _ _ _ _ _ HM HR NS SM CS H Ha) as [E1 F1].
  destruct (tr_ascending_last _ _ _ _ _ _ _ HM HR NS' SM' CS' H' Ha') as [E2 F2].
  destruct (F1 D) as (C1 & P1 & Pa & HP1 & HPa & EP). rewrite HP in HP1. injection HP1 as <-.
  assert (HPa' : exists Pa', tprices ta' = Some Pa').
  { destruct (auction_outcome _ _ _ _ _ Ha') as (_ & _ & ns & stop & _ & _ & Et & _). rewrite Et. cbn. eexists. reflexivity. }
  destruct HPa' as [Pa' HPa'].
  destruct (ascending_winners M _ _ m m' recipe new ta ta' Pa Pa' HM Ha Ha' HPa HPa') as (X1 & X2 & X3);
    [eapply changes_left_eq; eassumption|].
  destruct F2 as (C2 & P' & Pa2 & HP' & HPa2 & EP'); [lia|]. rewrite HPa' in HPa2. injection HPa2 as <-.
  split; [|split; [lia|]].
  - exists P'. split; [assumption|]. eapply qeq_trans; [exact EP|]. eapply qeq_trans; [exact X1|]. apply qeq_sym. assumption.
  - intros j Hj. eapply same_values_trans; [apply X3; assumption|]. apply qeq_same_values, qeq_sym. change (mkCat "" []) with dcat. apply cats_nth. assumption.
Qed.

Theorem reduction_winners_ones : forall M cap m m' recipe new t t' P, 0 < M -> all_ones recipe ->
  values_small M recipe m -> values_small M recipe m' -> cap_suffices cap m recipe ->
  trade_reduction_M M cap m recipe true = Ok t -> trade_reduction_M M cap m' recipe true = Ok t' ->
  tprices t = Some P -> (0 < num_of_deals t)%nat -> changes_left P m (tcats t) new m' ->
  (exists P', tprices t' = Some P' /\ Forall2 Qeq P P') /\ num_of_deals t' = num_of_deals t
  /\ forall j, (j < length m)%nat -> same_values (new j) (cvalues (nth j (tcats t') (mkCat "" []))).
Proof.
  intros M cap m m' recipe new t t' P HM HR SM SM' CS H H' HP D HD.
  assert (L : length recipe = length m).
  { unfold trade_reduction_M in H. destruct (Nat.eqb_spec (length recipe) (length m)); [assumption|discriminate]. }
  assert (NE : recipe <> []) by (destruct CS as (i & c & r & _ & X & _); intros ->; destruct i; discriminate).
  apply (reduction_winners M cap m m' recipe); try assumption.
  - exists (length recipe - 1)%nat, 1%nat. split; [lia|]. clear -HR NE. induction HR as [|x l Hx HF IH]; [congruence|]. subst x.
    destruct l as [|y l]; [reflexivity|]. cbn [length Nat.sub]. rewrite IH at 1 by discriminate. cbn [length Nat.sub]. rewrite Nat.sub_0_r. reflexivity.
  - apply ones_no_spare; assumption.
Qed.
