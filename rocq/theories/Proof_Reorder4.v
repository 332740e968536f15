(** * Two neighbouring categories change places in the ascending auction (C109) *)

From Coq Require Import String List Arith Lia QArith Lqa Qabs Permutation Sorted Bool.
From Verif Require Import Base Model_Agents Model_Prices Model_Trade Model_Market Model_Ascending Model_TradeReduction Model_McAfee
  Spec_Market Spec_Trade Spec_Ascending Spec_TradeReduction Spec_McAfee Spec_Demos Spec_Reorder Proof_Market Proof_Trade Proof_Prices Proof_Ascending
  Proof_Ascending2 Proof_Ascending3 Proof_Ascending4 Proof_Deals Proof_Statics
  Proof_TR Proof_TR2 Proof_TR3 Proof_TR4 Proof_TR5 Proof_TR6 Proof_TR8 Proof_McAfee Proof_McAfee2 Proof_Many Proof_Reorder Proof_Reorder2 Proof_Reorder3.
Import ListNotations.
Open Scope Q_scope.

Lemma Forall2_split : forall A B (R : A -> B -> Prop) l1 x y l2 U, Forall2 R (l1 ++ x :: y :: l2) U ->
  exists U1 a b U2, U = U1 ++ a :: b :: U2 /\ length U1 = length l1 /\ Forall2 R (l1 ++ y :: x :: l2) (U1 ++ b :: a :: U2).
Proof.
  intros A B R l1 x y l2 U H. apply Forall2_app_inv_l in H. destruct H as (U1 & W & H1 & H2 & ->).
  inversion H2 as [|? a ? W1 Ra H3]; subst. inversion H3 as [|? b ? U2 Rb H4]; subst.
  exists U1, a, b, U2. split; [reflexivity|]. split; [symmetry; clear -H1; induction H1; simpl; auto|].
  apply Forall2_app; [assumption|]. constructor; [assumption|]. constructor; assumption.
Qed.

Lemma small_swap : forall M pre X Y post recipe, all_ones recipe -> length recipe = length (pre ++ X :: Y :: post) ->
  values_small M recipe (pre ++ X :: Y :: post) -> values_small M recipe (pre ++ Y :: X :: post).
Proof.
  intros M pre X Y post recipe H1 Hl (Hv & U & HU & HD). split.
  - intros c v Hc. apply Hv. apply in_app_or in Hc. apply in_or_app. destruct Hc as [Hc|[Hc|[Hc|Hc]]]; [left; exact Hc| | |];
      right; [right; left; exact Hc|left; exact Hc|right; right; exact Hc].
  - destruct (Forall2_split _ _ _ _ _ _ _ _ HU) as (U1 & a & b & U2 & -> & L1 & HU').
    exists (U1 ++ b :: a :: U2). split; [exact HU'|].
    assert (LU : length (U1 ++ a :: b :: U2) = length recipe).
    { rewrite Hl. symmetry. clear -HU. induction HU; simpl; auto. }
    assert (LU' : length (U1 ++ b :: a :: U2) = length recipe) by (rewrite <- LU, !app_length; reflexivity).
    assert (ED : dot (U1 ++ b :: a :: U2) recipe == dot (U1 ++ a :: b :: U2) recipe).
    { rewrite !ones_dot by assumption. rewrite !Qsum_app. cbn [Qsum fold_right]. ring. }
    intros l r u Hr Hp Hu. rewrite ED.
    assert (E1 : forall l', (l' < length recipe)%nat -> nth_error recipe l' = Some 1%nat).
    { intros l' Hl'. rewrite (nth_error_nth' recipe 0%nat) by assumption. f_equal. apply all_ones_nth; assumption. }
    assert (Lr : (l < length recipe)%nat) by (apply nth_error_Some; congruence).
    assert (r = 1%nat) by (specialize (E1 l Lr); congruence). subst r.
    assert (F : exists l', (l' < length recipe)%nat /\ nth_error (U1 ++ a :: b :: U2) l' = Some u).
    { destruct (Nat.eq_dec l (length U1)) as [->|Na]; [|destruct (Nat.eq_dec l (S (length U1))) as [->|Nb]].
      - rewrite nth_error_app2, Nat.sub_diag in Hu by lia. injection Hu as <-. exists (S (length U1)). split.
        + rewrite <- LU, app_length. simpl. lia.
        + rewrite nth_error_app2 by lia. replace (S (length U1) - length U1)%nat with 1%nat by lia. reflexivity.
      - rewrite nth_error_app2 in Hu by lia. replace (S (length U1) - length U1)%nat with 1%nat in Hu by lia. injection Hu as <-.
        exists (length U1). split; [rewrite <- LU, app_length; simpl; lia|]. rewrite nth_error_app2, Nat.sub_diag by lia. reflexivity.
      - exists l. split; [assumption|]. destruct (lt_dec l (length U1)) as [L|L].
        + rewrite nth_error_app1 in Hu |- * by assumption. exact Hu.
        + rewrite nth_error_app2 in Hu |- * by lia. replace (l - length U1)%nat with (S (S (l - length U1 - 2))) in Hu |- * by lia. exact Hu. }
    destruct F as (l' & Ll' & Hl'). exact (HD l' 1%nat u (E1 l' Ll') Hp Hl').
Qed.

Lemma cap_ones : forall pre X Y post recipe, all_ones recipe -> length recipe = length (pre ++ X :: Y :: post) ->
  cap_suffices (csize X) (pre ++ X :: Y :: post) recipe.
Proof.
  intros pre X Y post recipe H1 Hl. rewrite app_length in Hl. simpl in Hl. exists (length pre), X, 1%nat.
  split; [rewrite nth_error_app2, Nat.sub_diag by lia; reflexivity|].
  split; [rewrite (nth_error_nth' recipe 0%nat) by lia; f_equal; apply all_ones_nth; [assumption|lia]|]. split; lia.
Qed.

Theorem ascending_swap : forall M rounds rounds' pre X Y post recipe t t', 0 < M ->
  let m := pre ++ X :: Y :: post in let m' := pre ++ Y :: X :: post in let q := length pre in
  values_small M recipe m -> all_ones recipe ->
  ascending_auction_M M rounds m recipe = Ok t -> ascending_auction_M M rounds' m' recipe = Ok t' ->
  (0 < num_of_deals t)%nat -> (0 < num_of_deals t')%nat ->
  exists P P', tprices t = Some P /\ tprices t' = Some P'
  /\ (forall c, c <> q -> c <> S q -> nth c P' 0 == nth c P 0)
  /\ nth (S q) P' 0 <= nth q P 0 /\ nth (S q) P 0 <= nth q P' 0
  /\ nth q P' 0 + nth (S q) P' 0 == nth q P 0 + nth (S q) P 0
  /\ ((0 < q)%nat -> num_of_deals t' = num_of_deals t).
Proof.
  intros M rounds rounds' pre X Y post recipe t t' HM m m' q Hsm H1 Ha Ha' Hd Hd'.
  assert (Hl : length recipe = length m).
  { unfold ascending_auction_M in Ha. destruct (Nat.eqb_spec (length recipe) (length m)); [assumption|].
    exfalso. revert Ha. cbn. congruence. }
  assert (Hsm' : values_small M recipe m') by (apply small_swap; assumption).
  assert (Hcap := cap_ones pre X Y post recipe H1 Hl). fold m in Hcap. set (cap := csize X) in *.
  assert (Lm : length m = S (S (length pre + length post))) by (unfold m; rewrite app_length; simpl; lia).
  assert (Ho : is_order (length m) (swap_order (length pre) (length post))).
  { rewrite Lm. replace (S (S (length pre + length post)))%nat with (length pre + S (S (length post)))%nat by lia. apply swap_is_order. }
  assert (Hcap' : cap_suffices cap m' recipe).
  { rewrite <- (ones_reorder (swap_order (length pre) (length post)) recipe) by (rewrite ?Hl; assumption).
    unfold m'. rewrite <- (swap_reorder _ dcat pre X Y post). apply cap_reorder; assumption. }
  assert (Hl' : length recipe = length m') by (rewrite Hl, Lm; unfold m'; rewrite app_length; simpl; lia).
  assert (Hp : has_positive_entry recipe).
  { exists 0%nat, 1%nat. split; [|lia]. rewrite (nth_error_nth' recipe 0%nat) by lia. f_equal. apply all_ones_nth; [assumption|lia]. }
  destruct (tr_errors M cap m recipe true) as [[[u Hu] _]|[_ N]]; [|exfalso; tauto].
  destruct (tr_errors M cap m' recipe true) as [[[u' Hu'] _]|[_ N]]; [|exfalso; tauto].
  destruct (tr_ascending _ _ _ _ _ _ _ HM H1 Hsm Hcap Hu Ha) as (E & F).
  destruct (tr_ascending _ _ _ _ _ _ _ HM H1 Hsm' Hcap' Hu' Ha') as (E' & F').
  destruct F as (_ & P & Pa & HP & HPa & EP); [lia|]. destruct F' as (_ & P' & Pa' & HP' & HPa' & EP'); [lia|].
  destruct (optimal_trade_spec cap m recipe true Hl) as (k & Eo & _).
  destruct (tr_deals _ _ _ _ _ _ _ _ Hcap (proj1 Hsm) Hu Eo) as (B & _).
  destruct (tr_swap M cap pre X Y post recipe true u u' _ _ HM Hcap Hsm H1 Eo) as (Q1 & Q2 & HQ1 & HQ2 & A1 & A2 & A3 & A4 & _ & _ & A5); try assumption.
  { intros X0. unfold mt_num_of_deals in B. rewrite X0 in B. simpl in B. lia. }
  rewrite HP in HQ1. injection HQ1 as <-. rewrite HP' in HQ2. injection HQ2 as <-.
  fold q in A1, A2, A3, A4, A5.
  assert (N1 := fun c => qeq_nth _ _ c 0 EP). assert (N2 := fun c => qeq_nth _ _ c 0 EP').
  exists Pa, Pa'. split; [assumption|]. split; [assumption|]. split.
  { intros c C1 C2. rewrite <- N1, <- N2. apply A1; assumption. }
  rewrite <- !N1, <- !N2. split; [assumption|]. split; [assumption|]. split; [assumption|]. intros Hq. rewrite <- E, <- E'. auto.
Qed.
