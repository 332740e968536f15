(** * The order of the categories (C109) *)

From Coq Require Import String List Arith Lia QArith Lqa Qabs Permutation Sorted.
From Verif Require Import Base Model_Agents Model_Prices Model_Trade Model_Market Model_Ascending Model_TradeReduction Model_McAfee
  Spec_Market Spec_Trade Spec_Ascending Spec_TradeReduction Spec_McAfee Spec_Demos Spec_Reorder Proof_Market Proof_Trade Proof_Prices Proof_Ascending
  Proof_Ascending2 Proof_Ascending3 Proof_Ascending4 Proof_Deals Proof_Statics
  Proof_TR Proof_TR2 Proof_TR3 Proof_TR4 Proof_TR5 Proof_TR6 Proof_TR8 Proof_McAfee Proof_McAfee2 Proof_Many.
Import ListNotations.
Open Scope Q_scope.

Lemma order_length : forall n o, is_order n o -> length o = n.
Proof. intros n o H. rewrite (Permutation_length H), seq_length. reflexivity. Qed.

Lemma order_lt : forall n o i, is_order n o -> (i < n)%nat -> (nth i o 0 < n)%nat.
Proof.
  intros n o i H Hi. assert (X : In (nth i o 0%nat) (seq 0 n)).
  { eapply Permutation_in; [exact H|]. apply nth_In. rewrite (order_length n o H). assumption. }
  apply in_seq in X. lia.
Qed.

Lemma order_onto : forall n o c, is_order n o -> (c < n)%nat -> exists i, (i < n)%nat /\ nth i o 0%nat = c.
Proof.
  intros n o c H Hc. assert (X : In c o) by (eapply Permutation_in; [symmetry; exact H|]; apply in_seq; lia).
  destruct (In_nth _ _ 0%nat X) as (i & Hi & E). rewrite (order_length n o H) in Hi. eauto.
Qed.

Lemma reorder_length : forall A (d : A) o l, length (reorder d o l) = length o.
Proof. intros. apply map_length. Qed.

Lemma reorder_nth : forall A (d : A) o l i, (i < length o)%nat -> nth i (reorder d o l) d = nth (nth i o 0%nat) l d.
Proof.
  intros A d o l i H. unfold reorder. rewrite (nth_indep _ d (nth 0%nat l d)) by (rewrite map_length; assumption).
  rewrite (map_nth (fun i => nth i l d)). reflexivity.
Qed.

Lemma clone_reorder : forall o m, clone_market (reorder dcat o m) = reorder dcat o (clone_market m).
Proof.
  intros o m. unfold clone_market, reorder. rewrite map_map. apply map_ext. intros i. change dcat with (clone dcat) at 2.
  rewrite (map_nth clone). reflexivity.
Qed.

Lemma map2_seq : forall C (f : category -> nat -> C) m recipe, length recipe = length m ->
  map2 f m recipe = map (fun i => f (nth i m dcat) (nth i recipe 0%nat)) (seq 0 (length m)).
Proof.
  induction m as [|c m IH]; intros [|r recipe] H; simpl in H; try discriminate; [reflexivity|].
  cbn [map2 length seq map]. f_equal. rewrite IH by congruence. rewrite <- seq_shift, map_map. reflexivity.
Qed.

Lemma map2_reorder : forall C (f : category -> nat -> C) o m recipe, is_order (length m) o -> length recipe = length m ->
  map2 f (reorder dcat o m) (reorder 0%nat o recipe) = map (fun i => f (nth i m dcat) (nth i recipe 0%nat)) o.
Proof.
  intros C f o m recipe _ _. unfold reorder. induction o as [|i o IH]; [reflexivity|]. cbn [map map2]. f_equal. exact IH.
Qed.

Lemma gain_reorder : forall o m recipe t, is_order (length m) o -> length recipe = length m ->
  ps_gain (reorder dcat o m) (reorder 0%nat o recipe) t == ps_gain m recipe t.
Proof.
  intros o m recipe t Ho Hl. rewrite !ps_gain_alt, map2_reorder, map2_seq by assumption.
  apply Qsum_perm. apply Permutation_map. exact Ho.
Qed.

Lemma enough_reorder : forall n o m recipe, is_order (length m) o -> length recipe = length m ->
  (enough n (reorder dcat o m) (reorder 0%nat o recipe) <-> enough n m recipe).
Proof.
  intros n o m recipe Ho Hl. assert (Lo := order_length _ _ Ho).
  rewrite !enough_nth by (rewrite ?reorder_length; auto). rewrite reorder_length, Lo. unfold vals. split.
  - intros H c Hc. destruct (order_onto _ _ c Ho) as (i & Hi & <-); [lia|].
    specialize (H i Hi). rewrite !reorder_nth in H by lia. exact H.
  - intros H i Hi. rewrite !reorder_nth by lia. apply H. rewrite Hl. apply order_lt; assumption.
Qed.

Lemma stops_reorder : forall cap k o m recipe z, is_order (length m) o -> length recipe = length m ->
  stops_at cap k (reorder dcat o m) (reorder 0%nat o recipe) z -> stops_at cap k m recipe z.
Proof.
  intros cap k o m recipe z Ho Hl (S1 & S2 & S3 & S4). split; [assumption|]. split; [apply (enough_reorder _ o); assumption|]. split.
  - intros t Ht. eapply acceptable_proper; [|apply S3; exact Ht]. apply gain_reorder; assumption.
  - destruct S4 as [S4|[S4|S4]]; [auto| |].
    + right. left. intros X. apply S4. apply enough_reorder; assumption.
    + right. right. intros X. apply S4. eapply acceptable_proper; [|exact X]. symmetry. apply gain_reorder; assumption.
Qed.

Lemma stops_unique : forall cap k k' m recipe z, stops_at cap k m recipe z -> stops_at cap k' m recipe z -> k = k'.
Proof.
  assert (H : forall cap k k' m recipe z, stops_at cap k m recipe z -> stops_at cap k' m recipe z -> ~ (k < k')%nat).
  { intros cap k k' m recipe z (A1 & A2 & A3 & A4) (B1 & B2 & B3 & B4) L. destruct A4 as [A4|[A4|A4]]; [lia| |].
    - apply A4. eapply enough_le; [|exact B2]. lia.
    - apply A4. apply B3. assumption. }
  intros cap k k' m recipe z A B. assert (X := H _ _ _ _ _ _ A B). assert (Y := H _ _ _ _ _ _ B A). lia.
Qed.

Lemma top_reorder : forall o m recipe n, is_order (length m) o -> length recipe = length m ->
  top_gain (reorder dcat o m) (reorder 0%nat o recipe) n == top_gain m recipe n.
Proof. intros. unfold top_gain. apply Qsum_map_ext. intros t _. apply gain_reorder; assumption. Qed.

Theorem optimal_reorder : forall cap o m recipe z D R D' R', is_order (length m) o ->
  optimal_trade cap m recipe z = Ok (D, R) ->
  optimal_trade cap (reorder dcat o m) (reorder 0%nat o recipe) z = Ok (D', R') ->
  length D' = length D /\ mt_gain_from_trade D' == mt_gain_from_trade D /\ R' = reorder dcat o R.
Proof.
  intros cap o m recipe z D R D' R' Ho H H'.
  assert (Hl : length recipe = length m).
  { unfold optimal_trade in H. destruct (Nat.eqb_spec (length recipe) (length m)); [assumption|discriminate]. }
  assert (Lo := order_length _ _ Ho).
  assert (Hl' : length (reorder 0%nat o recipe) = length (reorder dcat o m)) by (rewrite !reorder_length; reflexivity).
  destruct (optimal_trade_shape _ _ _ _ _ _ H) as (k & S1 & L1 & G1).
  destruct (optimal_trade_shape _ _ _ _ _ _ H') as (k' & S2 & L2 & G2).
  rewrite clone_reorder in S2, G2.
  assert (Hoc : is_order (length (clone_market m)) o) by (rewrite clone_length; assumption).
  assert (Hlc : length recipe = length (clone_market m)) by (rewrite clone_length; assumption).
  apply stops_reorder in S2; [|assumption|assumption].
  assert (E := stops_unique _ _ _ _ _ _ S1 S2). subst k'.
  split; [congruence|]. split; [rewrite G1, G2; rewrite <- E; apply top_reorder; assumption|].
  destruct (optimal_trade_spec cap m recipe z Hl) as (k1 & E1 & S3).
  destruct (optimal_trade_spec cap _ _ z Hl') as (k2 & E2 & S4).
  rewrite clone_reorder in S4, E2. apply stops_reorder in S4; [|assumption|assumption].
  assert (Ek : k1 = k2) by (apply (stops_unique _ _ _ _ _ _ S3 S4)). rewrite H in E1. rewrite H' in E2.
  inversion E1; subst. inversion E2; subst. unfold drop_ps. rewrite map2_reorder, map2_seq by assumption.
  unfold reorder. apply map_ext_in. intros i Hi.
  assert (Li : (i < length (clone_market m))%nat).
  { eapply Permutation_in in Hi; [|exact Hoc]. apply in_seq in Hi. lia. }
  symmetry. erewrite nth_error_nth; [reflexivity|]. rewrite nth_error_map_seq by assumption. reflexivity.
Qed.
