(** * The order of the categories: McAfee's protocol, the numbers of deals, neighbours that change places (C109) *)

From Coq Require Import String List Arith Lia QArith Lqa Qabs Permutation Sorted Bool.
From Verif Require Import Base Model_Agents Model_Prices Model_Trade Model_Market Model_Ascending Model_TradeReduction Model_McAfee
  Spec_Market Spec_Trade Spec_Ascending Spec_TradeReduction Spec_McAfee Spec_Demos Spec_Reorder Proof_Market Proof_Trade Proof_Prices Proof_Ascending
  Proof_Ascending2 Proof_Ascending3 Proof_Ascending4 Proof_Deals Proof_Statics
  Proof_TR Proof_TR2 Proof_TR3 Proof_TR4 Proof_TR5 Proof_TR6 Proof_TR8 Proof_McAfee Proof_McAfee2 Proof_Many Proof_Reorder.
Import ListNotations.
Open Scope Q_scope.

(** ** McAfee's protocol *)

Lemma map_seq_nth : forall A B (d : A) (f : A -> B) l, map f l = map (fun i => f (nth i l d)) (seq 0 (length l)).
Proof.
  intros A B d f l. induction l as [|x l IH]; [reflexivity|]. cbn [map length seq nth]. f_equal.
  rewrite <- seq_shift, map_map. exact IH.
Qed.

Lemma map_reorder_perm : forall A B (d : A) (f : A -> B) o l, is_order (length l) o -> Permutation (map f (reorder d o l)) (map f l).
Proof.
  intros A B d f o l Ho. rewrite (map_seq_nth A B d f l). unfold reorder. rewrite map_map. apply Permutation_map. exact Ho.
Qed.

Lemma row_reorder : forall d o m t, is_order (length m) o -> Permutation (row d (reorder dcat o m) t) (row d m t).
Proof. intros. unfold row. apply map_reorder_perm. assumption. Qed.

Lemma candidate_reorder : forall M o m k, is_order (length m) o -> candidate M (reorder dcat o m) k == candidate M m k.
Proof.
  intros M o m k Ho. unfold candidate. rewrite reorder_length, (order_length _ _ Ho).
  rewrite (Qsum_perm _ _ (Permutation_map Qabs (row_reorder (- M) o m k Ho))). reflexivity.
Qed.

Lemma accepted_reorder : forall M o m k h j, is_order (length m) o ->
  accepted M (reorder dcat o m) k h (row 0 (reorder dcat o m) j) = accepted M m k h (row 0 m j).
Proof.
  intros M o m k h j Ho. unfold accepted. f_equal. apply eq_true_iff_eq. rewrite !good_iff.
  assert (C := candidate_reorder M o m k Ho). assert (R := row_reorder 0 o m j Ho).
  split; intros G x Hx.
  - assert (Hx' : In x (row 0 (reorder dcat o m) j)) by (eapply Permutation_in; [symmetry; exact R|exact Hx]).
    destruct (G x Hx') as [G1 G2]. rewrite C in G1, G2. auto.
  - assert (Hx' : In x (row 0 m j)) by (eapply Permutation_in; [exact R|exact Hx]).
    destruct (G x Hx') as [G1 G2]. rewrite <- C in G1, G2. auto.
Qed.

Lemma vals_reorder : forall o m i, (i < length o)%nat -> vals (reorder dcat o m) i = vals m (nth i o 0%nat).
Proof. intros o m i Hi. unfold vals. rewrite reorder_nth by assumption. reflexivity. Qed.

Lemma qeq_from_nth : forall l l', length l = length l' -> (forall i, (i < length l)%nat -> nth i l 0 == nth i l' 0) -> Forall2 Qeq l l'.
Proof.
  induction l as [|x l IH]; intros [|y l'] L H; simpl in L; try discriminate; [constructor|]. constructor.
  - apply (H 0%nat). simpl. lia.
  - apply IH; [lia|]. intros i Hi. apply (H (S i)). simpl. lia.
Qed.

Lemma Forall2_from_nth : forall A B (d : A) (e : B) (R : A -> B -> Prop) l l', length l = length l' ->
  (forall i, (i < length l)%nat -> R (nth i l d) (nth i l' e)) -> Forall2 R l l'.
Proof.
  intros A B d e R. induction l as [|x l IH]; intros [|y l'] L H; simpl in L; try discriminate; [constructor|]. constructor.
  - apply (H 0%nat). simpl. lia.
  - apply IH; [lia|]. intros i Hi. apply (H (S i)). simpl. lia.
Qed.

Theorem mcafee_reorder : forall M cap o m recipe h t t', is_order (length m) o ->
  mcafee_M M cap m recipe h = Ok t -> mcafee_M M cap (reorder dcat o m) (reorder 0%nat o recipe) h = Ok t' ->
  num_of_deals t' = num_of_deals t
  /\ Forall2 (fun T' T => cname T' = cname T /\ Forall2 Qeq (cvalues T') (cvalues T)) (tcats t') (reorder dcat o (tcats t))
  /\ exists P P', tprices t = Some P /\ tprices t' = Some P' /\ Forall2 Qeq P' (reorder 0 o P).
Proof.
  intros M cap o m recipe h t t' Ho H H'. assert (Lo := order_length _ _ Ho).
  destruct (mcafee_optimal _ _ _ _ _ _ H) as (D & R & E). destruct (mcafee_optimal _ _ _ _ _ _ H') as (D' & R' & E').
  destruct (optimal_reorder _ _ _ _ _ _ _ _ _ Ho E E') as (LD & _ & _).
  destruct (mcafee_result _ _ _ _ _ _ _ _ H E) as (_ & _ & _ & _ & _ & _ & X).
  destruct (mcafee_result _ _ _ _ _ _ _ _ H' E') as (_ & _ & _ & _ & _ & _ & X').
  unfold mt_num_of_deals in X, X'. rewrite LD, clone_reorder in X'. set (m' := clone_market m) in *.
  assert (Lm : length m' = length m) by apply clone_length.
  assert (Hoc : is_order (length m') o) by (rewrite Lm; assumption).
  generalize dependent (length D). intros k LD X X'.
  destruct X as [X1 X2 X3 (P & X4 & X5 & X6)]. destruct X' as [Y1 Y2 Y3 (P' & Y4 & Y5 & Y6)].
  rewrite reorder_length, Lo in Y1, Y2, Y5, Y6.
  assert (EN : num_of_deals t' = num_of_deals t).
  { rewrite X3, Y3. destruct k as [|k']; [reflexivity|]. rewrite accepted_reorder by assumption. reflexivity. }
  split; [exact EN|]. split.
  - apply Forall2_from_nth with (d := dcat) (e := dcat); [rewrite reorder_length; congruence|].
    intros i Hi. rewrite Y1 in Hi. rewrite reorder_nth by lia.
    assert (Hi' := order_lt _ _ i Ho Hi). destruct (Y2 i Hi) as (A1 & _ & A3).
    destruct (X2 (nth i o 0%nat)) as (B1 & _ & B3); [lia|].
    rewrite reorder_nth in A1 by lia. rewrite vals_reorder in A3 by lia. rewrite EN in A3. split; [congruence|].
    eapply qeq_trans; [exact A3|]. apply qeq_sym. exact B3.
  - exists P, P'. split; [assumption|]. split; [assumption|].
    apply qeq_from_nth; [rewrite reorder_length; congruence|]. intros i Hi. rewrite Y5 in Hi.
    assert (Hi' := order_lt _ _ i Ho Hi). rewrite reorder_nth by lia. rewrite Y6 by assumption. rewrite X6 by lia.
    destruct k as [|k']; [reflexivity|]. cbv zeta. rewrite accepted_reorder, vals_reorder by (assumption || lia).
    destruct (accepted M m' (S k') h (row 0 m' k')); [|reflexivity].
    destruct (Qlt_bool (nth k' (vals m' (nth i o 0%nat)) 0) 0); rewrite candidate_reorder by assumption; reflexivity.
Qed.

(** ** The numbers of deals *)

Lemma cap_reorder : forall cap o m recipe, is_order (length m) o -> length recipe = length m -> cap_suffices cap m recipe ->
  cap_suffices cap (reorder dcat o m) (reorder 0%nat o recipe).
Proof.
  intros cap o m recipe Ho Hl (i & c & r & Hc & Hr & H1 & H2). assert (Lo := order_length _ _ Ho).
  assert (Li : (i < length m)%nat) by (apply nth_error_Some; congruence).
  destruct (order_onto _ _ i Ho Li) as (q & Hq & Eq). exists q, c, r.
  split; [|split; [|split; assumption]].
  - rewrite (nth_error_nth' _ dcat) by (rewrite reorder_length; lia). rewrite reorder_nth by lia. rewrite Eq.
    rewrite (nth_error_nth _ _ _ Hc). reflexivity.
  - rewrite (nth_error_nth' _ 0%nat) by (rewrite reorder_length; lia). rewrite reorder_nth by lia. rewrite Eq.
    rewrite (nth_error_nth _ _ _ Hr). reflexivity.
Qed.

Lemma at_least_reorder : forall b o m, is_order (length m) o -> values_at_least b m -> values_at_least b (reorder dcat o m).
Proof.
  intros b o m Ho H c v Hc Hv. unfold reorder in Hc. apply in_map_iff in Hc. destruct Hc as (i & <- & Hi).
  eapply H; [|exact Hv]. apply nth_In. eapply Permutation_in in Hi; [|exact Ho]. apply in_seq in Hi. lia.
Qed.

Theorem tr_deals_reorder : forall M cap o m recipe t t', is_order (length m) o -> cap_suffices cap m recipe -> values_at_least (- M) m ->
  trade_reduction_M M cap m recipe true = Ok t ->
  trade_reduction_M M cap (reorder dcat o m) (reorder 0%nat o recipe) true = Ok t' ->
  (num_of_deals t' <= num_of_deals t + 1 /\ num_of_deals t <= num_of_deals t' + 1)%nat.
Proof.
  intros M cap o m recipe t t' Ho Hcap Hv H H'.
  assert (Hl : length recipe = length m).
  { unfold trade_reduction_M in H. destruct (Nat.eqb_spec (length recipe) (length m)); [assumption|].
    exfalso. revert H. cbn. congruence. }
  assert (Hl' : length (reorder 0%nat o recipe) = length (reorder dcat o m)) by (rewrite !reorder_length; reflexivity).
  destruct (optimal_trade_spec cap m recipe true Hl) as (k & E & _).
  destruct (optimal_trade_spec cap _ _ true Hl') as (k' & E' & _).
  destruct (optimal_reorder _ _ _ _ _ _ _ _ _ Ho E E') as (LD & _ & _).
  destruct (tr_deals _ _ _ _ _ _ _ _ Hcap Hv H E) as (A1 & A2). specialize (A2 _ _ E).
  destruct (tr_deals _ _ _ _ _ _ _ _ (cap_reorder _ _ _ _ Ho Hl Hcap) (at_least_reorder _ _ _ Ho Hv) H' E') as (B1 & B2).
  specialize (B2 _ _ E'). unfold mt_num_of_deals in *. lia.
Qed.

Theorem ascending_deals_reorder : forall M rounds rounds' cap o m recipe t t', 0 < M -> is_order (length m) o ->
  cap_suffices cap m recipe -> values_at_least (- M) m ->
  ascending_auction_M M rounds m recipe = Ok t ->
  ascending_auction_M M rounds' (reorder dcat o m) (reorder 0%nat o recipe) = Ok t' ->
  (num_of_deals t' <= num_of_deals t + 1 /\ num_of_deals t <= num_of_deals t' + 1)%nat.
Proof.
  intros M rounds rounds' cap o m recipe t t' HM Ho Hcap Hv H H'.
  assert (Hl : length recipe = length m).
  { unfold ascending_auction_M in H. destruct (Nat.eqb_spec (length recipe) (length m)); [assumption|].
    exfalso. revert H. cbn. congruence. }
  assert (Hl' : length (reorder 0%nat o recipe) = length (reorder dcat o m)) by (rewrite !reorder_length; reflexivity).
  destruct (optimal_trade_spec cap m recipe true Hl) as (k & E & _).
  destruct (optimal_trade_spec cap _ _ true Hl') as (k' & E' & _).
  destruct (optimal_reorder _ _ _ _ _ _ _ _ _ Ho E E') as (LD & _ & _).
  destruct (ascending_deals _ _ _ _ _ _ _ _ HM Hcap H E) as (A1 & A2). specialize (A2 Hv).
  destruct (ascending_deals _ _ _ _ _ _ _ _ HM (cap_reorder _ _ _ _ Ho Hl Hcap) H' E') as (B1 & B2).
  specialize (B2 (at_least_reorder _ _ _ Ho Hv)). unfold mt_num_of_deals in *. lia.
Qed.
