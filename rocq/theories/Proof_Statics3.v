(** * Better markets and McAfee's protocol without the heuristic (C96) *)

From Coq Require Import String List Arith Lia QArith Lqa Permutation Sorted Bool.
From Verif Require Import Base Model_Agents Model_Trade Model_Prices Model_Market Model_TradeReduction Model_McAfee
  Spec_Market Spec_Ascending Spec_Statics Proof_Market Proof_Strategy Proof_TA4 Proof_Statics.
From Verif Require Import Spec_Trade Spec_TradeReduction Spec_McAfee Proof_Trade Proof_Ascending Proof_Ascending2 Proof_Deals Proof_TR2 Proof_McAfee Proof_McAfee2.
Import ListNotations.
Open Scope Q_scope.

(** The gain of the outcome is that of its deals. *)
Lemma mcafee_top : forall M cap m recipe h t deals rem g, mcafee_M M cap m recipe h = Ok t ->
  optimal_trade cap m recipe true = Ok (deals, rem) -> gain_from_trade t true = Ok g ->
  stops_at cap (mt_num_of_deals deals) (clone_market m) recipe true
  /\ g == top_gain (clone_market m) recipe (num_of_deals t).
Proof.
  intros M cap m recipe h t deals rem g H Ho Eg.
  destruct (mcafee_result _ _ _ _ _ _ _ _ H Ho) as [Hne [Hl [H1 [Hst [Er [Hopt R]]]]]]. split; [assumption|].
  set (k := mt_num_of_deals deals) in *. set (m' := clone_market m) in *.
  assert (Hlm : length m' = length m) by apply clone_length.
  assert (D := mc_deals _ _ _ _ _ R).
  assert (Hdk : (num_of_deals t <= k)%nat) by (destruct k; [lia|]; destruct (accepted _ _ _ _ _); lia).
  destruct (mc_prices _ _ _ _ _ R) as [P [HP [LP _]]].
  destruct Hst as [_ [He _]].
  assert (Hall : forall c, In c (tcats t) -> csize c = tdeals t).
  { intros c Hc. apply In_nth with (d := dcat) in Hc. destruct Hc as [i [Hi <-]]. rewrite (mc_len _ _ _ _ _ R) in Hi.
    destruct (mc_cat _ _ _ _ _ R i Hi) as [_ [_ Hq]]. unfold csize. rewrite (qeq_length _ _ Hq).
    assert (X := ones_enough m' recipe k i H1 ltac:(lia) He Hi). unfold num_of_deals in *. apply firstn_length_le. lia. }
  assert (Hsum : Qsum (map (fun c => Qsum (cvalues c)) (tcats t)) == top_gain m' recipe (num_of_deals t)).
  { rewrite top_ones by (assumption || lia). rewrite (Qsum_nth _ dcat), (mc_len _ _ _ _ _ R).
    apply Qsum_map_ext. intros j Hj. apply in_seq in Hj.
    destruct (mc_cat _ _ _ _ _ R j ltac:(lia)) as [_ [_ Hq]]. apply qeq_sum. assumption. }
  unfold gain_from_trade in Eg. destruct (Nat.eqb_spec (tdeals t) 0) as [E0|E0].
  - injection Eg as <-. unfold num_of_deals. rewrite E0. reflexivity.
  - destruct (gain_full t true 0 (tcats t) P) as [g0 [E Eg0]]; [lia|assumption|rewrite (mc_len _ _ _ _ _ R); assumption| |].
    + intros j Hj. rewrite (mc_len _ _ _ _ _ R) in Hj. simpl. split.
      * rewrite Er. rewrite (get_lt _ _ _ 0%nat) by lia. f_equal. unfold all_ones in H1. rewrite Forall_forall in H1.
        apply H1. apply nth_In. lia.
      * unfold price_at. rewrite HP. apply get_lt. lia.
    + assert (g0 = g) by congruence. subst g0. rewrite Eg0, Hsum. ring.
Qed.

Lemma top_prefix : forall k m recipe n n', (forall t, (t < k)%nat -> 0 <= ps_gain m recipe t) -> (n <= n')%nat -> (n' <= k)%nat ->
  top_gain m recipe n <= top_gain m recipe n'.
Proof.
  intros k m recipe n n' H L K. apply (top_gain_before n' m recipe true); [|assumption]. intros t Ht. apply H. lia.
Qed.

Theorem mcafee_improves : forall M cap m m' recipe t t' g g', improves m m' ->
  mcafee_M M cap m recipe false = Ok t -> mcafee_M M cap m' recipe false = Ok t' ->
  gain_from_trade t true = Ok g -> gain_from_trade t' true = Ok g' ->
  (num_of_deals t <= num_of_deals t')%nat /\ g <= g'.
Proof.
  intros M cap m m' recipe t t' g g' HI H H' G G'. apply improves_mpw in HI.
  destruct (mcafee_optimal _ _ _ _ _ _ H) as (D & R & O). destruct (mcafee_optimal _ _ _ _ _ _ H') as (D' & R' & O').
  destruct (mcafee_top _ _ _ _ _ _ _ _ _ H O G) as [S1 T1]. destruct (mcafee_top _ _ _ _ _ _ _ _ _ H' O' G') as [S2 T2].
  assert (K := mpw_stop _ _ _ _ _ _ _ HI S1 S2).
  destruct (mcafee_result _ _ _ _ _ _ _ _ H O) as [_ [_ [_ [_ [_ [_ Q1]]]]]]. destruct (mcafee_result _ _ _ _ _ _ _ _ H' O') as [_ [_ [_ [_ [_ [_ Q2]]]]]].
  assert (N1 := mc_deals _ _ _ _ _ Q1). assert (N2 := mc_deals _ _ _ _ _ Q2). unfold accepted in N1, N2. cbn [andb] in N1, N2.
  set (k := mt_num_of_deals D) in *. set (k' := mt_num_of_deals D') in *.
  assert (E1 : num_of_deals t = (k - 1)%nat) by (destruct k; lia).
  assert (E2 : num_of_deals t' = (k' - 1)%nat) by (destruct k'; lia).
  split; [lia|]. rewrite T1, T2, E1, E2.
  assert (X := mpw_top (k - 1) _ _ recipe HI (enough_le (k - 1) k _ _ ltac:(lia) (proj1 (proj2 S1)))).
  assert (Y := top_prefix k' _ recipe (k - 1) (k' - 1) (proj1 (proj2 (proj2 S2))) ltac:(lia) ltac:(lia)). lra.
Qed.
