(** * A winner cannot influence the outcome: McAfee's protocol without the heuristic price (C95) *)

From Coq Require Import String List Arith Lia QArith Lqa Qabs Permutation Sorted Bool.
From Verif Require Import Base Model_Agents Model_Trade Model_Prices Model_Market Model_TradeReduction Model_McAfee
  Spec_Market Spec_Trade Spec_Ascending Spec_TradeReduction Spec_McAfee
  Proof_Market Proof_Trade Proof_Ascending Proof_Ascending2 Proof_Strategy Proof_Deals
  Proof_TR2 Proof_McAfee Proof_McAfee2 Proof_McAfee3 Spec_Threshold Proof_Threshold.
Import ListNotations.
Open Scope Q_scope.

(** The outcome, seen from one agent, with the threshold T given by the others. *)
Lemma plain_outcome : forall M cap m recipe i name pre post T v pos t P,
  (i < length m)%nat -> possible_position (pre ++ post) v pos ->
  let mv := set_nth i (mkCat name (pre ++ v :: post)) m in
  let O := sort_desc (pre ++ post) in
  (forall s, (1 <= s <= T)%nat -> at_row O (others_ok m i) (others_sum m i) s) ->
  ~ at_row O (others_ok m i) (others_sum m i) (S T) ->
  cap_suffices cap mv recipe -> mcafee_M M cap mv recipe false = Ok t -> tprices t = Some P ->
  (still_in (tcats t) i pos <-> (pos < T)%nat)
  /\ ((pos < T)%nat -> num_of_deals t = T /\ length (tcats t) = length m /\ length P = length m
      /\ nth i P 0 == nth (T - 1) O 0
      /\ (forall j, (j < length m)%nat -> nth j P 0 == nth T (vals (clone_market mv) j) 0)
      /\ (forall j c, nth_error (tcats t) j = Some c ->
            cname c = cname (nth j (clone_market mv) dcat) /\ Forall2 Qeq (cvalues c) (firstn T (vals (clone_market mv) j)))
      /\ (T < length (vals (clone_market mv) i))%nat).
Proof.
  intros M cap m recipe i name pre post T v pos t P Hi Hp mv O HT HT' Hcap H HP.
  assert (Lmv : length mv = length m) by apply set_nth_length.
  destruct (mcafee_optimal _ _ _ _ _ _ H) as [deals [rem Ho]].
  destruct (mcafee_result _ _ _ _ _ _ _ _ H Ho) as [Hne [Hl [H1 [Hst [Er [_ R]]]]]].
  set (k := mt_num_of_deals deals) in *. clearbody k.
  assert (Lc : length (clone_market mv) = length m) by (rewrite clone_length; assumption).
  destruct (report_deals cap m recipe i name pre post v pos k Hi Hp ltac:(lia) H1 Hcap Hst) as [K1 K2].
  fold O in K1, K2.
  assert (Hd : desc O) by apply sort_desc_desc.
  assert (Hp' : possible_position O v pos) by (eapply position_perm; [apply Permutation_sym, sort_desc_perm|exact Hp]).
  destruct (deals_threshold O _ _ T v pos k Hd (others_antitone m i) Hp' HT HT' K1 K2) as [C1 [C2 C3]].
  assert (Hk : forall j, (j < length (clone_market mv))%nat -> (k <= length (vals (clone_market mv) j))%nat).
  { intros j Hj. apply (ones_enough _ recipe); [assumption|lia|apply Hst|assumption]. }
  assert (D := mc_deals _ _ _ _ _ R). assert (L := position_le _ _ _ Hp').
  assert (Hdk : (num_of_deals t <= k)%nat) by (destruct k; [lia|]; destruct (accepted _ _ _ _ _); lia).
  assert (CAT : forall j c, nth_error (tcats t) j = Some c ->
    cname c = cname (nth j (clone_market mv) dcat) /\ Forall2 Qeq (cvalues c) (firstn (num_of_deals t) (vals (clone_market mv) j))
    /\ length (cvalues c) = num_of_deals t).
  { intros j c E. assert (Hj : (j < length (clone_market mv))%nat).
    { rewrite <- (mc_len _ _ _ _ _ R). apply nth_error_Some. congruence. }
    destruct (mc_cat _ _ _ _ _ R j Hj) as [A [_ B]]. apply (nth_error_nth _ _ dcat) in E. rewrite E in A, B.
    split; [assumption|]. split; [exact B|]. rewrite (qeq_length _ _ B). apply firstn_length_le. specialize (Hk j Hj). lia. }
  assert (IN : still_in (tcats t) i pos <-> (pos < num_of_deals t)%nat).
  { split.
    - intros (c & E & X). destruct (CAT i c E) as (_ & _ & Y). lia.
    - intros X. assert (Y : (i < length (tcats t))%nat) by (rewrite (mc_len _ _ _ _ _ R); lia).
      destruct (nth_error (tcats t) i) as [c|] eqn:E; [|apply nth_error_None in E; lia].
      exists c. split; [exact E|]. destruct (CAT i c E) as (_ & _ & Z). lia. }
  split.
  - rewrite IN. split; intros Q.
    + destruct (le_lt_dec T pos) as [X|X]; [|assumption]. exfalso. destruct k; [lia|]. cbn in D. destruct (C2 X); lia.
    + rewrite (C1 Q) in D. cbn in D. lia.
  - intros Q. assert (E := C1 Q). subst k. cbn in D. rewrite D in *. split; [reflexivity|].
    split; [rewrite (mc_len _ _ _ _ _ R); assumption|].
    destruct (mc_prices _ _ _ _ _ R) as [P' [HP' [LP Hpr]]]. assert (P' = P) by congruence. subst P'.
    split; [congruence|]. rewrite <- Lc. split; [|split; [|split]].
    + specialize (Hpr i ltac:(lia)). cbn in Hpr. rewrite Hpr.
      rewrite vals_clone_nth. unfold mv. rewrite nth_set_nth_same by assumption. cbn [cvalues].
      rewrite (Forall2_nth _ _ T 0 (sorted_ins pre post v pos Hp)). fold O.
      destruct T as [|T']; [lia|]. rewrite ins_after by lia. replace (S T' - 1)%nat with T' by lia. reflexivity.
    + intros j Hj. specialize (Hpr j Hj). cbn in Hpr. exact Hpr.
    + intros j c Ej. destruct (CAT j c Ej) as (A & B & _). auto.
    + specialize (Hk i ltac:(lia)). lia.
Qed.

Section Outcomes.
  Variables (M : Q) (cap : nat) (m : market) (recipe : list nat) (i : nat) (name : string) (pre post : list Q)
    (v v' : Q) (pos pos' : nat) (t t' : trade) (P P' : list Q).
  Hypothesis Hi : (i < length m)%nat.
  Hypothesis Hp : possible_position (pre ++ post) v pos.
  Hypothesis Hp' : possible_position (pre ++ post) v' pos'.
  Let first := set_nth i (mkCat name (pre ++ v :: post)) m.
  Let second := set_nth i (mkCat name (pre ++ v' :: post)) m.
  Hypothesis Cf : cap_suffices cap first recipe.
  Hypothesis Cs : cap_suffices cap second recipe.
  Hypothesis Ht : mcafee_M M cap first recipe false = Ok t.
  Hypothesis Ht' : mcafee_M M cap second recipe false = Ok t'.
  Hypothesis HP : tprices t = Some P.
  Hypothesis HP' : tprices t' = Some P'.

  Lemma mc_winner_same : still_in (tcats t) i pos -> still_in (tcats t') i pos' ->
    num_of_deals t = num_of_deals t' /\ same_outcome i pos pos' (tcats t) (tcats t') P P'.
  Proof.
    intros I I'. set (O := sort_desc (pre ++ post)).
    destruct (threshold_exists O (others_ok m i) (others_sum m i) (others_ok_dec m i)) as [T [HT HT']].
    destruct (plain_outcome M cap m recipe i name pre post T v pos t P Hi Hp HT HT' Cf Ht HP) as [A B].
    destruct (plain_outcome M cap m recipe i name pre post T v' pos' t' P' Hi Hp' HT HT' Cs Ht' HP') as [A' B'].
    fold first in B. fold second in B'.
    apply A in I. apply A' in I'. destruct (B I) as (B1 & B2 & B3 & B4 & B5 & B6 & B7).
    destruct (B' I') as (B1' & B2' & B3' & B4' & B5' & B6' & B7'). fold O in B4, B4'.
    assert (VO : forall j, j <> i -> nth j (clone_market first) dcat = nth j (clone_market second) dcat).
    { intros j N. unfold first, second. rewrite !Proof_Ascending3.clone_set_nth, !nth_set_nth_other by auto. reflexivity. }
    split; [congruence|]. split; [|split; [congruence|split]].
    - assert (EQ : forall j, (j < length P)%nat -> nth j P 0 == nth j P' 0).
      { intros j Hj. destruct (Nat.eq_dec j i) as [->|N]; [rewrite B4, B4'; reflexivity|].
        rewrite B5, B5' by lia. unfold vals. rewrite VO by assumption. reflexivity. }
      assert (EL : length P = length P') by congruence. clear -EL EQ. revert P' EL EQ.
      induction P as [|a l IH]; intros [|b l'] EL EQ; simpl in EL; try lia; constructor.
      + apply (EQ 0%nat). simpl. lia.
      + apply IH; [lia|]. intros j Hj. apply (EQ (S j)). simpl. lia.
    - intros j c c' N E E'. destruct (B6 j c E) as [N1 V1]. destruct (B6' j c' E') as [N2 V2]. rewrite VO in N1 by assumption.
      unfold vals in V1, V2. rewrite VO in V1 by assumption. split; [congruence|]. eapply F2_trans; [exact V1|apply F2_sym; exact V2].
    - destruct (nth_error (tcats t) i) as [c|] eqn:E; [|apply nth_error_None in E; lia].
      destruct (nth_error (tcats t') i) as [c'|] eqn:E'; [|apply nth_error_None in E'; lia].
      destruct (B6 i c E) as [N1 V1]. destruct (B6' i c' E') as [N2 V2].
      exists c, c'. split; [reflexivity|]. split; [reflexivity|].
      assert (Vf : vals (clone_market first) i = sort_desc (pre ++ v :: post)).
      { rewrite vals_clone_nth. unfold first. rewrite nth_set_nth_same by assumption. reflexivity. }
      assert (Vs : vals (clone_market second) i = sort_desc (pre ++ v' :: post)).
      { rewrite vals_clone_nth. unfold second. rewrite nth_set_nth_same by assumption. reflexivity. }
      split.
      { rewrite N1, N2. unfold first, second. rewrite !Proof_Ascending3.clone_set_nth, !nth_set_nth_same by (rewrite clone_length; assumption). reflexivity. }
      rewrite Vf in V1, B7. rewrite Vs in V2, B7'. split.
      + rewrite (qeq_length _ _ V1), (qeq_length _ _ V2), !firstn_length_le by lia. reflexivity.
      + eapply F2_trans; [apply F2_without; exact V1|]. eapply F2_trans; [|apply F2_sym, F2_without; exact V2].
        apply without_reports; assumption.
  Qed.

  Lemma mc_monotone : v < v' -> still_in (tcats t) i pos -> still_in (tcats t') i pos'.
  Proof.
    intros Hv I. set (O := sort_desc (pre ++ post)).
    destruct (threshold_exists O (others_ok m i) (others_sum m i) (others_ok_dec m i)) as [T [HT HT']].
    destruct (plain_outcome M cap m recipe i name pre post T v pos t P Hi Hp HT HT' Cf Ht HP) as [A _].
    destruct (plain_outcome M cap m recipe i name pre post T v' pos' t' P' Hi Hp' HT HT' Cs Ht' HP') as [A' _].
    apply A'. apply A in I. assert (X := position_order _ _ _ _ _ Hp Hp' Hv). lia.
  Qed.

  Lemma mc_threshold : ~ still_in (tcats t) i pos -> still_in (tcats t') i pos' -> v <= nth i P' 0 <= v'.
  Proof.
    intros N I. set (O := sort_desc (pre ++ post)).
    destruct (threshold_exists O (others_ok m i) (others_sum m i) (others_ok_dec m i)) as [T [HT HT']].
    destruct (plain_outcome M cap m recipe i name pre post T v pos t P Hi Hp HT HT' Cf Ht HP) as [A _].
    destruct (plain_outcome M cap m recipe i name pre post T v' pos' t' P' Hi Hp' HT HT' Cs Ht' HP') as [A' B'].
    apply A' in I. destruct (B' I) as (_ & _ & _ & E & _). rewrite E. fold O.
    assert (Hd : desc O) by apply sort_desc_desc.
    assert (Q : possible_position O v pos) by (eapply position_perm; [apply Permutation_sym, sort_desc_perm|exact Hp]).
    assert (Q' : possible_position O v' pos') by (eapply position_perm; [apply Permutation_sym, sort_desc_perm|exact Hp']).
    assert (LT : (T <= length O)%nat) by (destruct T as [|T']; [lia|]; destruct (HT (S T') ltac:(lia)); lia).
    assert (NT : ~ (pos < T)%nat) by (intros X; apply N, A; exact X). split.
    - apply (position_before O v pos (T - 1) Hd Q). lia.
    - apply (position_after O v' pos' (T - 1) Hd Q'). lia.
  Qed.
End Outcomes.
