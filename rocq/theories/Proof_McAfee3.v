(** * McAfee's trade reduction: truthfulness *)

From Coq Require Import String List Arith Lia QArith Lqa Qabs Permutation Sorted Bool.
From Verif Require Import Base Model_Agents Model_Trade Model_Prices Model_Market Model_TradeReduction Model_McAfee
  Spec_Market Spec_Trade Spec_Ascending Spec_TradeReduction Spec_McAfee
  Proof_Market Proof_Trade Proof_Ascending Proof_Ascending2 Proof_Strategy Proof_Deals
  Proof_TR2 Proof_McAfee Proof_McAfee2.
Import ListNotations.
Open Scope Q_scope.

(** ** The threshold, seen from one agent: it depends on the other agents only *)

Definition at_row (O : list Q) (fok : nat -> Prop) (F : nat -> Q) (t : nat) : Prop :=
  (1 <= t <= length O)%nat /\ fok t /\ 0 <= nth (t - 1) O 0 + F t.

Definition antitone (fok : nat -> Prop) (F : nat -> Q) : Prop :=
  (forall a b, (a <= b)%nat -> fok b -> fok a) /\ (forall a b, (a <= b)%nat -> fok b -> F b <= F a).

Lemma at_row_down : forall O fok F a b, desc O -> antitone fok F -> (1 <= a <= b)%nat ->
  at_row O fok F b -> at_row O fok F a.
Proof.
  intros O fok F a b Hd [A1 A2] Hab [H1 [H2 H3]]. split; [lia|]. split; [eapply A1; [|exact H2]; lia|].
  assert (X := A2 a b ltac:(lia) H2). assert (Y := desc_nth O 0 (a - 1) (b - 1) Hd ltac:(lia) ltac:(lia)). lra.
Qed.

Lemma threshold_exists : forall O fok F, (forall t, fok t \/ ~ fok t) ->
  exists T, (forall t, (1 <= t <= T)%nat -> at_row O fok F t) /\ ~ at_row O fok F (S T).
Proof.
  intros O fok F Hdec.
  assert (D : forall t, at_row O fok F t \/ ~ at_row O fok F t).
  { intros t. unfold at_row. destruct (le_dec 1 t), (le_dec t (length O)), (Hdec t); try (right; intros [? [? ?]]; tauto || lia).
    destruct (Qlt_le_dec (nth (t - 1) O 0 + F t) 0); [right; intros [_ [_ X]]; lra|left; repeat split; assumption]. }
  assert (X : forall n, (forall t, (1 <= t <= n)%nat -> at_row O fok F t)
     \/ exists T, (forall t, (1 <= t <= T)%nat -> at_row O fok F t) /\ ~ at_row O fok F (S T)).
  { induction n as [|n [IH|IH]].
    - left. intros t Ht. lia.
    - destruct (D (S n)) as [Y|Y].
      + left. intros t Ht. destruct (Nat.eq_dec t (S n)) as [->|N]; [assumption|]. apply IH. lia.
      + right. exists n. split; assumption.
    - right. assumption. }
  destruct (X (S (length O))) as [Y|Y]; [|assumption].
  exfalso. destruct (Y (S (length O)) ltac:(lia)) as [Z _]. lia.
Qed.

(** Row [t] as seen with a report [v] at position [pos]. *)
Definition rep_row (O : list Q) (fok : nat -> Prop) (F : nat -> Q) (v : Q) (pos : nat) (t : nat) : Prop :=
  (t <= length O)%nat /\ fok t /\ 0 <= nth t (ins pos v O) 0 + F t.

Lemma position_le : forall others v pos, possible_position others v pos -> (pos <= length others)%nat.
Proof. intros others v pos [_ H]. assert (X := at_least_length v others). lia. Qed.

Lemma position_before : forall O v pos t, desc O -> possible_position O v pos -> (t < pos)%nat -> v <= nth t O 0.
Proof.
  intros O v pos t Hd H Ht. assert (L := position_le _ _ _ H). destruct H as [_ H2].
  assert (X := firstn_at_least O v pos Hd H2). rewrite Forall_forall in X. apply X.
  rewrite <- (firstn_skipn pos O) at 1. rewrite app_nth1 by (rewrite firstn_length_le; lia).
  apply nth_In. rewrite firstn_length_le; lia.
Qed.

Lemma position_after : forall O v pos t, desc O -> possible_position O v pos -> (pos <= t < length O)%nat -> nth t O 0 <= v.
Proof.
  intros O v pos t Hd H Ht. destruct H as [H1 _].
  assert (X := skipn_better O v pos Hd H1). rewrite Forall_forall in X. apply X.
  rewrite <- (firstn_skipn pos O) at 1. rewrite app_nth2 by (rewrite firstn_length_le; lia).
  apply nth_In. rewrite firstn_length_le, skipn_length; lia.
Qed.

Lemma rep_row_down : forall O fok F v pos a b, desc O -> antitone fok F -> possible_position O v pos -> (a <= b)%nat ->
  rep_row O fok F v pos b -> rep_row O fok F v pos a.
Proof.
  intros O fok F v pos a b Hd [A1 A2] Hp Hab [H1 [H2 H3]]. split; [lia|]. split; [eapply A1; [|exact H2]; lia|].
  assert (X := A2 a b Hab H2).
  assert (Y := desc_nth (ins pos v O) 0 a b (ins_desc _ _ _ Hd Hp) Hab ltac:(rewrite ins_length; lia)). lra.
Qed.

Lemma rep_row_after : forall O fok F v pos t, possible_position O v pos -> (pos < t)%nat ->
  (rep_row O fok F v pos t <-> at_row O fok F t).
Proof.
  intros O fok F v pos t Hp Ht. assert (L := position_le _ _ _ Hp). destruct t as [|t]; [lia|].
  unfold rep_row, at_row. rewrite ins_after by lia. replace (S t - 1)%nat with t by lia. intuition lia.
Qed.

Lemma deals_threshold : forall O fok F T v pos k, desc O -> antitone fok F -> possible_position O v pos ->
  (forall t, (1 <= t <= T)%nat -> at_row O fok F t) -> ~ at_row O fok F (S T) ->
  (forall t, (t < k)%nat -> rep_row O fok F v pos t) -> ~ rep_row O fok F v pos k ->
  ((pos < T)%nat -> k = S T)
  /\ ((T <= pos)%nat -> (k <= pos)%nat \/ (pos = T /\ k = S T))
  /\ ((pos = T)%nat -> fok T -> 0 <= v + F T -> k = S T).
Proof.
  intros O fok F T v pos k Hd Ha Hp HT HT' Hk Hk'. assert (L := position_le _ _ _ Hp). split; [|split].
  - intros Hlt.
    assert (R : rep_row O fok F v pos T) by (apply rep_row_after; [assumption|assumption|apply HT; lia]).
    destruct (le_lt_dec k T) as [Q|Q].
    { exfalso. apply Hk'. eapply rep_row_down; [assumption|exact Ha|assumption| |exact R]. assumption. }
    destruct (le_lt_dec k (S T)) as [Q'|Q']; [lia|]. exfalso. apply HT'.
    apply (rep_row_after O fok F v pos (S T)); [assumption|lia|]. apply Hk. assumption.
  - intros Hge. destruct (le_lt_dec k pos) as [Q|Q]; [left; assumption|]. right.
    assert (pos = T).
    { destruct (Nat.eq_dec pos T) as [E|E]; [assumption|]. exfalso. apply HT'.
      apply (at_row_down O fok F (S T) pos Hd Ha ltac:(lia)).
      destruct (Hk pos Q) as [R1 [R2 R3]]. split; [lia|]. split; [assumption|].
      rewrite ins_at in R3 by lia. assert (X := position_before O v pos (pos - 1) Hd Hp ltac:(lia)). lra. }
    split; [assumption|]. subst pos. destruct (le_lt_dec k (S T)) as [Q'|Q']; [lia|]. exfalso. apply HT'.
    apply (rep_row_after O fok F v T (S T)); [assumption|lia|]. apply Hk. assumption.
  - intros -> Hf Hv. destruct (le_lt_dec k T) as [Q|Q].
    + exfalso. apply Hk'. eapply rep_row_down; [assumption|exact Ha|exact Hp|exact Q|].
      split; [lia|]. split; [assumption|]. rewrite ins_at by lia. assumption.
    + destruct (le_lt_dec k (S T)) as [Q'|Q']; [lia|]. exfalso. apply HT'.
      apply (rep_row_after O fok F v T (S T)); [assumption|lia|]. apply Hk. assumption.
Qed.

(** ** The others in a market *)

Definition others_ok (m : market) (i : nat) (t : nat) : Prop :=
  forall j, (j < length m)%nat -> j <> i -> (t < csize (nth j m dcat))%nat.

Definition others_sum (m : market) (i : nat) (t : nat) : Q :=
  Qsum (map (fun j => if (j =? i)%nat then 0 else nth t (sort_desc (cvalues (nth j m dcat))) 0) (seq 0 (length m))).

Lemma others_ok_dec : forall m i t, others_ok m i t \/ ~ others_ok m i t.
Proof.
  intros m i t. unfold others_ok. generalize (length m) as n. induction n as [|n IH].
  - left. intros j Hj. lia.
  - destruct IH as [IH|IH].
    + destruct (Nat.eq_dec n i) as [E|E]; [left|destruct (lt_dec t (csize (nth n m dcat))); [left|right]].
      * intros j Hj Hn. apply IH; lia.
      * intros j Hj Hn. destruct (Nat.eq_dec j n) as [->|N]; [assumption|]. apply IH; lia.
      * intros H. apply n0. apply H; lia.
    + right. intros H. apply IH. intros j Hj Hn. apply H; lia.
Qed.

Lemma others_antitone : forall m i, antitone (others_ok m i) (others_sum m i).
Proof.
  intros m i. split.
  - intros a b Hab H j Hj Hn. specialize (H j Hj Hn). lia.
  - intros a b Hab H. unfold others_sum. apply Qsum_map_le. intros j Hj. apply in_seq in Hj.
    destruct (Nat.eqb_spec j i); [lra|]. specialize (H j ltac:(lia) n). unfold csize in H.
    apply desc_nth; [apply sort_desc_desc|assumption|rewrite sort_desc_length; assumption].
Qed.

Lemma others_set : forall m i c t, (others_ok (set_nth i c m) i t <-> others_ok m i t).
Proof.
  intros m i c t. unfold others_ok. rewrite set_nth_length. split; intros H j Hj Hn; specialize (H j Hj Hn).
  - rewrite nth_set_nth_other in H by auto. assumption.
  - rewrite nth_set_nth_other by auto. assumption.
Qed.

Lemma Qsum_pick : forall (f : nat -> Q) i n, (i < n)%nat ->
  Qsum (map f (seq 0 n)) == f i + Qsum (map (fun j => if (j =? i)%nat then 0 else f j) (seq 0 n)).
Proof.
  intros f i n. induction n as [|n IH]; intros H; [lia|].
  rewrite seq_S, !map_app, !Qsum_app. simpl map. cbn [Nat.add].
  destruct (Nat.eq_dec i n) as [->|N].
  - rewrite Nat.eqb_refl. rewrite (Qsum_map_ext _ (fun j => if (j =? n)%nat then 0 else f j) f).
    + simpl. ring.
    + intros j Hj. apply in_seq in Hj. destruct (Nat.eqb_spec j n); [lia|reflexivity].
  - rewrite IH by lia. destruct (Nat.eqb_spec n i); [lia|]. simpl. ring.
Qed.

Lemma row_sum : forall m i t, (i < length m)%nat ->
  Qsum (row 0 (clone_market m) t) == nth t (vals (clone_market m) i) 0 + others_sum m i t.
Proof.
  intros m i t Hi. rewrite row_ranked. rewrite (Qsum_nth _ dcat).
  rewrite (Qsum_pick (fun j => ranked 0 (nth j m dcat) t) i) by assumption.
  rewrite (vals_clone _ _ _ (nth_error_nth' m dcat Hi)). reflexivity.
Qed.

Lemma enough_ones : forall m recipe t, all_ones recipe -> length recipe = length m ->
  (forall j, (j < length m)%nat -> (t <= length (vals m j))%nat) -> enough t m recipe.
Proof.
  intros m recipe t H1 Hl H j c r Hc Hr.
  assert (r = 1%nat) by (unfold all_ones in H1; rewrite Forall_forall in H1; apply H1; eapply nth_error_In; eassumption).
  subst r. specialize (H j ltac:(apply nth_error_Some; congruence)). unfold vals in H. rewrite (nth_error_nth _ _ dcat Hc) in H.
  unfold csize. lia.
Qed.

Lemma vals_clone_nth : forall m j, vals (clone_market m) j = sort_desc (cvalues (nth j m dcat)).
Proof.
  intros m j. destruct (le_lt_dec (length m) j) as [L|L].
  - unfold vals. rewrite !nth_overflow; [reflexivity|assumption|rewrite clone_length; assumption].
  - apply vals_clone. apply nth_error_nth'. assumption.
Qed.

(** The number of optimal deals when agent [v] of category [i] reports. *)
Lemma report_deals : forall cap m recipe i name pre post v pos k,
  (i < length m)%nat -> possible_position (pre ++ post) v pos ->
  let mv := set_nth i (mkCat name (pre ++ v :: post)) m in
  let O := sort_desc (pre ++ post) in
  length recipe = length m -> all_ones recipe -> cap_suffices cap mv recipe ->
  stops_at cap k (clone_market mv) recipe true ->
  (forall t, (t < k)%nat -> rep_row O (others_ok m i) (others_sum m i) v pos t)
  /\ ~ rep_row O (others_ok m i) (others_sum m i) v pos k.
Proof.
  intros cap m recipe i name pre post v pos k Hi Hp mv O Hl H1 Hcap Hst.
  assert (Lmv : length mv = length m) by apply set_nth_length.
  assert (Lc : length (clone_market mv) = length m) by (rewrite clone_length; assumption).
  assert (Vi : vals (clone_market mv) i = sort_desc (pre ++ v :: post)).
  { rewrite vals_clone_nth. unfold mv. rewrite nth_set_nth_same by assumption. reflexivity. }
  assert (Qi := sorted_ins pre post v pos Hp). fold O in Qi.
  assert (Os : forall t, others_sum mv i t = others_sum m i t).
  { intros t. unfold others_sum. rewrite Lmv. f_equal. apply map_ext. intros j. destruct (Nat.eqb_spec j i); [reflexivity|].
    unfold mv. rewrite nth_set_nth_other by auto. reflexivity. }
  assert (Li : length (vals (clone_market mv) i) = S (length O)).
  { rewrite Vi. unfold O. rewrite !sort_desc_length, !app_length. simpl. lia. }
  assert (En : forall t, enough (S t) (clone_market mv) recipe <-> (t <= length O)%nat /\ others_ok m i t).
  { intros t. split.
    - intros He. assert (X : forall j, (j < length m)%nat -> (S t <= length (vals (clone_market mv) j))%nat).
      { intros j Hj. apply (ones_enough _ recipe); [assumption|lia|assumption|lia]. }
      split.
      + specialize (X i ltac:(lia)). lia.
      + intros j Hj Hn. specialize (X j ltac:(lia)). rewrite vals_clone_nth, sort_desc_length in X.
        unfold mv in X. rewrite nth_set_nth_other in X by auto. unfold csize. lia.
    - intros [X1 X2]. apply enough_ones; [assumption|lia|]. intros j Hj. rewrite Lc in Hj.
      destruct (Nat.eq_dec j i) as [->|N]; [lia|]. specialize (X2 j Hj N). rewrite vals_clone_nth, sort_desc_length.
      unfold mv. rewrite nth_set_nth_other by auto. unfold csize in X2. lia. }
  assert (Gn : forall t, enough (S t) (clone_market mv) recipe ->
    ps_gain (clone_market mv) recipe t == nth t (ins pos v O) 0 + others_sum m i t).
  { intros t He. rewrite ones_gain by (assumption || lia). rewrite (row_sum mv i) by lia. rewrite Os, Vi.
    rewrite (Forall2_nth _ _ t 0 Qi). reflexivity. }
  assert (Hsr := stop_reason _ _ _ _ _ (cap_clone _ _ _ Hcap) Hst).
  destruct Hst as [_ [He [Ha _]]]. split.
  - intros t Ht. assert (He' : enough (S t) (clone_market mv) recipe) by (eapply enough_le; [|exact He]; lia).
    assert (X := Ha t Ht). eapply acceptable_proper in X; [|apply Gn; assumption]. apply En in He'.
    split; [apply He'|]. split; [apply He'|]. exact X.
  - intros [X1 [X2 X3]]. assert (He' : enough (S k) (clone_market mv) recipe) by (apply En; split; assumption).
    apply (Hsr He'). cbn. rewrite (Gn k He'). assumption.
Qed.

(** ** Utility *)

Lemma mc_utility : forall M m' k h t recipe i pos x, mc_result M m' k h t -> trecipe t = recipe -> all_ones recipe ->
  length recipe = length m' -> (i < length m')%nat -> (forall j, (j < length m')%nat -> (k <= length (vals m' j))%nat) ->
  exists P, tprices t = Some P /\ utility t i pos x == if (pos <? num_of_deals t)%nat then x - nth i P 0 else 0.
Proof.
  intros M m' k h t recipe i pos x R Er H1 Hl Hi Hk.
  destruct (mc_prices _ _ _ _ _ R) as [P [HP [LP _]]]. exists P. split; [assumption|].
  unfold utility. rewrite HP, Er.
  rewrite (nth_error_nth' (tcats t) dcat) by (rewrite (mc_len _ _ _ _ _ R); assumption).
  rewrite (nth_error_nth' recipe 0%nat) by lia.
  assert (E1 : nth i recipe 0%nat = 1%nat) by (unfold all_ones in H1; rewrite Forall_forall in H1; apply H1, nth_In; lia).
  rewrite E1. destruct (mc_cat _ _ _ _ _ R i Hi) as [_ [_ Hq]].
  assert (D := mc_deals _ _ _ _ _ R).
  assert (Hdk : (num_of_deals t <= k)%nat) by (destruct k; [lia|]; destruct (accepted _ _ _ _ _); lia).
  assert (Hsz : csize (nth i (tcats t) dcat) = num_of_deals t).
  { unfold csize. rewrite (qeq_length _ _ Hq). apply firstn_length_le. specialize (Hk i Hi). lia. }
  rewrite Hsz. destruct (Nat.ltb_spec pos (num_of_deals t)); [|reflexivity].
  rewrite Nat.mul_1_l. field. assert (Y := Qn_pos (num_of_deals t) ltac:(lia)). lra.
Qed.

(** ** Without the heuristic: any number of categories *)

Lemma plain_utility : forall M cap m recipe i name pre post T v pos t x,
  (i < length m)%nat -> possible_position (pre ++ post) v pos ->
  let mv := set_nth i (mkCat name (pre ++ v :: post)) m in
  let O := sort_desc (pre ++ post) in
  (forall s, (1 <= s <= T)%nat -> at_row O (others_ok m i) (others_sum m i) s) ->
  ~ at_row O (others_ok m i) (others_sum m i) (S T) ->
  cap_suffices cap mv recipe -> mcafee_M M cap mv recipe false = Ok t ->
  utility t i pos x == if (pos <? T)%nat then x - nth (T - 1) O 0 else 0.
Proof.
  intros M cap m recipe i name pre post T v pos t x Hi Hp mv O HT HT' Hcap H.
  assert (Lmv : length mv = length m) by apply set_nth_length.
  destruct (mcafee_optimal _ _ _ _ _ _ H) as [deals [rem Ho]].
  destruct (mcafee_result _ _ _ _ _ _ _ _ H Ho) as [Hne [Hl [H1 [Hst [Er [_ R]]]]]].
  set (k := mt_num_of_deals deals) in *. clearbody k.
  assert (Lc : length (clone_market mv) = length m) by (rewrite clone_length; assumption).
  destruct (report_deals cap m recipe i name pre post v pos k Hi Hp ltac:(lia) H1 Hcap Hst) as [K1 K2].
  fold O in K1, K2.
  assert (Hd : desc O) by apply sort_desc_desc.
  assert (Hp' : possible_position O v pos) by (eapply position_perm; [apply Permutation_sym, sort_desc_perm|exact Hp]).
  destruct (deals_threshold O _ _ T v pos k Hd (others_antitone m i) Hp' HT HT' K1 K2) as [C1 [C2 C3]].
  assert (Hk : forall j, (j < length (clone_market mv))%nat -> (k <= length (vals (clone_market mv) j))%nat).
  { intros j Hj. apply (ones_enough _ recipe); [assumption|lia|apply Hst|assumption]. }
  destruct (mc_utility _ _ _ _ _ recipe i pos x R Er H1 ltac:(lia) ltac:(lia) Hk) as [P [HP ->]].
  assert (D := mc_deals _ _ _ _ _ R). assert (L := position_le _ _ _ Hp').
  destruct (Nat.ltb_spec pos T) as [Q|Q].
  - rewrite (C1 Q) in *. cbn in D. rewrite D. destruct (Nat.ltb_spec pos T); [|lia].
    destruct (mc_prices _ _ _ _ _ R) as [P' [HP' [_ Hpr]]]. assert (P' = P) by congruence. subst P'.
    specialize (Hpr i ltac:(lia)). cbn in Hpr. rewrite Hpr.
    rewrite vals_clone_nth. unfold mv. rewrite nth_set_nth_same by assumption. cbn [cvalues].
    rewrite (Forall2_nth _ _ T 0 (sorted_ins pre post v pos Hp)). fold O.
    destruct T as [|T]; [lia|]. rewrite ins_after by lia. replace (S T - 1)%nat with T by lia. reflexivity.
  - assert (Hkp : (num_of_deals t <= pos)%nat).
    { destruct k; [lia|]. cbn in D. destruct (C2 Q); lia. }
    destruct (Nat.ltb_spec pos (num_of_deals t)); [lia|reflexivity].
Qed.

Lemma threshold_truthful : forall O T x pos pos', desc O -> (T <= length O)%nat -> possible_position O x pos ->
  (if (pos' <? T)%nat then x - nth (T - 1) O 0 else 0) <= (if (pos <? T)%nat then x - nth (T - 1) O 0 else 0).
Proof.
  intros O T x pos pos' Hd HT Hp.
  destruct (Nat.ltb_spec pos' T), (Nat.ltb_spec pos T); try lra.
  - assert (X := position_before O x pos (T - 1) Hd Hp ltac:(lia)). lra.
  - assert (X := position_after O x pos (T - 1) Hd Hp ltac:(lia)). lra.
Qed.

Theorem mcafee_truthful_plain : forall M cap m recipe i name pre post v v' pos pos' t t',
  (i < length m)%nat ->
  possible_position (pre ++ post) v pos -> possible_position (pre ++ post) v' pos' ->
  let honest := set_nth i (mkCat name (pre ++ v :: post)) m in
  let lying := set_nth i (mkCat name (pre ++ v' :: post)) m in
  cap_suffices cap honest recipe -> cap_suffices cap lying recipe ->
  mcafee_M M cap honest recipe false = Ok t -> mcafee_M M cap lying recipe false = Ok t' ->
  utility t' i pos' v <= utility t i pos v.
Proof.
  intros M cap m recipe i name pre post v v' pos pos' t t' Hi Hp Hp' honest lying C C' H H'.
  set (O := sort_desc (pre ++ post)).
  destruct (threshold_exists O (others_ok m i) (others_sum m i) (others_ok_dec m i)) as [T [HT HT']].
  rewrite (plain_utility M cap m recipe i name pre post T v pos t v) by assumption.
  rewrite (plain_utility M cap m recipe i name pre post T v' pos' t' v) by assumption. fold O.
  apply threshold_truthful.
  - apply sort_desc_desc.
  - destruct T as [|T]; [lia|]. destruct (HT (S T) ltac:(lia)). lia.
  - eapply position_perm; [apply Permutation_sym, sort_desc_perm|exact Hp].
Qed.
