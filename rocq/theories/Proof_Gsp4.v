(** * Trade reduction is weakly group-strategy-proof (C79) *)
From Coq Require Import String List Arith Lia QArith Lqa Permutation Sorted Bool.
From Verif Require Import Base Model_Agents Model_Trade Model_Prices Model_Market Model_Ascending Model_TradeReduction
  Spec_Market Spec_Trade Spec_Ascending Spec_TradeReduction Spec_Group Proof_Market Proof_Trade Proof_Prices Proof_Ascending
  Proof_Ascending2 Proof_Strategy Proof_Ascending3 Proof_Ascending4 Proof_Deals Proof_TR Proof_TR2 Proof_TR3 Proof_TR4 Proof_TR5 Proof_TR6 Proof_TR7
  Proof_Gsp1 Proof_Gsp2.
Import ListNotations.
Open Scope Q_scope.

Definition at_most (main k : nat) (w : option (nat * list nat)) : Prop :=
  match w with Some (_, ns) => (nth main ns 0 <= k)%nat | None => True end.

Lemma walk_at_most : forall M m recipe z o ns main k, (nth main ns 0 <= k)%nat -> at_most main k (walk M m recipe z o ns).
Proof.
  intros M m recipe z o ns main k H. destruct (walk M m recipe z o ns) as [[a n]|] eqn:E; simpl; [|exact I].
  apply walk_last in E. destruct E as [_ [_ E]]. specialize (E main). lia.
Qed.

(** A first step in which the walks differ. *)
Definition wdiffer (M : Q) (recipe : list nat) (m1 m2 : market) (w1 w2 : option (nat * list nat)) : Prop :=
  exists main k, (main < length recipe)%nat /\ (k < length (vals m1 main))%nat
    /\ nth k (vals m1 main) (- M) < nth k (vals m2 main) (- M)
    /\ at_most main k w1
    /\ (at_most main k w2 \/ exists ns, w2 = Some (main, ns) /\ nth k (vals m1 main) (- M) <= bal M m2 recipe ns main).

Lemma walk_step : forall M m1 m2 recipe z o ns main,
  length recipe = length m1 -> length recipe = length m2 -> agree M m1 m2 ns -> (main < length recipe)%nat ->
  (0 < nth main recipe 0)%nat -> (0 < nth main ns 0)%nat -> sizes_ok m1 ns -> low M m1 ns main < low M m2 ns main ->
  let w1 := walk M m1 recipe z (main :: o) ns in let w2 := walk M m2 recipe z (main :: o) ns in
  (w1 = Some (main, ns) /\ w2 = Some (main, ns)) \/ wdiffer M recipe m1 m2 w1 w2.
Proof.
  intros M m1 m2 recipe z o ns main L1 L2 Hag Hm Hr Hpos Hok Hlt. cbv zeta. cbn [walk].
  assert (E1 := psum_dec M m1 recipe ns main Hm). assert (E2 := psum_dec M m2 recipe ns main Hm).
  fold (low M m1 ns main) in E1. fold (low M m2 ns main) in E2.
  assert (Hq := Qn_pos _ Hr).
  assert (Ep := agree_psum M m1 m2 recipe ns Hag). assert (Em := Hag main).
  assert (X : Qn (nth main recipe 0%nat) * low M m1 ns main < Qn (nth main recipe 0%nat) * low M m2 ns main) by (apply Qmult_lt_l; assumption).
  assert (Hle : psum M m1 recipe (dec main ns) <= psum M m2 recipe (dec main ns)) by (rewrite E1, E2, Ep, Em; lra).
  destruct (accepts z (psum M m1 recipe (dec main ns))) eqn:A1.
  - assert (A2 : accepts z (psum M m2 recipe (dec main ns)) = true).
    { apply accepts_iff. apply accepts_iff in A1. eapply acceptable_le; eassumption. }
    rewrite A2. left. split; reflexivity.
  - right. exists main, (nth main ns 0 - 1)%nat. split; [assumption|].
    split; [assert (Y := proj2 Hok main); lia|]. split; [assumption|].
    split; [apply walk_at_most; rewrite nth_dec_same; lia|].
    destruct (accepts z (psum M m2 recipe (dec main ns))) eqn:A2.
    + right. exists ns. split; [reflexivity|]. fold (low M m1 ns main).
      assert (Eb := bal_eq M m2 recipe L2 ns main Hr).
      assert (H0 : psum M m1 recipe (dec main ns) <= 0).
      { apply (not_acceptable z). intros Y. apply accepts_iff in Y. congruence. }
      apply Qnot_lt_le. intros Z.
      assert (Y : Qn (nth main recipe 0%nat) * bal M m2 recipe ns main < Qn (nth main recipe 0%nat) * low M m1 ns main) by (apply Qmult_lt_l; assumption).
      rewrite E1, Ep, Em in H0. lra.
    + left. apply walk_at_most. rewrite nth_dec_same. lia.
Qed.

Lemma walks_two : forall M ma mb recipe z, length recipe = length ma -> length recipe = length mb ->
  forall fuel ns, agree M ma mb ns -> sizes_ok ma ns -> sizes_ok mb ns ->
  let o := path fuel recipe ns in let wa := walk M ma recipe z o ns in let wb := walk M mb recipe z o ns in
  (wa = wb /\ match wa with Some (_, ns') => agree M ma mb ns' | None => True end)
  \/ wdiffer M recipe ma mb wa wb \/ wdiffer M recipe mb ma wb wa.
Proof.
  intros M ma mb recipe z La Lb. induction fuel as [|fuel IH]; intros ns Hag Ka Kb; cbv zeta; [left; split; [reflexivity|exact I]|].
  cbn [path]. destruct (choice recipe ns) as [main|e|] eqn:Hch; try (left; split; [reflexivity|exact I]).
  destruct (Nat.eqb_spec (nth main ns 0%nat) 0) as [Hz|Hz]; [left; split; [reflexivity|exact I]|].
  apply choice_spec in Hch. destruct Hch as [Hm [Hr _]].
  destruct (Qlt_le_dec (low M ma ns main) (low M mb ns main)) as [Hlt|Hge].
  - destruct (walk_step M ma mb recipe z (path fuel recipe (dec main ns)) ns main La Lb Hag Hm Hr ltac:(lia) Ka Hlt) as [[E1 E2]|D].
    + rewrite E1, E2. left. split; [reflexivity|assumption].
    + right. left. exact D.
  - destruct (Qlt_le_dec (low M mb ns main) (low M ma ns main)) as [Hlt|Hge'].
    + destruct (walk_step M mb ma recipe z (path fuel recipe (dec main ns)) ns main Lb La (agree_sym _ _ _ _ Hag) Hm Hr ltac:(lia) Kb Hlt) as [[E1 E2]|D].
      * rewrite E1, E2. left. split; [reflexivity|assumption].
      * right. right. exact D.
    + assert (Hag' : agree M ma mb (dec main ns)) by (apply agree_dec; [assumption|lra]).
      cbn [walk]. rewrite (accepts_ext z _ (psum M mb recipe (dec main ns))) by (apply agree_psum; assumption).
      destruct (accepts z (psum M mb recipe (dec main ns))); [left; split; [reflexivity|assumption]|].
      apply IH; [assumption|apply dec_ok; assumption|apply dec_ok; assumption].
Qed.

(** The final price is between the values of those who stay and those who have left. *)
Lemma walk_prices : forall M m recipe z o main ns i pos, length recipe = length m -> values_at_least (- M) m -> desc (vals m i) ->
  (i < length recipe)%nat -> (0 < nth i recipe 0)%nat -> sizes_ok m ns -> walk M m recipe z o (sizes0 m) = Some (main, ns) ->
  (pos < length (vals m i))%nat ->
  ((pos < nth i ns 0)%nat -> fp M m recipe ns (Some main) i <= nth pos (vals m i) (- M))
  /\ ((nth i ns 0 <= pos)%nat -> nth pos (vals m i) (- M) <= fp M m recipe ns (Some main) i).
Proof.
  intros M m recipe z o main ns i pos Hl Hv Hd Hi Hr Hok Hw Hp.
  destruct (walk_last _ _ _ _ _ _ _ _ Hw) as [A1 [A2 A3]]. assert (Hn := proj2 Hok i).
  split; intros H.
  - destruct (Nat.eq_dec main i) as [->|Hne].
    + rewrite fp_main by lia. apply Qle_trans with (nth (nth i ns 0 - 1)%nat (vals m i) (- M)).
      * apply bal_upper; auto. apply (acceptable_nonneg z). assumption.
      * apply desc_nth; [assumption|lia|lia].
    + rewrite fp_other by (lia || congruence). unfold pr.
      destruct (Nat.eq_dec (nth i ns 0%nat) (length (vals m i))) as [E|E].
      * rewrite (nth_overflow (vals m i) (n := nth i ns 0%nat)) by lia.
        apply (vals_nonneg M m i); [assumption|]. apply nth_In. assumption.
      * apply desc_nth; [assumption|lia|lia].
  - assert (Neg : psum M m recipe ns <= 0).
    { destruct A2 as [E|A2]; [|apply (not_acceptable z); assumption]. exfalso. rewrite E, sizes0_nth in H. lia. }
    assert (X : nth pos (vals m i) (- M) <= pr M m ns i) by (unfold pr; apply desc_nth; assumption).
    destruct (Nat.eq_dec main i) as [->|Hne].
    + rewrite fp_main by lia. eapply Qle_trans; [exact X|]. apply bal_lower; assumption.
    + rewrite fp_other by (lia || congruence). assumption.
Qed.

Theorem tr_group : forall M cap m m' recipe z t t' rank rank', 0 < M -> all_ones recipe ->
  same_agents m m' -> rankings m rank -> rankings m' rank' ->
  values_small M recipe m -> values_small M recipe m' -> cap_suffices cap m recipe -> cap_suffices cap m' recipe ->
  trade_reduction_M M cap m recipe z = Ok t -> trade_reduction_M M cap m' recipe z = Ok t' ->
  (exists i j, misreports m m' i j) ->
  exists i j, misreports m m' i j
    /\ utility t' i (rank' i j) (agent_value m i j) <= utility t i (rank i j) (agent_value m i j).
Proof.
  intros M cap m m' recipe z t t' rank rank' HM H1 HS HR HR' Sm Sm' Cm Cm' Ht Ht' Hmis.
  destruct (same_agents_len m m' HS) as [HL HLi].
  set (fuel := (total_agents m + total_agents m')%nat).
  destruct (tr_ones M cap m recipe z t fuel HM H1 Sm Cm Ht ltac:(unfold fuel; lia)) as [La [Hne [Nt Wa]]].
  destruct (tr_ones M cap m' recipe z t' fuel HM H1 Sm' Cm' Ht' ltac:(unfold fuel; lia)) as [Lb [_ [Nt' Wb]]].
  assert (Hl0 : length recipe = length m) by (rewrite La; apply clone_length).
  assert (Hpos : (0 < nsum recipe)%nat).
  { destruct (ones_positive recipe H1 Hne) as [j [_ Hj]]. apply (nsum_pos recipe j). assumption. }
  assert (Ga := values_at_least_clone _ _ (small_at_least M recipe m Sm Hpos)).
  assert (Gb := values_at_least_clone _ _ (small_at_least M recipe m' Sm' Hpos)).
  set (ma := clone_market m) in *. set (mb := clone_market m') in *.
  assert (Va : forall i, (i < length m)%nat -> vals ma i = sort_desc (nth i (map cvalues m) [])) by (intros; apply vals_clone; assumption).
  assert (Vb : forall i, (i < length m)%nat -> vals mb i = sort_desc (nth i (map cvalues m') [])) by (intros; apply vals_clone; lia).
  assert (Hlma : length ma = length m) by apply clone_length.
  assert (Hlmb : length mb = length m) by (rewrite HL; apply clone_length).
  assert (Vl : forall j, length (vals ma j) = length (vals mb j)).
  { intro j. destruct (le_lt_dec (length m) j) as [Hj|Hj]; [rewrite !vals_out by lia; reflexivity|].
    rewrite Va, Vb, !sort_desc_length by assumption. apply HLi. }
  assert (S0 : sizes0 mb = sizes0 ma).
  { apply list_ext_nth with (d := 0%nat).
    - unfold sizes0. rewrite !map_length. congruence.
    - intros j _. rewrite !sizes0_nth. auto. }
  rewrite S0 in Wb.
  assert (Da : forall i, (i < length m)%nat -> desc (vals ma i)) by (intros; rewrite Va by assumption; apply sort_desc_desc).
  assert (Db : forall i, (i < length m)%nat -> desc (vals mb i)) by (intros; rewrite Vb by assumption; apply sort_desc_desc).
  assert (Hri : forall i, (i < length m)%nat -> (0 < nth i recipe 0)%nat) by (intros i Hi; rewrite (all_ones_nth recipe i H1) by lia; lia).
  assert (Pa : forall i j, is_agent m i j -> nth (rank i j) (vals ma i) (- M) == agent_value m i j /\ (rank i j < length (vals ma i))%nat).
  { intros i j [Hi Hj]. rewrite Va by assumption. split; [apply ranking_sorted; [apply HR; assumption|assumption]|].
    rewrite sort_desc_length. apply (HR i Hi). assumption. }
  assert (Pb : forall i j, is_agent m i j -> nth (rank' i j) (vals mb i) (- M) == agent_value m' i j /\ (rank' i j < length (vals mb i))%nat).
  { intros i j [Hi Hj]. rewrite Vb by assumption. rewrite HLi in Hj. split; [apply ranking_sorted; [apply HR'; lia|assumption]|].
    rewrite sort_desc_length. apply (HR' i); [lia|assumption]. }
  set (o := path fuel recipe (sizes0 ma)) in *.
  (* truthful agents do not lose *)
  assert (NN : forall i j, is_agent m i j -> 0 <= utility t i (rank i j) (agent_value m i j)).
  { intros i j Hag. assert (Hi := proj1 Hag). destruct (Pa i j Hag) as [Ta Ra].
    destruct (walk M ma recipe z o (sizes0 ma)) as [[mn ns]|] eqn:EW; [|rewrite utility_empty by apply Wa; lra].
    destruct Wa as [P [Ok1 [C1 [R1 [P1 [P2 _]]]]]].
    rewrite (utility_walk M ma recipe ns mn t P i (rank i j) _ La Ok1 ltac:(lia) C1 R1 P1 P2).
    destruct (Nat.ltb_spec (rank i j) (nth i ns 0%nat)) as [Hin|_]; [|lra].
    assert (Hq := Qfrac_nonneg (nth i recipe 0%nat * num_of_deals t) (nth i ns 0%nat) ltac:(lia)).
    destruct (walk_prices M ma recipe z o mn ns i (rank i j) La Ga (Da i Hi) ltac:(lia) (Hri i Hi) Ok1 EW Ra) as [X _]. specialize (X Hin).
    rewrite Ta in X. set (x := fp M ma recipe ns (Some mn) i) in *. set (v := agent_value m i j) in *. set (q := _ / _) in *. clearbody x v q. nra. }
  assert (HW := walks_two M ma mb recipe z La Lb fuel (sizes0 ma)). cbv zeta in HW. fold o in HW.
  destruct HW as [[EW Hag]|[D|D]].
  { intro j. unfold pr. rewrite sizes0_nth. rewrite !nth_overflow; [reflexivity| |lia]. rewrite Vl. lia. }
  { apply sizes0_ok. } { rewrite <- S0. apply sizes0_ok. }
  - (* the same run *)
    destruct Hmis as (i & j & Hag0 & Hv). exists i, j. split; [split; assumption|].
    assert (Hi := proj1 Hag0). assert (N0 := NN i j Hag0).
    destruct (Pa i j Hag0) as [Ta Ra]. destruct (Pb i j Hag0) as [Tb Rb].
    rewrite <- EW in Wb.
    destruct (walk M ma recipe z o (sizes0 ma)) as [[mn ns]|] eqn:EWa; [|rewrite (utility_empty t') by apply Wb; assumption].
    destruct Wa as [P [Ok1 [C1 [R1 [P1 [P2 _]]]]]]. destruct Wb as [P' [Ok2 [C2 [R2 [P1' [P2' [B1 [B2 _]]]]]]]].
    rewrite (utility_walk M ma recipe ns mn t P i (rank i j) _ La Ok1 ltac:(lia) C1 R1 P1 P2) in *.
    rewrite (utility_walk M mb recipe ns mn t' P' i (rank' i j) _ Lb Ok2 ltac:(lia) C2 R2 P1' P2').
    assert (Ef : fp M mb recipe ns (Some mn) i == fp M ma recipe ns (Some mn) i).
    { destruct (Nat.eq_dec mn i) as [->|X].
      - rewrite !fp_main by lia. symmetry. apply (agree_bal M ma mb recipe La Lb ns i Hag). assumption.
      - rewrite !fp_other by (lia || congruence). symmetry. apply Hag. }
    assert (Ed : num_of_deals t' = num_of_deals t).
    { destruct (deals_max _ _ _ _ Nt) as [_ [S1 X1]]. destruct (deals_max _ _ _ _ Nt') as [_ [S2 X2]].
      fold (num_of_deals t) in S1, X1. fold (num_of_deals t') in S2, X2.
      assert (T1 : supports (shrink ma ns) recipe (num_of_deals t)) by (eapply supports_cat_eq; eassumption).
      assert (T2 : supports (shrink mb ns) recipe (num_of_deals t')) by (eapply supports_cat_eq; eassumption).
      rewrite supports_shrink in T1, T2 by assumption.
      apply Nat.le_antisymm.
      - apply X1. eapply supports_cat_eq; [apply Forall2_cat_sym; eassumption|]. apply supports_shrink; assumption.
      - apply X2. eapply supports_cat_eq; [apply Forall2_cat_sym; eassumption|]. apply supports_shrink; assumption. }
    rewrite Ed.
    destruct (Nat.ltb_spec (rank' i j) (nth i ns 0%nat)) as [H'|H']; [|assumption]. rewrite Ef.
    destruct (Nat.ltb_spec (rank i j) (nth i ns 0%nat)) as [H|H]; [lra|].
    assert (Hq := Qfrac_nonneg (nth i recipe 0%nat * num_of_deals t) (nth i ns 0%nat) ltac:(lia)).
    destruct (walk_prices M ma recipe z o mn ns i (rank i j) La Ga (Da i Hi) ltac:(lia) (Hri i Hi) Ok1 EWa Ra) as [_ X]. specialize (X H).
    rewrite Ta in X. set (x := fp M ma recipe ns (Some mn) i) in *. set (v := agent_value m i j) in *. set (q := _ / _) in *. clearbody x v q. nra.
  - (* the truth is the lower one *)
    destruct D as (i & k & K1 & K2 & K3 & K4 & K5).
    assert (Hi : (i < length m)%nat) by lia.
    assert (Kl := K2). rewrite Va, sort_desc_length in Kl by assumption.
    destruct (pigeon _ _ (rank' i) (rank i) (S k) (HR' i ltac:(lia)) (HR i Hi) (eq_sym (HLi i)) ltac:(rewrite <- HLi; lia)) as (j & Hj & Hr1 & Hr2).
    rewrite <- HLi in Hj. assert (Hag : is_agent m i j) by (split; assumption).
    destruct (Pa i j Hag) as [Ta Ra]. destruct (Pb i j Hag) as [Tb Rb].
    assert (B1 : agent_value m i j <= nth k (vals ma i) (- M)) by (rewrite <- Ta; apply desc_nth; auto; lia).
    assert (B2 : nth k (vals mb i) (- M) <= agent_value m' i j) by (rewrite <- Tb; apply desc_nth; auto; [lia|rewrite <- Vl; lia]).
    exists i, j. split; [split; [assumption|lra]|]. apply Qle_trans with 0; [|apply NN; assumption].
    destruct (walk M mb recipe z o (sizes0 ma)) as [[mn ns]|] eqn:EWb; [|rewrite (utility_empty t') by apply Wb; lra].
    destruct Wb as [P' [Ok2 [C2 [R2 [P1' [P2' _]]]]]].
    rewrite (utility_walk M mb recipe ns mn t' P' i (rank' i j) _ Lb Ok2 ltac:(lia) C2 R2 P1' P2').
    destruct (Nat.ltb_spec (rank' i j) (nth i ns 0%nat)) as [Hin|_]; [|lra].
    assert (Hq := Qfrac_nonneg (nth i recipe 0%nat * num_of_deals t') (nth i ns 0%nat) ltac:(lia)).
    assert (Hp : agent_value m i j <= fp M mb recipe ns (Some mn) i).
    { rewrite <- S0 in EWb. destruct K5 as [K5|(ns' & E & K5)].
      - simpl in K5. destruct (walk_prices M mb recipe z o mn ns i k Lb Gb (Db i Hi) ltac:(lia) (Hri i Hi) Ok2 EWb ltac:(rewrite <- Vl; lia)) as [_ X].
        specialize (X K5). lra.
      - injection E as <- <-. rewrite fp_main by lia. lra. }
    set (x := fp M mb recipe ns (Some mn) i) in *. set (v := agent_value m i j) in *. set (q := _ / _) in *. clearbody x v q. nra.
  - (* the report is the lower one *)
    destruct D as (i & k & K1 & K2 & K3 & K4 & K5).
    assert (Hi : (i < length m)%nat) by lia.
    assert (Kl := K2). rewrite <- Vl, Va, sort_desc_length in Kl by assumption.
    destruct (pigeon _ _ (rank i) (rank' i) (S k) (HR i Hi) (HR' i ltac:(lia)) (HLi i) ltac:(lia)) as (j & Hj & Hr1 & Hr2).
    assert (Hag : is_agent m i j) by (split; assumption).
    destruct (Pa i j Hag) as [Ta Ra]. destruct (Pb i j Hag) as [Tb Rb].
    assert (B1 : nth k (vals ma i) (- M) <= agent_value m i j) by (rewrite <- Ta; apply desc_nth; auto; [lia|rewrite Vl; lia]).
    assert (B2 : agent_value m' i j <= nth k (vals mb i) (- M)) by (rewrite <- Tb; apply desc_nth; auto; lia).
    exists i, j. split; [split; [assumption|lra]|]. apply Qle_trans with 0; [|apply NN; assumption].
    destruct (walk M mb recipe z o (sizes0 ma)) as [[mn ns]|] eqn:EWb; [|rewrite (utility_empty t') by apply Wb; lra].
    destruct Wb as [P' [Ok2 [C2 [R2 [P1' [P2' _]]]]]].
    rewrite (utility_walk M mb recipe ns mn t' P' i (rank' i j) _ Lb Ok2 ltac:(lia) C2 R2 P1' P2').
    simpl in K4. destruct (Nat.ltb_spec (rank' i j) (nth i ns 0%nat)) as [Hin|_]; [lia|lra].
Qed.
