(** * Trade reduction is weakly group-strategy-proof for every recipe on a market without spare agents (C79) *)
From Coq Require Import String List Arith Lia QArith Lqa Permutation Sorted Bool.
From Verif Require Import Base Model_Agents Model_Trade Model_Prices Model_Market Model_Ascending Model_TradeReduction
  Spec_Market Spec_Trade Spec_Ascending Spec_TradeReduction Spec_Group Proof_Market Proof_Trade Proof_Prices Proof_Ascending
  Proof_Ascending2 Proof_Strategy Proof_Ascending3 Proof_Ascending4 Proof_Deals Proof_TR Proof_TR2 Proof_TR3 Proof_TR4 Proof_TR5 Proof_TR6 Proof_TR7
  Proof_TR11 Proof_TR12 Proof_TR13 Proof_Gsp1 Proof_Gsp2 Proof_Gsp4.
Import ListNotations.
Open Scope Q_scope.

(** As [walks_two], for any order of the categories. *)
Lemma walks_order : forall M ma mb recipe z, length recipe = length ma -> length recipe = length mb ->
  forall o ns, valid ma recipe o ns -> agree M ma mb ns -> sizes_ok ma ns -> sizes_ok mb ns ->
  let wa := walk M ma recipe z o ns in let wb := walk M mb recipe z o ns in
  (wa = wb /\ match wa with Some (_, ns') => agree M ma mb ns' | None => True end)
  \/ wdiffer M recipe ma mb wa wb \/ wdiffer M recipe mb ma wb wa.
Proof.
  intros M ma mb recipe z La Lb. induction o as [|main o IH]; intros ns V Hag Ka Kb; cbv zeta; [left; split; [reflexivity|exact I]|].
  cbn [valid] in V. destruct V as [Hm [Hr [Hz V]]]. rewrite <- La in Hm.
  destruct (Qlt_le_dec (low M ma ns main) (low M mb ns main)) as [Hlt|Hge].
  - destruct (walk_step M ma mb recipe z o ns main La Lb Hag Hm Hr Hz Ka Hlt) as [[E1 E2]|D].
    + rewrite E1, E2. left. split; [reflexivity|assumption].
    + right. left. exact D.
  - destruct (Qlt_le_dec (low M mb ns main) (low M ma ns main)) as [Hlt|Hge'].
    + destruct (walk_step M mb ma recipe z o ns main Lb La (agree_sym _ _ _ _ Hag) Hm Hr Hz Kb Hlt) as [[E1 E2]|D].
      * rewrite E1, E2. left. split; [reflexivity|assumption].
      * right. right. exact D.
    + assert (Hag' : agree M ma mb (dec main ns)) by (apply agree_dec; [assumption|lra]).
      cbn [walk]. rewrite (accepts_ext z _ (psum M mb recipe (dec main ns))) by (apply agree_psum; assumption).
      destruct (accepts z (psum M mb recipe (dec main ns))); [left; split; [reflexivity|assumption]|].
      apply IH; [assumption|assumption|apply dec_ok; assumption|apply dec_ok; assumption].
Qed.

Theorem tr_group_full : forall M cap m m' recipe z t t' rank rank', 0 < M -> all_positive recipe -> no_spare m recipe ->
  same_agents m m' -> rankings m rank -> rankings m' rank' ->
  values_small M recipe m -> values_small M recipe m' -> cap_suffices cap m recipe -> cap_suffices cap m' recipe ->
  trade_reduction_M M cap m recipe z = Ok t -> trade_reduction_M M cap m' recipe z = Ok t' ->
  (exists i j, misreports m m' i j) ->
  exists i j, misreports m m' i j
    /\ utility t' i (rank' i j) (agent_value m i j) <= utility t i (rank i j) (agent_value m i j).
Proof.
  intros M cap m m' recipe z t t' rank rank' HM H1 Full HS HR HR' Sm Sm' Cm Cm' Ht Ht' Hmis.
  destruct (same_agents_len m m' HS) as [HL HLi].
  assert (Hl0 : length recipe = length m).
  { destruct (tr_errors M cap m recipe z) as [[_ [E _]]|[X _]]; [exact E|congruence]. }
  assert (La : length recipe = length (clone_market m)) by (rewrite clone_length; exact Hl0).
  assert (Lb : length recipe = length (clone_market m')) by (rewrite clone_length, <- HL; exact Hl0).
  destruct (no_spare_scarce m recipe Hl0 Full) as [s [j0 Sa]].
  assert (Pos := positive_of recipe H1).
  assert (Ga := values_at_least_clone _ _ (proj1 Sm)).
  assert (Gb := values_at_least_clone _ _ (proj1 Sm')).
  set (ma := clone_market m) in *. set (mb := clone_market m') in *.
  assert (Va : forall i, (i < length m)%nat -> vals ma i = sort_desc (nth i (map cvalues m) [])) by (intros; apply vals_clone; assumption).
  assert (Vb : forall i, (i < length m)%nat -> vals mb i = sort_desc (nth i (map cvalues m') [])) by (intros; apply vals_clone; lia).
  assert (Hlma : length ma = length m) by apply clone_length.
  assert (Hlmb : length mb = length m) by (rewrite HL; apply clone_length).
  assert (Vl : forall j, length (vals ma j) = length (vals mb j)).
  { intro j. destruct (le_lt_dec (length m) j) as [Hj|Hj]; [rewrite !vals_out by lia; reflexivity|].
    rewrite Va, Vb, !sort_desc_length by assumption. apply HLi. }
  assert (S0 : sizes0 mb = sizes0 ma).
  { apply list_ext_nth with (d := 0%nat).
    - unfold sizes0. rewrite !map_length. congruence.
    - intros j _. rewrite !sizes0_nth. auto. }
  assert (Hne : recipe <> []).
  { destruct Sa as [_ [X _]]. intros E. rewrite E in X. cbn in X. lia. }
  assert (Sb : scarce mb recipe s j0) by (apply (scarce_sizes ma); assumption).
  destruct (path_reach_block recipe s Pos Hne (nsum (sizes0 ma)) (sizes0 ma)) as [o1 [f [Ep [Eo _]]]].
  { unfold sizes0. rewrite map_length. symmetry. exact La. }
  { intros j Hj. rewrite sizes0_nth. apply (proj1 (enough_nth s ma recipe La) (proj1 Sa) j Hj). }
  { apply le_n. }
  destruct (tr_front M cap m recipe z t s j0 o1 HM Sm Cm Ht Sa Eo) as [_ [_ Wa]].
  destruct (tr_front M cap m' recipe z t' s j0 o1 HM Sm' Cm' Ht' Sb) as [_ [_ Wb]]; [fold mb; rewrite S0; exact Eo|].
  fold ma in Wa. fold mb in Wb. rewrite S0 in Wb.
  assert (Val : valid ma recipe (o1 ++ tr_order s recipe) (sizes0 ma)).
  { apply valid_app. split; [|rewrite Eo; apply valid_order; exact La].
    assert (V := path_valid ma recipe La (nsum (sizes0 ma)) (sizes0 ma)). rewrite Ep in V. apply valid_app in V. apply V. }
  assert (Da : forall i, (i < length m)%nat -> desc (vals ma i)) by (intros; rewrite Va by assumption; apply sort_desc_desc).
  assert (Db : forall i, (i < length m)%nat -> desc (vals mb i)) by (intros; rewrite Vb by assumption; apply sort_desc_desc).
  assert (Hri : forall i, (i < length m)%nat -> (0 < nth i recipe 0)%nat) by (intros i Hi; apply Pos; lia).
  assert (Pa : forall i j, is_agent m i j -> nth (rank i j) (vals ma i) (- M) == agent_value m i j /\ (rank i j < length (vals ma i))%nat).
  { intros i j [Hi Hj]. rewrite Va by assumption. split; [apply ranking_sorted; [apply HR; assumption|assumption]|].
    rewrite sort_desc_length. apply (HR i Hi). assumption. }
  assert (Pb : forall i j, is_agent m i j -> nth (rank' i j) (vals mb i) (- M) == agent_value m' i j /\ (rank' i j < length (vals mb i))%nat).
  { intros i j [Hi Hj]. rewrite Vb by assumption. rewrite HLi in Hj. split; [apply ranking_sorted; [apply HR'; lia|assumption]|].
    rewrite sort_desc_length. apply (HR' i); [lia|assumption]. }
  set (o := o1 ++ tr_order s recipe) in *.
  (* truthful agents do not lose *)
  assert (NN : forall i j, is_agent m i j -> 0 <= utility t i (rank i j) (agent_value m i j)).
  { intros i j Hag. assert (Hi := proj1 Hag). destruct (Pa i j Hag) as [Ta Ra].
    destruct (walk M ma recipe z o (sizes0 ma)) as [[mn ns]|] eqn:EW; [|rewrite utility_zero by exact Wa; lra].
    assert (Ok1 := proj1 Wa).
    rewrite (utility_front M ma recipe ns mn t i (rank i j) _ La ltac:(lia) Wa).
    destruct (Nat.ltb_spec (rank i j) (nth i ns 0%nat)) as [Hin|_]; [|lra].
    assert (Hq := Qfrac_nonneg (nth i recipe 0%nat * num_of_deals t) (nth i ns 0%nat) ltac:(lia)).
    destruct (walk_prices M ma recipe z o mn ns i (rank i j) La Ga (Da i Hi) ltac:(lia) (Hri i Hi) Ok1 EW Ra) as [X _]. specialize (X Hin).
    rewrite Ta in X. set (x := fp M ma recipe ns (Some mn) i) in *. set (v := agent_value m i j) in *. set (q := _ / _) in *. clearbody x v q. nra. }
  assert (HW := walks_order M ma mb recipe z La Lb o (sizes0 ma) Val). cbv zeta in HW.
  destruct HW as [[EW Hag]|[D|D]].
  { intro j. unfold pr. rewrite sizes0_nth. rewrite !nth_overflow; [reflexivity| |lia]. rewrite Vl. lia. }
  { apply sizes0_ok. } { rewrite <- S0. apply sizes0_ok. }
  - (* the same run *)
    destruct Hmis as (i & j & Hag0 & Hv). exists i, j. split; [split; assumption|].
    assert (Hi := proj1 Hag0). assert (N0 := NN i j Hag0).
    destruct (Pa i j Hag0) as [Ta Ra]. destruct (Pb i j Hag0) as [Tb Rb].
    rewrite <- EW in Wb.
    destruct (walk M ma recipe z o (sizes0 ma)) as [[mn ns]|] eqn:EWa; [|rewrite (utility_zero t') by exact Wb; assumption].
    assert (Ok1 := proj1 Wa). assert (Ok2 := proj1 Wb). destruct (walk_valid _ _ _ _ _ _ _ _ Val EWa) as [B1 [B2 _]].
    rewrite (utility_front M ma recipe ns mn t i (rank i j) _ La ltac:(lia) Wa) in *.
    rewrite (utility_front M mb recipe ns mn t' i (rank' i j) _ Lb ltac:(lia) Wb).
    assert (Ef : fp M mb recipe ns (Some mn) i == fp M ma recipe ns (Some mn) i).
    { destruct (Nat.eq_dec mn i) as [->|X].
      - rewrite !fp_main by lia. symmetry. apply (agree_bal M ma mb recipe La Lb ns i Hag). assumption.
      - rewrite !fp_other by (lia || congruence). symmetry. apply Hag. }
    assert (Ed : num_of_deals t' = num_of_deals t).
    { destruct Wa as [_ [T1 [X1 _]]]. destruct Wb as [_ [T2 [X2 _]]].
      rewrite supports_shrink in T1, T2 by assumption.
      apply Nat.le_antisymm; [apply X1|apply X2]; apply supports_shrink; assumption. }
    rewrite Ed.
    destruct (Nat.ltb_spec (rank' i j) (nth i ns 0%nat)) as [H'|H']; [|assumption]. rewrite Ef.
    destruct (Nat.ltb_spec (rank i j) (nth i ns 0%nat)) as [H|H]; [lra|].
    assert (Hq := Qfrac_nonneg (nth i recipe 0%nat * num_of_deals t) (nth i ns 0%nat) ltac:(lia)).
    destruct (walk_prices M ma recipe z o mn ns i (rank i j) La Ga (Da i Hi) ltac:(lia) (Hri i Hi) Ok1 EWa Ra) as [_ X]. specialize (X H).
    rewrite Ta in X. set (x := fp M ma recipe ns (Some mn) i) in *. set (v := agent_value m i j) in *. set (q := _ / _) in *. clearbody x v q. nra.
  - (* the truth is the lower one *)
    destruct D as (i & k & K1 & K2 & K3 & K4 & K5).
    assert (Hi : (i < length m)%nat) by lia.
    assert (Kl := K2). rewrite Va, sort_desc_length in Kl by assumption.
    destruct (pigeon _ _ (rank' i) (rank i) (S k) (HR' i ltac:(lia)) (HR i Hi) (eq_sym (HLi i)) ltac:(rewrite <- HLi; lia)) as (j & Hj & Hr1 & Hr2).
    rewrite <- HLi in Hj. assert (Hag : is_agent m i j) by (split; assumption).
    destruct (Pa i j Hag) as [Ta Ra]. destruct (Pb i j Hag) as [Tb Rb].
    assert (B1 : agent_value m i j <= nth k (vals ma i) (- M)) by (rewrite <- Ta; apply desc_nth; auto; lia).
    assert (B2 : nth k (vals mb i) (- M) <= agent_value m' i j) by (rewrite <- Tb; apply desc_nth; auto; [lia|rewrite <- Vl; lia]).
    exists i, j. split; [split; [assumption|lra]|]. apply Qle_trans with 0; [|apply NN; assumption].
    destruct (walk M mb recipe z o (sizes0 ma)) as [[mn ns]|] eqn:EWb; [|rewrite (utility_zero t') by exact Wb; lra].
    assert (Ok2 := proj1 Wb).
    rewrite (utility_front M mb recipe ns mn t' i (rank' i j) _ Lb ltac:(lia) Wb).
    destruct (Nat.ltb_spec (rank' i j) (nth i ns 0%nat)) as [Hin|_]; [|lra].
    assert (Hq := Qfrac_nonneg (nth i recipe 0%nat * num_of_deals t') (nth i ns 0%nat) ltac:(lia)).
    assert (Hp : agent_value m i j <= fp M mb recipe ns (Some mn) i).
    { rewrite <- S0 in EWb. destruct K5 as [K5|(ns' & E & K5)].
      - simpl in K5. destruct (walk_prices M mb recipe z o mn ns i k Lb Gb (Db i Hi) ltac:(lia) (Hri i Hi) Ok2 EWb ltac:(rewrite <- Vl; lia)) as [_ X].
        specialize (X K5). lra.
      - injection E as <- <-. rewrite fp_main by lia. lra. }
    set (x := fp M mb recipe ns (Some mn) i) in *. set (v := agent_value m i j) in *. set (q := _ / _) in *. clearbody x v q. nra.
  - (* the report is the lower one *)
    destruct D as (i & k & K1 & K2 & K3 & K4 & K5).
    assert (Hi : (i < length m)%nat) by lia.
    assert (Kl := K2). rewrite <- Vl, Va, sort_desc_length in Kl by assumption.
    destruct (pigeon _ _ (rank i) (rank' i) (S k) (HR i Hi) (HR' i ltac:(lia)) (HLi i) ltac:(lia)) as (j & Hj & Hr1 & Hr2).
    assert (Hag : is_agent m i j) by (split; assumption).
    destruct (Pa i j Hag) as [Ta Ra]. destruct (Pb i j Hag) as [Tb Rb].
    assert (B1 : nth k (vals ma i) (- M) <= agent_value m i j) by (rewrite <- Ta; apply desc_nth; auto; [lia|rewrite Vl; lia]).
    assert (B2 : agent_value m' i j <= nth k (vals mb i) (- M)) by (rewrite <- Tb; apply desc_nth; auto; lia).
    exists i, j. split; [split; [assumption|lra]|]. apply Qle_trans with 0; [|apply NN; assumption].
    destruct (walk M mb recipe z o (sizes0 ma)) as [[mn ns]|] eqn:EWb; [|rewrite (utility_zero t') by exact Wb; lra].
    assert (Ok2 := proj1 Wb).
    rewrite (utility_front M mb recipe ns mn t' i (rank' i j) _ Lb ltac:(lia) Wb).
    simpl in K4. destruct (Nat.ltb_spec (rank' i j) (nth i ns 0%nat)) as [Hin|_]; [lia|lra].
Qed.
