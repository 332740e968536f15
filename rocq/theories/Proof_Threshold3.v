(** * A winner cannot influence the outcome: trade reduction (C95) *)

From Coq Require Import String List Arith Lia QArith Lqa Permutation Sorted Bool.
From Verif Require Import Base Model_Agents Model_Trade Model_Prices Model_Market Model_Ascending Model_TradeReduction
  Spec_Market Spec_Trade Spec_Ascending Spec_TradeReduction Proof_Market Proof_Trade Proof_Prices Proof_Ascending
  Proof_Ascending2 Proof_Strategy Proof_Ascending3 Proof_Ascending4 Proof_Deals Proof_TR Proof_TR2 Proof_TR3 Proof_TR4 Proof_TR5 Proof_TR6 Proof_TR7
  Proof_TR11 Proof_TR12 Proof_TR13 Spec_Threshold Proof_Threshold.
Import ListNotations.
Open Scope Q_scope.

Lemma shrink_nth : forall m ns i, (i < length m)%nat ->
  nth_error (shrink m ns) i = Some (mkCat (cname (nth i m dcat)) (firstn (nth i ns 0%nat) (vals m i))).
Proof. intros. unfold shrink. apply nth_error_map_seq. assumption. Qed.

(** What a front says about a winner. *)
Lemma front_wins : forall M m recipe t main ns i pos P, length recipe = length m -> (i < length m)%nat ->
  front M m recipe t (Some (main, ns)) -> tprices t = Some P ->
  (wins t i pos <-> (0 < num_of_deals t)%nat /\ (pos < nth i ns 0)%nat)
  /\ ((0 < num_of_deals t)%nat -> Forall2 cat_eq (tcats t) (shrink m ns) /\ qeq P (final_prices M m recipe ns (Some main))).
Proof.
  intros M m recipe t main ns i pos P Hl Hi [Hok [_ [_ HP]]] EP. split.
  - unfold wins. split; intros [A B].
    + split; [assumption|]. destruct (HP B) as [P' [C _]]. destruct A as (c & E & H).
      destruct (Forall2_cat_nth (tcats t) (shrink m ns) i c C E) as [c' [E1 E2]]. rewrite shrink_nth in E1 by assumption.
      injection E1; intros <-. apply cat_eq_size in E2. unfold csize in E2. cbn [cvalues] in E2.
      rewrite firstn_length_le in E2 by apply Hok. lia.
    + split; [|assumption]. destruct (HP A) as [P' [C _]].
      destruct (Forall2_cat_nth (shrink m ns) (tcats t) i _ (Forall2_cat_sym _ _ C) (shrink_nth m ns i Hi)) as [c [E1 E2]].
      exists c. split; [assumption|]. apply cat_eq_size in E2. unfold csize in E2. cbn [cvalues] in E2.
      rewrite firstn_length_le in E2 by apply Hok. lia.
  - intros H. destruct (HP H) as [P' [C1 [_ [C2 C3]]]]. rewrite EP in C2. injection C2; intros <-. auto.
Qed.

Lemma tr_two_outcomes : forall M cap m recipe z i name pre post lo hi bl bh tl th Pl Ph, 0 < M -> all_positive recipe ->
  (i < length m)%nat ->
  possible_position (pre ++ post) lo bl -> possible_position (pre ++ post) hi bh ->
  lo <= hi -> (bh <= bl)%nat ->
  let Ml := set_nth i (mkCat name (pre ++ lo :: post)) m in
  let Mh := set_nth i (mkCat name (pre ++ hi :: post)) m in
  no_spare Ml recipe -> values_small M recipe Ml -> values_small M recipe Mh -> cap_suffices cap Ml recipe -> cap_suffices cap Mh recipe ->
  trade_reduction_M M cap Ml recipe z = Ok tl -> trade_reduction_M M cap Mh recipe z = Ok th ->
  tprices tl = Some Pl -> tprices th = Some Ph ->
  (wins tl i bl /\ wins th i bh /\ num_of_deals tl = num_of_deals th
     /\ same_outcome i bl bh (tcats tl) (tcats th) Pl Ph)
  \/ (~ wins tl i bl /\ (wins th i bh -> lo <= nth i Ph 0 <= hi)).
Proof.
  intros M cap m recipe z i name pre post lo hi bl bh tl th Pl Ph HM H1 Him Hpl Hph Hle Hb Ml Mh Full Sml Smh Cl Ch Hl Hh HPl HPh.
  assert (Lm : length recipe = length Ml).
  { destruct (tr_errors M cap Ml recipe z) as [[_ [E _]]|[X _]]; [exact E|congruence]. }
  destruct (no_spare_scarce Ml recipe Lm Full) as [s [j0 Sl]].
  assert (Ll : length recipe = length (clone_market Ml)) by (rewrite clone_length; exact Lm).
  assert (Lh : length recipe = length (clone_market Mh)).
  { rewrite Ll. unfold Ml, Mh. rewrite !clone_length, !set_nth_length. reflexivity. }
  set (ml := clone_market Ml) in *. set (mh := clone_market Mh) in *.
  destruct (two_reports pre post lo hi bl bh (- M) Hpl Hph Hle Hb) as [R1 [R2 [R3 [R4 [R5 R6]]]]].
  assert (Vl : vals ml i = sort_desc (pre ++ lo :: post)).
  { unfold ml, Ml. rewrite clone_set_nth, vals_set_same by (rewrite clone_length; assumption). reflexivity. }
  assert (Vh : vals mh i = sort_desc (pre ++ hi :: post)).
  { unfold mh, Mh. rewrite clone_set_nth, vals_set_same by (rewrite clone_length; assumption). reflexivity. }
  assert (Vo : forall j, j <> i -> vals mh j = vals ml j).
  { intros j Hj. unfold ml, mh, Ml, Mh. rewrite !clone_set_nth, !vals_set_other by auto. reflexivity. }
  assert (RES := without_reports pre post lo hi bl bh).
  assert (Nm : forall j, cname (nth j mh dcat) = cname (nth j ml dcat)).
  { intros j. unfold ml, mh, Ml, Mh. rewrite !clone_set_nth. destruct (Nat.eq_dec j i) as [->|Nj].
    - rewrite !nth_set_nth_same by (rewrite clone_length; assumption). reflexivity.
    - rewrite !nth_set_nth_other by auto. reflexivity. }
  rewrite <- Vl, <- Vh in *.
  assert (Hi : (i < length recipe)%nat).
  { rewrite Ll. unfold ml, Ml. rewrite clone_length, set_nth_length. assumption. }
  assert (Pos := positive_of recipe H1).
  assert (Hri : (0 < nth i recipe 0)%nat) by (apply Pos; exact Hi).
  assert (Hne : recipe <> []) by (intros E; rewrite E in Hi; cbn in Hi; lia).
  assert (S0 : sizes0 mh = sizes0 ml).
  { apply list_ext_nth with (d := 0%nat).
    - unfold sizes0. rewrite !map_length. congruence.
    - intros j _. rewrite !sizes0_nth. destruct (Nat.eq_dec j i) as [->|Hn]; [auto|rewrite Vo by assumption; reflexivity]. }
  assert (Sh : scarce mh recipe s j0).
  { apply (scarce_sizes ml); [exact Ll|exact Lh| |exact Sl]. intros j. rewrite <- !sizes0_nth, S0. reflexivity. }
  destruct (path_reach_block recipe s Pos Hne (nsum (sizes0 ml)) (sizes0 ml)) as [o1 [f [Ep [Eo _]]]].
  { unfold sizes0. rewrite map_length. symmetry. exact Ll. }
  { intros j Hj. rewrite sizes0_nth. apply (proj1 (enough_nth s ml recipe Ll) (proj1 Sl) j Hj). }
  { apply le_n. }
  destruct (tr_front M cap Ml recipe z tl s j0 o1 HM Sml Cl Hl Sl Eo) as [_ [_ Wl]].
  destruct (tr_front M cap Mh recipe z th s j0 o1 HM Smh Ch Hh Sh) as [_ [_ Wh]]; [fold mh; rewrite S0; exact Eo|].
  fold ml in Wl. fold mh in Wh. rewrite S0 in Wh.
  assert (Hstart : (bl < nth i (sizes0 ml) 0)%nat) by (rewrite sizes0_nth; assumption).
  assert (Val : valid ml recipe (o1 ++ tr_order s recipe) (sizes0 ml)).
  { apply valid_app. split; [|rewrite Eo; apply valid_order; exact Ll].
    assert (V := path_valid ml recipe Ll (nsum (sizes0 ml)) (sizes0 ml)). rewrite Ep in V. apply valid_app in V. apply V. }
  set (o := o1 ++ tr_order s recipe) in *.
  assert (HO : forall j n, j <> i -> nth n (vals mh j) (- M) == nth n (vals ml j) (- M)).
  { intros j n Hj. rewrite Vo by assumption. reflexivity. }
  destruct (walk_dichotomy M ml mh recipe i bl z Ll Lh Hi Hri HO R3 ltac:(rewrite R4; exact R6) o (sizes0 ml) Hstart) as [D|[Dl Dh]].
  - rewrite <- D in Wh. destruct (walk M ml recipe z o (sizes0 ml)) as [[main ns]|] eqn:EW.
    + assert (Okl := proj1 Wl). assert (Okh := proj1 Wh).
      destruct (front_wins M ml recipe tl main ns i bl Pl Ll ltac:(lia) Wl HPl) as [Il Fl].
      destruct (front_wins M mh recipe th main ns i bh Ph Lh ltac:(lia) Wh HPh) as [Ih Fh].
      assert (Ed : num_of_deals th = num_of_deals tl).
      { destruct Wl as [_ [T1 [X1 _]]]. destruct Wh as [_ [T2 [X2 _]]].
        rewrite supports_shrink in T1, T2 by assumption.
        apply Nat.le_antisymm; [apply X1|apply X2]; apply supports_shrink; assumption. }
      destruct (le_lt_dec (nth i ns 0%nat) bl) as [Hout|Hin].
      * right. rewrite Il. split; [lia|]. intros Hw. apply Ih in Hw. destruct Hw as [Hd Hin].
        destruct (Fh Hd) as [_ Hq]. rewrite (qeq_nth _ _ i 0 Hq). change (nth i (final_prices M mh recipe ns (Some main)) 0) with (fp M mh recipe ns (Some main) i).
        assert (Hdi : desc (vals mh i)) by (rewrite Vh; apply sort_desc_desc).
        assert (EWh : walk M mh recipe z o (sizes0 ml) = Some (main, ns)) by congruence.
        assert (Lastl := walk_last _ _ _ _ _ _ _ _ EWh). destruct Lastl as [A1 [A2 _]].
        assert (Neg : psum M mh recipe ns <= 0).
        { destruct A2 as [E|A2]; [|apply (not_acceptable z); assumption]. exfalso. rewrite E in Hout. lia. }
        split.
        { assert (X : lo <= pr M mh ns i).
          { unfold pr. eapply Qle_trans; [exact R6|]. apply desc_nth; [assumption|assumption|]. rewrite <- R1. lia. }
          destruct (Nat.eq_dec main i) as [->|Hn].
          - rewrite fp_main by lia. eapply Qle_trans; [exact X|]. apply bal_lower; assumption.
          - rewrite fp_other by (lia || congruence). assumption. }
        { assert (X : nth (nth i ns 0 - 1)%nat (vals mh i) (- M) <= hi).
          { rewrite <- R5. apply desc_nth; [assumption|lia|lia]. }
          destruct (Nat.eq_dec main i) as [->|Hn].
          - rewrite fp_main by lia. eapply Qle_trans; [|exact X]. apply bal_upper; [assumption|assumption|assumption|].
            apply (acceptable_nonneg z). assumption.
          - rewrite fp_other by (lia || congruence). eapply Qle_trans; [|exact X]. unfold pr. apply desc_nth; [assumption|lia|lia]. }
      * destruct (Nat.eq_dec (num_of_deals tl) 0) as [Z|Z].
        { right. rewrite Il, Ih, Ed, Z. split; [lia|]. intros [X _]. lia. }
        left. split; [apply Il; lia|]. split; [apply Ih; lia|]. split; [congruence|].
        destruct (Fl ltac:(lia)) as [Cl1 Ql]. destruct (Fh ltac:(lia)) as [Ch1 Qh].
        split; [|split; [|split]].
        -- eapply F2_trans; [exact Ql|]. eapply F2_trans; [|apply F2_sym; exact Qh].
           assert (EL : length (final_prices M ml recipe ns (Some main)) = length (final_prices M mh recipe ns (Some main))).
           { rewrite !final_length. congruence. }
           assert (EQ : forall j, (j < length (final_prices M ml recipe ns (Some main)))%nat ->
             nth j (final_prices M ml recipe ns (Some main)) 0 == nth j (final_prices M mh recipe ns (Some main)) 0).
           { intros j Hj. rewrite final_length in Hj. symmetry.
             apply (fp_same M ml mh recipe i bl Ll Lh); auto.
             - lia.
             - intros mn E. inversion E; subst. apply (walk_valid _ _ _ _ _ _ _ _ Val EW). }
           clear -EL EQ. revert EL EQ. generalize (final_prices M ml recipe ns (Some main)), (final_prices M mh recipe ns (Some main)).
           induction l as [|a l IH]; intros [|b l'] EL EQ; simpl in EL; try lia; constructor.
           ++ apply (EQ 0%nat). simpl. lia.
           ++ apply IH; [lia|]. intros j Hj. apply (EQ (S j)). simpl. lia.
        -- rewrite (Forall2_length _ _ _ _ _ Cl1), (Forall2_length _ _ _ _ _ Ch1), !shrink_length. congruence.
        -- intros j c c' Nj Hc Hc'.
           assert (Hj : (j < length ml)%nat).
           { rewrite <- (shrink_length ml ns), <- (Forall2_length _ _ _ _ _ Cl1). apply nth_error_Some. congruence. }
           destruct (Forall2_cat_nth _ _ j c Cl1 Hc) as [d [E1 E2]]. destruct (Forall2_cat_nth _ _ j c' Ch1 Hc') as [d' [E1' E2']].
           rewrite shrink_nth in E1, E1' by lia. injection E1; intros <-. injection E1'; intros <-.
           destruct E2 as [N1 V1]. destruct E2' as [N2 V2]. cbn [cname cvalues] in *. split; [rewrite N1, N2, Nm; reflexivity|].
           eapply F2_trans; [exact V1|]. apply F2_sym. rewrite Vo in V2 by assumption. exact V2.
        -- destruct (Forall2_cat_nth _ _ i _ (Forall2_cat_sym _ _ Cl1) (shrink_nth ml ns i ltac:(lia))) as [c [E1 [N1 V1]]].
           destruct (Forall2_cat_nth _ _ i _ (Forall2_cat_sym _ _ Ch1) (shrink_nth mh ns i ltac:(lia))) as [c' [E1' [N2 V2]]].
           cbn [cname cvalues] in *. exists c, c'. split; [assumption|]. split; [assumption|]. split; [rewrite <- N1, <- N2, Nm; reflexivity|].
           split.
           ++ rewrite <- (Forall2_length _ _ _ _ _ V1), <- (Forall2_length _ _ _ _ _ V2), !firstn_length. congruence.
           ++ eapply F2_trans; [apply F2_sym, F2_without; exact V1|]. eapply F2_trans; [|apply F2_without; exact V2].
              apply RES; [assumption|assumption|assumption|lia].
    + right. unfold wins. cbn [front] in Wl, Wh. rewrite Wl, Wh. split; [lia|]. intros [_ X]. lia.
  - right. split.
    { intros [I D0]. destruct (walk M ml recipe z o (sizes0 ml)) as [[main ns]|] eqn:EW.
      - destruct (front_wins M ml recipe tl main ns i bl Pl Ll ltac:(lia) Wl HPl) as [Il _].
        simpl in Dl. assert (X : wins tl i bl) by (split; assumption). apply Il in X. lia.
      - cbn [front] in Wl. lia. }
    intros Hw. destruct (walk M mh recipe z o (sizes0 ml)) as [[main ns]|] eqn:EWh.
    + assert (Okh := proj1 Wh).
      destruct (front_wins M mh recipe th main ns i bh Ph Lh ltac:(lia) Wh HPh) as [Ih Fh].
      apply Ih in Hw. destruct Hw as [Hd Hin].
      destruct (Fh Hd) as [_ Hq]. rewrite (qeq_nth _ _ i 0 Hq). change (nth i (final_prices M mh recipe ns (Some main)) 0) with (fp M mh recipe ns (Some main) i).
      assert (Hdi : desc (vals mh i)) by (rewrite Vh; apply sort_desc_desc).
      assert (Hsz : (nth i ns 0 <= length (vals mh i))%nat) by apply Okh.
      destruct (walk_last _ _ _ _ _ _ _ _ EWh) as [A1 [A2 _]]. split.
      { destruct Dh as [D|[nh [E D]]].
        - simpl in D.
          assert (X : lo <= pr M mh ns i).
          { unfold pr. eapply Qle_trans; [exact R6|]. apply desc_nth; [assumption|assumption|]. rewrite <- R1. lia. }
          assert (Neg : psum M mh recipe ns <= 0).
          { destruct A2 as [E|A2]; [|apply (not_acceptable z); assumption]. exfalso. rewrite E in D. lia. }
          destruct (Nat.eq_dec main i) as [->|Hn].
          + rewrite fp_main by lia. eapply Qle_trans; [exact X|]. apply bal_lower; assumption.
          + rewrite fp_other by (lia || congruence). assumption.
        - inversion E; subst main nh. rewrite fp_main by lia. rewrite <- R4. exact D. }
      { assert (X : nth (nth i ns 0 - 1)%nat (vals mh i) (- M) <= hi).
        { rewrite <- R5. apply desc_nth; [assumption|lia|lia]. }
        destruct (Nat.eq_dec main i) as [->|Hn].
        - rewrite fp_main by lia. eapply Qle_trans; [|exact X]. apply bal_upper; [assumption|assumption|assumption|].
          apply (acceptable_nonneg z). assumption.
        - rewrite fp_other by (lia || congruence). eapply Qle_trans; [|exact X].
          destruct Dh as [D|[nh [E D]]]; [|congruence]. simpl in D. unfold pr. apply desc_nth; [assumption|lia|lia]. }
    + exfalso. cbn [front] in Wh. destruct Hw. lia.
Qed.

Section Outcomes.
  Variables (M : Q) (cap : nat) (m : market) (recipe : list nat) (z : bool) (i : nat) (name : string) (pre post : list Q)
    (v v' : Q) (pos pos' : nat) (t t' : trade) (P P' : list Q).
  Hypothesis HM : 0 < M.
  Hypothesis H1 : all_positive recipe.
  Hypothesis Hi : (i < length m)%nat.
  Hypothesis Hp : possible_position (pre ++ post) v pos.
  Hypothesis Hp' : possible_position (pre ++ post) v' pos'.
  Let first := set_nth i (mkCat name (pre ++ v :: post)) m.
  Let second := set_nth i (mkCat name (pre ++ v' :: post)) m.
  Hypothesis Full : no_spare first recipe.
  Hypothesis Sf : values_small M recipe first.
  Hypothesis Ss : values_small M recipe second.
  Hypothesis Cf : cap_suffices cap first recipe.
  Hypothesis Cs : cap_suffices cap second recipe.
  Hypothesis Ht : trade_reduction_M M cap first recipe z = Ok t.
  Hypothesis Ht' : trade_reduction_M M cap second recipe z = Ok t'.
  Hypothesis HP : tprices t = Some P.
  Hypothesis HP' : tprices t' = Some P'.

  Let Full' : no_spare second recipe.
  Proof. apply (no_spare_report m recipe i name pre post v v'); assumption. Qed.

  Lemma tr_up : v <= v' -> (pos' <= pos)%nat ->
    (wins t i pos /\ wins t' i pos' /\ num_of_deals t = num_of_deals t' /\ same_outcome i pos pos' (tcats t) (tcats t') P P')
    \/ (~ wins t i pos /\ (wins t' i pos' -> v <= nth i P' 0 <= v')).
  Proof. intros H Hb. exact (tr_two_outcomes M cap m recipe z i name pre post v v' pos pos' t t' P P' HM H1 Hi Hp Hp' H Hb Full Sf Ss Cf Cs Ht Ht' HP HP'). Qed.

  Lemma tr_down : v' <= v -> (pos <= pos')%nat ->
    (wins t' i pos' /\ wins t i pos /\ num_of_deals t' = num_of_deals t /\ same_outcome i pos' pos (tcats t') (tcats t) P' P)
    \/ (~ wins t' i pos' /\ (wins t i pos -> v' <= nth i P 0 <= v)).
  Proof. intros H Hb. exact (tr_two_outcomes M cap m recipe z i name pre post v' v pos' pos t' t P' P HM H1 Hi Hp' Hp H Hb Full' Ss Sf Cs Cf Ht' Ht HP' HP). Qed.

  Lemma tr_winner_same : wins t i pos -> wins t' i pos' ->
    num_of_deals t = num_of_deals t' /\ same_outcome i pos pos' (tcats t) (tcats t') P P'.
  Proof.
    intros I I'.
    assert (A : v <= v' -> (pos' <= pos)%nat -> num_of_deals t = num_of_deals t' /\ same_outcome i pos pos' (tcats t) (tcats t') P P').
    { intros H Hb. destruct (tr_up H Hb) as [D|[D _]]; tauto. }
    assert (B : v' <= v -> (pos <= pos')%nat -> num_of_deals t = num_of_deals t' /\ same_outcome i pos pos' (tcats t) (tcats t') P P').
    { intros H Hb. destruct (tr_down H Hb) as [(_ & _ & E & D)|[D _]]; [|tauto]. split; [congruence|apply same_outcome_sym; assumption]. }
    destruct (Qlt_le_dec v v') as [H|H].
    - apply A; [lra|]. eapply position_order; eassumption.
    - destruct (Qlt_le_dec v' v) as [H2|H2].
      + apply B; [lra|]. eapply position_order; eassumption.
      + destruct (le_lt_dec pos' pos); [apply A|apply B]; try lia; assumption.
  Qed.

  Lemma tr_monotone : v < v' -> wins t i pos -> wins t' i pos'.
  Proof. intros H I. destruct (tr_up ltac:(lra) (position_order _ _ _ _ _ Hp Hp' H)) as [D|[D _]]; tauto. Qed.

  Lemma tr_threshold : ~ wins t i pos -> wins t' i pos' -> v <= nth i P' 0 <= v'.
  Proof.
    intros O I.
    assert (A : v <= v' -> (pos' <= pos)%nat -> v <= nth i P' 0 <= v').
    { intros H Hb. destruct (tr_up H Hb) as [D|[_ D]]; tauto. }
    assert (B : v' <= v -> (pos <= pos')%nat -> False).
    { intros H Hb. destruct (tr_down H Hb) as [D|[D _]]; tauto. }
    destruct (Qlt_le_dec v v') as [H|H].
    - apply A; [lra|]. eapply position_order; eassumption.
    - destruct (Qlt_le_dec v' v) as [H2|H2].
      + exfalso. apply B; [lra|]. eapply position_order; eassumption.
      + destruct (le_lt_dec pos' pos); [apply A; assumption|exfalso; apply B; [lra|lia]].
  Qed.
End Outcomes.
