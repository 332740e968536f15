(** * Truthfulness of trade reduction on a market without spare agents, for every recipe *)

From Coq Require Import String List Arith Lia QArith Lqa Permutation Sorted Bool.
From Verif Require Import Base Model_Agents Model_Trade Model_Prices Model_Market Model_Ascending Model_TradeReduction
  Spec_Market Spec_Trade Spec_Ascending Spec_TradeReduction Proof_Market Proof_Trade Proof_Prices Proof_Ascending
  Proof_Ascending2 Proof_Strategy Proof_Ascending3 Proof_Ascending4 Proof_Deals Proof_TR Proof_TR2 Proof_TR3 Proof_TR4 Proof_TR5 Proof_TR6 Proof_TR7
  Proof_TR11 Proof_TR12.
Import ListNotations.
Open Scope Q_scope.

Lemma utility_zero : forall t i pos v, num_of_deals t = 0%nat -> utility t i pos v == 0.
Proof.
  intros t i pos v H. unfold utility. destruct (nth_error (tcats t) i) as [c|]; [|reflexivity].
  destruct (nth_error (trecipe t) i) as [r|]; [|reflexivity]. destruct (tprices t); [|reflexivity].
  destruct (pos <? csize c)%nat; [|reflexivity]. rewrite H, Nat.mul_0_r. unfold Qn. cbn [Z.of_nat inject_Z].
  change (inject_Z 0) with 0. unfold Qdiv. rewrite !Qmult_0_l. reflexivity.
Qed.

Lemma utility_front : forall M m recipe ns main t i pos v, length recipe = length m -> (i < length recipe)%nat ->
  front M m recipe t (Some (main, ns)) ->
  utility t i pos v
  == (if (pos <? nth i ns 0)%nat
     then Qn (nth i recipe 0%nat * num_of_deals t) / Qn (nth i ns 0%nat) * (v - fp M m recipe ns (Some main) i)
     else 0).
Proof.
  intros M m recipe ns main t i pos v Hl Hi [Hok [_ [_ HP]]].
  destruct (Nat.eq_dec (num_of_deals t) 0) as [E|E].
  - rewrite utility_zero by exact E. rewrite E, Nat.mul_0_r. destruct (pos <? nth i ns 0)%nat; [|reflexivity].
    change (Qn 0) with 0. unfold Qdiv. rewrite !Qmult_0_l. reflexivity.
  - destruct (HP ltac:(lia)) as [P [C1 [C2 [C3 C4]]]].
    apply (utility_walk M m recipe ns main t P i pos v); assumption.
Qed.

Lemma path_valid : forall m recipe, length recipe = length m -> forall fuel ns, valid m recipe (path fuel recipe ns) ns.
Proof.
  intros m recipe Hl. induction fuel as [|fuel IH]; intros ns; [exact I|]. cbn [path].
  destruct (choice recipe ns) as [main|e|] eqn:E; try exact I. destruct (Nat.eqb_spec (nth main ns 0%nat) 0) as [Z|Z]; [exact I|].
  apply choice_spec in E. destruct E as [E1 [E2 _]]. cbn [valid]. split; [lia|]. split; [exact E2|]. split; [lia|]. apply IH.
Qed.

Lemma tr_two_runs_full : forall M cap m recipe z i name pre post lo hi bl bh tl th, 0 < M -> all_positive recipe ->
  (i < length m)%nat ->
  possible_position (pre ++ post) lo bl -> possible_position (pre ++ post) hi bh ->
  lo <= hi -> (bh <= bl)%nat ->
  let Ml := set_nth i (mkCat name (pre ++ lo :: post)) m in
  let Mh := set_nth i (mkCat name (pre ++ hi :: post)) m in
  no_spare Ml recipe -> values_small M recipe Ml -> values_small M recipe Mh -> cap_suffices cap Ml recipe -> cap_suffices cap Mh recipe ->
  trade_reduction_M M cap Ml recipe z = Ok tl -> trade_reduction_M M cap Mh recipe z = Ok th ->
  (forall v, utility th i bh v == utility tl i bl v)
  \/ (forall v, utility tl i bl v == 0
        /\ (v <= lo -> utility th i bh v <= 0) /\ (hi <= v -> 0 <= utility th i bh v)).
Proof.
  intros M cap m recipe z i name pre post lo hi bl bh tl th HM H1 Him Hpl Hph Hle Hb Ml Mh Full Sml Smh Cl Ch Hl Hh.
  assert (Lm : length recipe = length Ml).
  { destruct (tr_errors M cap Ml recipe z) as [[_ [E _]]|[X _]]; [exact E|congruence]. }
  destruct (no_spare_scarce Ml recipe Lm Full) as [s [j0 Sl]].
  assert (Ll : length recipe = length (clone_market Ml)) by (rewrite clone_length; exact Lm).
  assert (Lh : length recipe = length (clone_market Mh)).
  { rewrite Ll. unfold Ml, Mh. rewrite !clone_length, !set_nth_length. reflexivity. }
  set (ml := clone_market Ml) in *. set (mh := clone_market Mh) in *.
  destruct (two_reports pre post lo hi bl bh (- M) Hpl Hph Hle Hb) as [R1 [R2 [R3 [R4 [R5 R6]]]]].
  assert (Vl : vals ml i = sort_desc (pre ++ lo :: post)).
  { unfold ml, Ml. rewrite clone_set_nth, vals_set_same by (rewrite clone_length; assumption). reflexivity. }
  assert (Vh : vals mh i = sort_desc (pre ++ hi :: post)).
  { unfold mh, Mh. rewrite clone_set_nth, vals_set_same by (rewrite clone_length; assumption). reflexivity. }
  assert (Vo : forall j, j <> i -> vals mh j = vals ml j).
  { intros j Hj. unfold ml, mh, Ml, Mh. rewrite !clone_set_nth, !vals_set_other by auto. reflexivity. }
  rewrite <- Vl, <- Vh in *.
  assert (Hi : (i < length recipe)%nat).
  { rewrite Ll. unfold ml, Ml. rewrite clone_length, set_nth_length. assumption. }
  assert (Pos := positive_of recipe H1).
  assert (Hri : (0 < nth i recipe 0)%nat) by (apply Pos; exact Hi).
  assert (Hne : recipe <> []) by (intros E; rewrite E in Hi; cbn in Hi; lia).
  assert (S0 : sizes0 mh = sizes0 ml).
  { apply list_ext_nth with (d := 0%nat).
    - unfold sizes0. rewrite !map_length. congruence.
    - intros j _. rewrite !sizes0_nth. destruct (Nat.eq_dec j i) as [->|Hn]; [auto|rewrite Vo by assumption; reflexivity]. }
  assert (Sh : scarce mh recipe s j0).
  { apply (scarce_sizes ml); [exact Ll|exact Lh| |exact Sl]. intros j. rewrite <- !sizes0_nth, S0. reflexivity. }
  destruct (path_reach_block recipe s Pos Hne (nsum (sizes0 ml)) (sizes0 ml)) as [o1 [f [Ep [Eo _]]]].
  { unfold sizes0. rewrite map_length. symmetry. exact Ll. }
  { intros j Hj. rewrite sizes0_nth. apply (proj1 (enough_nth s ml recipe Ll) (proj1 Sl) j Hj). }
  { apply le_n. }
  destruct (tr_front M cap Ml recipe z tl s j0 o1 HM Sml Cl Hl Sl Eo) as [_ [_ Wl]].
  destruct (tr_front M cap Mh recipe z th s j0 o1 HM Smh Ch Hh Sh) as [_ [_ Wh]]; [fold mh; rewrite S0; exact Eo|].
  fold ml in Wl. fold mh in Wh. rewrite S0 in Wh.
  assert (Hstart : (bl < nth i (sizes0 ml) 0)%nat) by (rewrite sizes0_nth; assumption).
  assert (Val : valid ml recipe (o1 ++ tr_order s recipe) (sizes0 ml)).
  { apply valid_app. split; [|rewrite Eo; apply valid_order; exact Ll].
    assert (V := path_valid ml recipe Ll (nsum (sizes0 ml)) (sizes0 ml)). rewrite Ep in V. apply valid_app in V. apply V. }
  set (o := o1 ++ tr_order s recipe) in *.
  assert (HO : forall j n, j <> i -> nth n (vals mh j) (- M) == nth n (vals ml j) (- M)).
  { intros j n Hj. rewrite Vo by assumption. reflexivity. }
  destruct (walk_dichotomy M ml mh recipe i bl z Ll Lh Hi Hri HO R3 ltac:(rewrite R4; exact R6) o (sizes0 ml) Hstart) as [D|[Dl Dh]].
  - rewrite <- D in Wh. destruct (walk M ml recipe z o (sizes0 ml)) as [[main ns]|] eqn:EW.
    + assert (Okl := proj1 Wl). assert (Okh := proj1 Wh).
      destruct (le_lt_dec (nth i ns 0%nat) bl) as [Hout|Hin].
      * (* the agent is out of the low run; his utility there is 0 *)
        right. intros v.
        rewrite (utility_front M ml recipe ns main tl i bl v Ll Hi Wl).
        rewrite (utility_front M mh recipe ns main th i bh v Lh Hi Wh).
        destruct (Nat.ltb_spec bl (nth i ns 0%nat)); [lia|]. split; [reflexivity|].
        destruct (Nat.ltb_spec bh (nth i ns 0%nat)) as [Hin|Hin]; [|split; lra].
        assert (Hq : 0 <= Qn (nth i recipe 0%nat * num_of_deals th) / Qn (nth i ns 0%nat)).
        { apply Qle_shift_div_l; [apply Qn_pos; lia|]. rewrite Qmult_0_l. apply Qn_nonneg. }
        assert (Hdi : desc (vals mh i)) by (rewrite Vh; apply sort_desc_desc).
        assert (EWh : walk M mh recipe z o (sizes0 ml) = Some (main, ns)) by congruence.
        assert (Lastl := walk_last _ _ _ _ _ _ _ _ EWh). destruct Lastl as [A1 [A2 _]].
        assert (Neg : psum M mh recipe ns <= 0).
        { destruct A2 as [E|A2]; [|apply (not_acceptable z); assumption]. exfalso. rewrite E in Hout. lia. }
        assert (Plo : lo <= fp M mh recipe ns (Some main) i).
        { assert (X : lo <= pr M mh ns i).
          { unfold pr. eapply Qle_trans; [exact R6|]. apply desc_nth; [assumption|assumption|]. rewrite <- R1. lia. }
          destruct (Nat.eq_dec main i) as [->|Hn].
          - rewrite fp_main by lia. eapply Qle_trans; [exact X|]. apply bal_lower; assumption.
          - rewrite fp_other by (lia || congruence). assumption. }
        assert (Phi : fp M mh recipe ns (Some main) i <= hi).
        { assert (X : nth (nth i ns 0 - 1)%nat (vals mh i) (- M) <= hi).
          { rewrite <- R5. apply desc_nth; [assumption|lia|lia]. }
          destruct (Nat.eq_dec main i) as [->|Hn].
          - rewrite fp_main by lia. eapply Qle_trans; [|exact X]. apply bal_upper; [assumption|assumption|assumption|].
            apply (acceptable_nonneg z). assumption.
          - rewrite fp_other by (lia || congruence). eapply Qle_trans; [|exact X]. unfold pr. apply desc_nth; [assumption|lia|lia]. }
        set (q := Qn (nth i recipe 0%nat * num_of_deals th) / Qn (nth i ns 0%nat)) in *.
        set (x := fp M mh recipe ns (Some main) i) in *. clearbody q x.
        split; intros Hv; nra.
      * left. intros v.
        rewrite (utility_front M ml recipe ns main tl i bl v Ll Hi Wl).
        rewrite (utility_front M mh recipe ns main th i bh v Lh Hi Wh).
        destruct (Nat.ltb_spec bh (nth i ns 0%nat)); [|lia].
        destruct (Nat.ltb_spec bl (nth i ns 0%nat)); [|lia].
        assert (Ed : num_of_deals th = num_of_deals tl).
        { destruct Wl as [_ [T1 [X1 _]]]. destruct Wh as [_ [T2 [X2 _]]].
          rewrite supports_shrink in T1, T2 by assumption.
          apply Nat.le_antisymm; [apply X1|apply X2]; apply supports_shrink; assumption. }
        rewrite Ed.
        rewrite (fp_same M ml mh recipe i bl Ll Lh) with (ns := ns) (stop := Some main) (j := i); auto.
        -- reflexivity.
        -- intros mn E. inversion E; subst. apply (walk_valid _ _ _ _ _ _ _ _ Val EW).
    + left. intros v. rewrite (utility_zero tl) by exact Wl. rewrite (utility_zero th) by exact Wh. reflexivity.
  - right. intros v.
    assert (Ul : utility tl i bl v == 0).
    { destruct (walk M ml recipe z o (sizes0 ml)) as [[main ns]|] eqn:EW.
      - rewrite (utility_front M ml recipe ns main tl i bl v Ll Hi Wl).
        simpl in Dl. destruct (Nat.ltb_spec bl (nth i ns 0%nat)); [lia|reflexivity].
      - rewrite (utility_zero tl) by exact Wl. reflexivity. }
    split; [assumption|].
    destruct (walk M mh recipe z o (sizes0 ml)) as [[main ns]|] eqn:EWh.
    + assert (Okh := proj1 Wh).
      rewrite (utility_front M mh recipe ns main th i bh v Lh Hi Wh).
      destruct (Nat.ltb_spec bh (nth i ns 0%nat)) as [Hin|Hin]; [|split; lra].
      assert (Hq : 0 <= Qn (nth i recipe 0%nat * num_of_deals th) / Qn (nth i ns 0%nat)).
      { apply Qle_shift_div_l; [apply Qn_pos; lia|]. rewrite Qmult_0_l. apply Qn_nonneg. }
      assert (Hdi : desc (vals mh i)) by (rewrite Vh; apply sort_desc_desc).
      assert (Hsz : (nth i ns 0 <= length (vals mh i))%nat) by apply Okh.
      destruct (walk_last _ _ _ _ _ _ _ _ EWh) as [A1 [A2 _]].
      assert (Plo : lo <= fp M mh recipe ns (Some main) i).
      { destruct Dh as [D|[nh [E D]]].
        - simpl in D.
          assert (X : lo <= pr M mh ns i).
          { unfold pr. eapply Qle_trans; [exact R6|]. apply desc_nth; [assumption|assumption|]. rewrite <- R1. lia. }
          assert (Neg : psum M mh recipe ns <= 0).
          { destruct A2 as [E|A2]; [|apply (not_acceptable z); assumption]. exfalso. rewrite E in D. lia. }
          destruct (Nat.eq_dec main i) as [->|Hn].
          + rewrite fp_main by lia. eapply Qle_trans; [exact X|]. apply bal_lower; assumption.
          + rewrite fp_other by (lia || congruence). assumption.
        - inversion E; subst main nh. rewrite fp_main by lia. rewrite <- R4. exact D. }
      assert (Phi : fp M mh recipe ns (Some main) i <= hi).
      { assert (X : nth (nth i ns 0 - 1)%nat (vals mh i) (- M) <= hi).
        { rewrite <- R5. apply desc_nth; [assumption|lia|lia]. }
        destruct (Nat.eq_dec main i) as [->|Hn].
        - rewrite fp_main by lia. eapply Qle_trans; [|exact X]. apply bal_upper; [assumption|assumption|assumption|].
          apply (acceptable_nonneg z). assumption.
        - rewrite fp_other by (lia || congruence). eapply Qle_trans; [|exact X].
          destruct Dh as [D|[nh [E D]]]; [|congruence]. simpl in D. unfold pr. apply desc_nth; [assumption|lia|lia]. }
      set (q := Qn (nth i recipe 0%nat * num_of_deals th) / Qn (nth i ns 0%nat)) in *.
      set (x := fp M mh recipe ns (Some main) i) in *. clearbody q x.
      split; intros Hv; nra.
    + rewrite (utility_zero th) by exact Wh. split; intros; lra.
Qed.

Lemma no_spare_report : forall m recipe i name pre post v v', (i < length m)%nat ->
  no_spare (set_nth i (mkCat name (pre ++ v :: post)) m) recipe -> no_spare (set_nth i (mkCat name (pre ++ v' :: post)) m) recipe.
Proof.
  intros m recipe i name pre post v v' Hi [s [H1 [j [c [r [Hc [Hr [Hp Hz]]]]]]]].
  assert (E : forall x y, csize (mkCat name (pre ++ x :: post)) = csize (mkCat name (pre ++ y :: post))).
  { intros x y. unfold csize. cbn [cvalues]. rewrite !app_length. reflexivity. }
  exists s. split.
  - intros l d r' Hd Hr'. destruct (Nat.eq_dec l i) as [->|N].
    + rewrite set_nth_same in Hd by exact Hi. injection Hd as <-. rewrite (E v' v).
      apply (H1 i _ r'); [apply set_nth_same; exact Hi|exact Hr'].
    + rewrite set_nth_other in Hd by auto. apply (H1 l d r'); [rewrite set_nth_other by auto; exact Hd|exact Hr'].
  - destruct (Nat.eq_dec j i) as [->|N].
    + rewrite set_nth_same in Hc by exact Hi. injection Hc as <-.
      exists i, (mkCat name (pre ++ v' :: post)), r. split; [apply set_nth_same; exact Hi|]. split; [exact Hr|]. split; [exact Hp|]. rewrite (E v' v). exact Hz.
    + exists j, c, r. rewrite set_nth_other in Hc by auto. split; [rewrite set_nth_other by auto; exact Hc|]. auto.
Qed.

Theorem tr_truthful_full : forall M cap m recipe z i name pre post v v' pos pos' t t', 0 < M -> all_positive recipe ->
  (i < length m)%nat ->
  possible_position (pre ++ post) v pos -> possible_position (pre ++ post) v' pos' ->
  let honest := set_nth i (mkCat name (pre ++ v :: post)) m in
  let lying := set_nth i (mkCat name (pre ++ v' :: post)) m in
  no_spare honest recipe -> values_small M recipe honest -> values_small M recipe lying ->
  cap_suffices cap honest recipe -> cap_suffices cap lying recipe ->
  trade_reduction_M M cap honest recipe z = Ok t -> trade_reduction_M M cap lying recipe z = Ok t' ->
  utility t' i pos' v <= utility t i pos v.
Proof.
  intros M cap m recipe z i name pre post v v' pos pos' t t' HM H1 Hi Hp Hp' honest lying Full Sh Sl Ch Cl Ht Ht'.
  assert (Full' : no_spare lying recipe) by (apply (no_spare_report m recipe i name pre post v v'); assumption).
  destruct (Qlt_le_dec v v') as [H|H].
  - assert (Hb := position_order _ _ _ _ _ Hp Hp' H).
    destruct (tr_two_runs_full M cap m recipe z i name pre post v v' pos pos' t t' HM H1 Hi Hp Hp' ltac:(lra) Hb Full Sh Sl Ch Cl Ht Ht') as [D|D].
    + rewrite D. lra.
    + destruct (D v) as [D1 [D2 _]]. rewrite D1. apply D2. lra.
  - destruct (Qlt_le_dec v' v) as [H2|H2].
    + assert (Hb := position_order _ _ _ _ _ Hp' Hp H2).
      destruct (tr_two_runs_full M cap m recipe z i name pre post v' v pos' pos t' t HM H1 Hi Hp' Hp H Hb Full' Sl Sh Cl Ch Ht' Ht) as [D|D].
      * rewrite D. lra.
      * destruct (D v) as [D1 [_ D3]]. rewrite D1. apply D3. lra.
    + destruct (le_lt_dec pos' pos) as [Hb|Hb].
      * destruct (tr_two_runs_full M cap m recipe z i name pre post v v' pos pos' t t' HM H1 Hi Hp Hp' H2 Hb Full Sh Sl Ch Cl Ht Ht') as [D|D].
        -- rewrite D. lra.
        -- destruct (D v) as [D1 [D2 _]]. rewrite D1. apply D2. lra.
      * destruct (tr_two_runs_full M cap m recipe z i name pre post v' v pos' pos t' t HM H1 Hi Hp' Hp H ltac:(lia) Full' Sl Sh Cl Ch Ht' Ht) as [D|D].
        -- rewrite D. lra.
        -- destruct (D v) as [D1 [_ D3]]. rewrite D1. apply D3. lra.
Qed.
