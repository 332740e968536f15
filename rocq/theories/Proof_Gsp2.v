(** * The ascending auction is weakly group-strategy-proof *)
From Coq Require Import String List Arith Lia QArith Lqa Permutation Sorted Bool.
From Verif Require Import Base Model_Agents Model_Trade Model_Prices Model_Market Model_Ascending
  Spec_Market Spec_Trade Spec_Ascending Spec_Group Proof_Market Proof_Trade Proof_Prices Proof_Ascending
  Proof_Ascending2 Proof_Strategy Proof_Ascending3 Proof_Gsp1.
Import ListNotations.
Open Scope Q_scope.

Section Two.
  Variables (M : Q) (ma mb : market) (recipe : list nat).
  Hypothesis La : length recipe = length ma.
  Hypothesis Lb : length recipe = length mb.

  Definition agree (ns : list nat) : Prop := forall j, pr M ma ns j == pr M mb ns j.

  Lemma agree_psum : forall ns, agree ns -> psum M ma recipe ns == psum M mb recipe ns.
  Proof. intros ns H. apply psum_ext. intros j _ _. apply H. Qed.

  Lemma agree_bal : forall ns main, agree ns -> (0 < nth main recipe 0)%nat -> bal M ma recipe ns main == bal M mb recipe ns main.
  Proof.
    intros ns main H Hr.
    assert (E1 := bal_eq M ma recipe La ns main Hr). assert (E2 := bal_eq M mb recipe Lb ns main Hr).
    rewrite (agree_psum ns H), (H main) in E1. rewrite <- E2 in E1.
    assert (Hq := Qn_pos _ Hr). apply (Qmult_inj_l _ _ (Qn (nth main recipe 0%nat))); [lra|assumption].
  Qed.

  Definition low (m : market) (ns : list nat) (main : nat) : Q := nth (nth main ns 0 - 1)%nat (vals m main) (- M).

  (** The runs are the same, or there is a first round in which they differ: then [low1 < low2] in a category [main], the agents at
      place [s - 1] and below have left in the first, and in the second either too, or the price stopped above [low1]. *)
  Definition differ (m1 m2 : market) (n1 : list nat) (n2 : list nat) (s2 : option nat) : Prop :=
    exists ns main, (main < length recipe)%nat /\ (0 < nth main ns 0)%nat /\ (nth main ns 0 <= length (vals m1 main))%nat /\ low m1 ns main < low m2 ns main
      /\ (nth main n1 0 <= nth main ns 0 - 1)%nat
      /\ ((nth main n2 0 <= nth main ns 0 - 1)%nat
          \/ (s2 = Some main /\ n2 = ns /\ low m1 ns main < bal M m2 recipe ns main)).

  Lemma agree_dec : forall ns main, agree ns -> low ma ns main == low mb ns main -> agree (dec main ns).
  Proof.
    intros ns main H E j. unfold pr. destruct (Nat.eq_dec main j) as [->|Hne].
    - rewrite nth_dec_same. exact E.
    - rewrite nth_dec_other by assumption. apply H.
  Qed.
End Two.

Lemma diverge_step : forall M m1 m2 recipe fuel ns main n1 s1 n2 s2,
  length recipe = length m1 -> length recipe = length m2 ->
  agree M m1 m2 ns -> (main < length recipe)%nat -> (0 < nth main recipe 0)%nat -> (0 < nth main ns 0)%nat -> sizes_ok m1 ns ->
  low M m1 ns main < low M m2 ns main ->
  (if Qle_bool 0 (psum M m1 recipe (dec main ns)) then Ok (ns, Some main) else abs_loop M fuel m1 recipe (dec main ns)) = Ok (n1, s1) ->
  (if Qle_bool 0 (psum M m2 recipe (dec main ns)) then Ok (ns, Some main) else abs_loop M fuel m2 recipe (dec main ns)) = Ok (n2, s2) ->
  (n1 = ns /\ n2 = ns /\ s1 = Some main /\ s2 = Some main) \/ differ M recipe m1 m2 n1 n2 s2.
Proof.
  intros M m1 m2 recipe fuel ns main n1 s1 n2 s2 L1 L2 Hag Hm Hr Hpos Hok Hlt H1 H2.
  assert (E1 := psum_dec M m1 recipe ns main Hm). assert (E2 := psum_dec M m2 recipe ns main Hm).
  fold (low M m1 ns main) in E1. fold (low M m2 ns main) in E2.
  assert (Hq := Qn_pos _ Hr).
  assert (Ep := agree_psum M m1 m2 recipe ns Hag). assert (Em := Hag main).
  assert (X : Qn (nth main recipe 0%nat) * low M m1 ns main < Qn (nth main recipe 0%nat) * low M m2 ns main) by (apply Qmult_lt_l; assumption).
  destruct (Qle_bool_reflect 0 (psum M m1 recipe (dec main ns))) as [H0|H0].
  - destruct (Qle_bool_reflect 0 (psum M m2 recipe (dec main ns))) as [H0'|H0'].
    + inversion H1; inversion H2; subst. left. auto.
    + exfalso. apply H0'. rewrite E1 in H0. rewrite E2. rewrite Ep, Em in H0. lra.
  - right. exists ns, main. split; [assumption|]. split; [assumption|]. split; [apply Hok|]. split; [assumption|].
    split. { apply (loop_sizes_le M m1 recipe fuel _ _ _ main) in H1. rewrite nth_dec_same in H1. assumption. }
    destruct (Qle_bool_reflect 0 (psum M m2 recipe (dec main ns))) as [H0'|H0'].
    + inversion H2; subst. right. split; [reflexivity|]. split; [reflexivity|].
      assert (Eb := bal_eq M m2 recipe L2 n2 main Hr).
      apply Qnot_le_lt. intro Y.
      assert (Z : Qn (nth main recipe 0%nat) * bal M m2 recipe n2 main <= Qn (nth main recipe 0%nat) * low M m1 n2 main) by (apply Qmult_le_l; assumption).
      apply H0. rewrite E1, Ep, Em. lra.
    + left. apply (loop_sizes_le M m2 recipe fuel _ _ _ main) in H2. rewrite nth_dec_same in H2. assumption.
Qed.

Lemma agree_sym : forall M m1 m2 ns, agree M m1 m2 ns -> agree M m2 m1 ns.
Proof. intros M m1 m2 ns H j. symmetry. apply H. Qed.

Lemma walk_two : forall M ma mb recipe fuel ns na sa nb sb,
  length recipe = length ma -> length recipe = length mb ->
  agree M ma mb ns -> sizes_ok ma ns -> sizes_ok mb ns ->
  abs_loop M fuel ma recipe ns = Ok (na, sa) -> abs_loop M fuel mb recipe ns = Ok (nb, sb) ->
  (na = nb /\ sa = sb /\ agree M ma mb na)
  \/ differ M recipe ma mb na nb sb \/ differ M recipe mb ma nb na sa.
Proof.
  intros M ma mb recipe. induction fuel as [|fuel IH]; intros ns na sa nb sb La Lb Hag Ka Kb Ha Hb; [discriminate|].
  cbn [abs_loop] in Ha, Hb. destruct (choice recipe ns) as [main|e|] eqn:Hch; try discriminate.
  cbn [bind] in Ha, Hb. destruct (Nat.eqb_spec (nth main ns 0%nat) 0) as [Hz|Hz].
  { inversion Ha; inversion Hb; subst. left. auto. }
  apply choice_spec in Hch. destruct Hch as [Hm [Hr _]].
  destruct (Qlt_le_dec (low M ma ns main) (low M mb ns main)) as [Hlt|Hge].
  - destruct (diverge_step M ma mb recipe fuel ns main na sa nb sb La Lb Hag Hm Hr ltac:(lia) Ka Hlt Ha Hb) as [(-> & -> & -> & ->)|D]; auto.
  - destruct (Qlt_le_dec (low M mb ns main) (low M ma ns main)) as [Hlt|Hge'].
    + destruct (diverge_step M mb ma recipe fuel ns main nb sb na sa Lb La (agree_sym _ _ _ _ Hag) Hm Hr ltac:(lia) Kb Hlt Hb Ha) as [(-> & -> & -> & ->)|D]; auto.
    + assert (Hag' : agree M ma mb (dec main ns)) by (apply agree_dec; [assumption|lra]).
      rewrite (Qle_bool_ext 0 _ (psum M mb recipe (dec main ns))) in Ha by (apply agree_psum; assumption).
      destruct (Qle_bool 0 (psum M mb recipe (dec main ns))).
      * inversion Ha; inversion Hb; subst. left. auto.
      * apply (IH (dec main ns)); auto; apply dec_ok; assumption.
Qed.

Lemma vals_clone : forall m i, (i < length m)%nat -> vals (clone_market m) i = sort_desc (nth i (map cvalues m) []).
Proof.
  intros m i Hi. unfold vals, clone_market.
  rewrite (nth_indep (map clone m) dcat (clone dcat)) by (rewrite map_length; assumption).
  rewrite map_nth. change (@nil Q) with (cvalues dcat). rewrite map_nth. reflexivity.
Qed.

Lemma same_agents_len : forall m m', same_agents m m' -> length m = length m'
  /\ forall i, length (nth i (map cvalues m) []) = length (nth i (map cvalues m') []).
Proof.
  intros m m' H. unfold same_agents in H. split; [apply (f_equal (@length _)) in H; rewrite !map_length in H; assumption|].
  intro i. assert (G : forall x, length (nth i (map cvalues x) []) = nth i (map csize x) 0%nat).
  { intro x. change 0%nat with (csize dcat). rewrite map_nth. change (@nil Q) with (cvalues dcat). rewrite map_nth. reflexivity. }
  rewrite !G, H. reflexivity.
Qed.

Lemma Qfrac_nonneg : forall a b, (0 < b)%nat -> 0 <= Qn a / Qn b.
Proof. intros a b H. apply Qle_shift_div_l; [apply Qn_pos; assumption|]. rewrite Qmult_0_l. apply Qn_nonneg. Qed.

Theorem ascending_group : forall M fuel m m' recipe t t' rank rank', 0 < M ->
  same_agents m m' -> rankings m rank -> rankings m' rank' ->
  ascending_auction_M M fuel m recipe = Ok t -> ascending_auction_M M fuel m' recipe = Ok t' ->
  (exists i j, misreports m m' i j) ->
  exists i j, misreports m m' i j
    /\ utility t' i (rank' i j) (agent_value m i j) <= utility t i (rank i j) (agent_value m i j).
Proof.
  intros M fuel m m' recipe t t' rank rank' HM HS HR HR' Ht Ht' Hmis.
  destruct (same_agents_len m m' HS) as [HL HLi].
  apply auction_outcome in Ht. apply auction_outcome in Ht'.
  destruct Ht as [La [Hpos [na [sa [Oa [Aa [Ea [Sa Xa]]]]]]]].
  destruct Ht' as [Lb [_ [nb [sb [Ob [Ab [Eb [Sb Xb]]]]]]]].
  set (ma := clone_market m) in *. set (mb := clone_market m') in *.
  assert (Hlm : length ma = length m) by apply clone_length.
  assert (Va : forall i, (i < length m)%nat -> vals ma i = sort_desc (nth i (map cvalues m) [])) by (intros; apply vals_clone; assumption).
  assert (Vb : forall i, (i < length m)%nat -> vals mb i = sort_desc (nth i (map cvalues m') [])) by (intros; apply vals_clone; lia).
  assert (Vl : forall j, length (vals ma j) = length (vals mb j)).
  { intro j. destruct (le_lt_dec (length m) j) as [Hj|Hj]; [rewrite !vals_out by lia; reflexivity|].
    rewrite Va, Vb, !sort_desc_length by assumption. apply HLi. }
  assert (S0 : sizes0 mb = sizes0 ma).
  { apply list_ext_nth with (d := 0%nat).
    - unfold sizes0. rewrite !map_length. congruence.
    - intros j _. rewrite !sizes0_nth. auto. }
  rewrite S0 in Ab.
  assert (Ka := proj1 (outcome_inv M ma recipe HM La Hpos na sa Oa)).
  assert (Kb := proj1 (outcome_inv M mb recipe HM Lb Hpos nb sb Ob)).
  assert (Sora : sorted_market ma) by apply clone_sorted.
  assert (Sorb : sorted_market mb) by apply clone_sorted.
  assert (Da : forall i, (i < length m)%nat -> desc (vals ma i)) by (intros; rewrite Va by assumption; apply sort_desc_desc).
  assert (Db : forall i, (i < length m)%nat -> desc (vals mb i)) by (intros; rewrite Vb by assumption; apply sort_desc_desc).
  (* an agent's value stands at his place *)
  assert (Pa : forall i j, is_agent m i j -> nth (rank i j) (vals ma i) (- M) == agent_value m i j /\ (rank i j < length (vals ma i))%nat).
  { intros i j [Hi Hj]. rewrite Va by assumption. split; [apply ranking_sorted; [apply HR; assumption|assumption]|].
    rewrite sort_desc_length. apply (HR i Hi). assumption. }
  assert (Pb : forall i j, is_agent m i j -> nth (rank' i j) (vals mb i) (- M) == agent_value m' i j /\ (rank' i j < length (vals mb i))%nat).
  { intros i j [Hi Hj]. rewrite Vb by assumption. rewrite HLi in Hj. split; [apply ranking_sorted; [apply HR'; lia|assumption]|].
    rewrite sort_desc_length. apply (HR' i); [lia|assumption]. }
  assert (Ua : forall i j v, (i < length m)%nat -> utility t i (rank i j) v
     = (if (rank i j <? nth i na 0)%nat then Qn (nth i recipe 0%nat * num_of_deals t) / Qn (nth i na 0%nat) * (v - fp M ma recipe na sa i) else 0)).
  { intros i j v Hi. apply utility_outcome; try assumption. lia. }
  assert (Ub : forall i j v, (i < length m)%nat -> utility t' i (rank' i j) v
     = (if (rank' i j <? nth i nb 0)%nat then Qn (nth i recipe 0%nat * num_of_deals t') / Qn (nth i nb 0%nat) * (v - fp M mb recipe nb sb i) else 0)).
  { intros i j v Hi. apply utility_outcome; try assumption. lia. }
  destruct (walk_two M ma mb recipe fuel (sizes0 ma) na sa nb sb La Lb) as [(<- & <- & Hag)|[D|D]]; try assumption.
  { intro j. unfold pr. rewrite sizes0_nth. rewrite !nth_overflow; [reflexivity| |lia]. rewrite Vl. lia. }
  { apply sizes0_ok. } { rewrite <- S0. apply sizes0_ok. }
  - (* the same run *)
    destruct Hmis as (i & j & Hag0 & Hv). exists i, j. split; [split; assumption|].
    assert (Hi := proj1 Hag0). rewrite Ua, Ub by assumption.
    destruct (Pa i j Hag0) as [Ta Ra]. destruct (Pb i j Hag0) as [Tb Rb].
    assert (Ed : num_of_deals t' = num_of_deals t).
    { apply Nat.le_antisymm.
      - apply Xa. apply supports_shrink; [assumption|assumption|]. apply (supports_shrink mb recipe na _ Lb Kb). assumption.
      - apply Xb. apply supports_shrink; [assumption|assumption|]. apply (supports_shrink ma recipe na _ La Ka). assumption. }
    assert (Ef : fp M mb recipe na sa i == fp M ma recipe na sa i).
    { assert (X : sa = Some i \/ sa <> Some i).
      { destruct sa as [k|]; [destruct (Nat.eq_dec k i); [left|right]; congruence|right; discriminate]. }
      destruct X as [->|X].
      - rewrite !fp_main by lia. symmetry. apply (agree_bal M ma mb recipe La Lb na i Hag).
        destruct (outcome_inv M ma recipe HM La Hpos na (Some i) Oa) as [_ [_ [mn [Hch [[Y _]|[Y _]]]]]]; [discriminate|].
        injection Y as <-. apply choice_spec in Hch. tauto.
      - rewrite !fp_other by (auto; lia). symmetry. apply Hag. }
    rewrite Ed. set (v := agent_value m i j) in *.
    destruct (Nat.ltb_spec (rank' i j) (nth i na 0%nat)) as [Hin'|Hin'];
    destruct (Nat.ltb_spec (rank i j) (nth i na 0%nat)) as [Hin|Hin].
    + rewrite Ef. lra.
    + assert (Hq := Qfrac_nonneg (nth i recipe 0%nat * num_of_deals t) (nth i na 0%nat) ltac:(lia)).
      assert (Hp : v <= fp M ma recipe na sa i).
      { eapply Qle_trans; [|apply fp_lower; eauto; lia]. unfold pr. rewrite <- Ta. apply desc_nth; auto. }
      rewrite Ef. set (x := fp M ma recipe na sa i) in *. set (q := _ / _) in *. clearbody x q. nra.
    + assert (Hq := Qfrac_nonneg (nth i recipe 0%nat * num_of_deals t) (nth i na 0%nat) ltac:(lia)).
      assert (Hp : fp M ma recipe na sa i <= v).
      { eapply Qle_trans; [apply (fp_upper M ma recipe HM La Hpos na sa i Oa Sora); [lia|lia|]|].
        - left. rewrite Vl. lia.
        - rewrite <- Ta. apply desc_nth; auto; [lia|]. assert (X := proj2 Ka i). lia. }
      set (x := fp M ma recipe na sa i) in *. set (q := _ / _) in *. clearbody x q. nra.
    + lra.
  - (* the true value is the lower one *)
    destruct D as (ns & i & Hi & Hs & Hsl & Hlt & Hn1 & Hn2). unfold low in *. set (s := nth i ns 0%nat) in *.
    assert (Him : (i < length m)%nat) by lia.
    rewrite Va, sort_desc_length in Hsl by assumption.
    destruct (pigeon _ _ (rank' i) (rank i) s (HR' i ltac:(lia)) (HR i Him) (eq_sym (HLi i)) ltac:(rewrite <- HLi; lia)) as (j & Hj & Hrj' & Hrj).
    rewrite <- HLi in Hj. assert (Hagent : is_agent m i j) by (split; assumption).
    destruct (Pa i j Hagent) as [Ta Ra]. destruct (Pb i j Hagent) as [Tb Rb].
    assert (B1 : agent_value m i j <= nth (s - 1) (vals ma i) (- M)) by (rewrite <- Ta; apply desc_nth; auto).
    assert (B2 : nth (s - 1) (vals mb i) (- M) <= agent_value m' i j).
    { rewrite <- Tb. apply desc_nth; auto. rewrite <- Vl, Va, sort_desc_length by assumption. lia. }
    exists i, j. split; [split; [assumption|lra]|]. rewrite Ua, Ub by assumption.
    destruct (Nat.ltb_spec (rank i j) (nth i na 0%nat)) as [X|_]; [lia|].
    destruct (Nat.ltb_spec (rank' i j) (nth i nb 0%nat)) as [Hin|_]; [|lra].
    assert (Hq := Qfrac_nonneg (nth i recipe 0%nat * num_of_deals t') (nth i nb 0%nat) ltac:(lia)).
    assert (Hp : agent_value m i j <= fp M mb recipe nb sb i).
    { destruct Hn2 as [Hn2|(-> & -> & Hb)].
      - eapply Qle_trans; [|apply fp_lower; eauto; lia]. unfold pr.
        assert (X : nth (s - 1) (vals mb i) (- M) <= nth (nth i nb 0%nat) (vals mb i) (- M)).
        { apply desc_nth; auto. rewrite <- Vl, Va, sort_desc_length by assumption. lia. }
        lra.
      - rewrite fp_main by lia. lra. }
    set (x := fp M mb recipe nb sb i) in *. set (v := agent_value m i j) in *. set (q := _ / _) in *. clearbody x v q. nra.
  - (* the report is the lower one *)
    destruct D as (ns & i & Hi & Hs & Hsl & Hlt & Hn1 & Hn2). unfold low in *. set (s := nth i ns 0%nat) in *.
    assert (Him : (i < length m)%nat) by lia.
    rewrite <- Vl, Va, sort_desc_length in Hsl by assumption.
    destruct (pigeon _ _ (rank i) (rank' i) s (HR i Him) (HR' i ltac:(lia)) (HLi i) ltac:(lia)) as (j & Hj & Hrj & Hrj').
    assert (Hagent : is_agent m i j) by (split; assumption).
    destruct (Pa i j Hagent) as [Ta Ra]. destruct (Pb i j Hagent) as [Tb Rb].
    assert (B1 : nth (s - 1) (vals ma i) (- M) <= agent_value m i j).
    { rewrite <- Ta. apply desc_nth; auto. rewrite Va, sort_desc_length by assumption. lia. }
    assert (B2 : agent_value m' i j <= nth (s - 1) (vals mb i) (- M)) by (rewrite <- Tb; apply desc_nth; auto).
    exists i, j. split; [split; [assumption|lra]|]. rewrite Ua, Ub by assumption.
    destruct (Nat.ltb_spec (rank' i j) (nth i nb 0%nat)) as [X|_]; [lia|].
    destruct (Nat.ltb_spec (rank i j) (nth i na 0%nat)) as [Hin|_]; [|lra].
    assert (Hq := Qfrac_nonneg (nth i recipe 0%nat * num_of_deals t) (nth i na 0%nat) ltac:(lia)).
    assert (Hp : fp M ma recipe na sa i <= agent_value m i j).
    { eapply Qle_trans; [apply (fp_upper M ma recipe HM La Hpos na sa i Oa Sora); [lia|lia|]|].
      - destruct Hn2 as [Hn2|(-> & _)]; [left|right; left; reflexivity]. rewrite Va, sort_desc_length by assumption. lia.
      - rewrite <- Ta. apply desc_nth; auto; [lia|]. assert (X := proj2 Ka i). lia. }
    set (x := fp M ma recipe na sa i) in *. set (v := agent_value m i j) in *. set (q := _ / _) in *. clearbody x v q. nra.
Qed.
