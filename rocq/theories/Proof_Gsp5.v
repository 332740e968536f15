(** * McAfee's trade reduction: coalitions (C80) *)
From Coq Require Import String List Arith Lia QArith Lqa Qabs Permutation Sorted Bool.
From Verif Require Import Base Model_Agents Model_Trade Model_Prices Model_Market Model_TradeReduction Model_McAfee
  Spec_Market Spec_Trade Spec_Ascending Spec_TradeReduction Spec_McAfee Spec_Group
  Proof_Market Proof_Trade Proof_Ascending Proof_Ascending2 Proof_Strategy Proof_Deals
  Proof_TR2 Proof_McAfee Proof_McAfee2 Proof_McAfee3 Proof_McAfee4 Proof_Gsp1.
From Verif Require Proof_Gsp2.
Import ListNotations.
Open Scope Q_scope.

(** The sorted values of a category. *)
Definition srt (m : market) (i : nat) : list Q := sort_desc (nth i (map cvalues m) []).

Definition rowsum (m : market) (t : nat) : Q := Qsum (map (fun i => nth t (srt m i) 0) (seq 0 (length m))).

Record outcome (M : Q) (m : market) (h : bool) (t : trade) (k d : nat) (P : nat -> Q) : Prop := {
  o_d : (d <= k)%nat;
  o_k : (k <= S d)%nat;
  o_len : forall i, (i < length m)%nat -> (k <= length (srt m i))%nat;
  o_row : forall s, (s < k)%nat -> 0 <= rowsum m s;
  o_end : (forall i, (i < length m)%nat -> (k < length (srt m i))%nat) -> rowsum m k < 0;
  o_util : forall i pos x, (i < length m)%nat -> utility t i pos x == if (pos <? d)%nat then x - P i else 0;
  o_price : forall i, (i < length m)%nat -> (0 < k)%nat -> P i <= nth (k - 1) (srt m i) 0;
  o_rej : (d < k)%nat -> forall i, (i < length m)%nat -> P i == nth (k - 1) (srt m i) 0;
  o_acc : (0 < k)%nat -> d = k -> h = true /\ forall i, (i < length m)%nat ->
            let x := nth (k - 1) (srt m i) 0 in P i == if Qlt_bool x 0 then - candidate_price M m k else candidate_price M m k;
  o_acc' : (0 < k)%nat -> h = true ->
     (forall i, (i < length m)%nat -> let x := nth (k - 1) (srt m i) 0 in
        (0 <= x -> candidate_price M m k <= x) /\ (x <= 0 -> - candidate_price M m k <= x)) -> d = k
}.

Lemma srt_vals : forall m i, srt m i = vals (clone_market m) i.
Proof.
  intros m i. rewrite vals_clone_nth. unfold srt. change (@nil Q) with (cvalues dcat). rewrite map_nth. reflexivity.
Qed.

Lemma rowsum_row : forall m t, rowsum m t == Qsum (row 0 (clone_market m) t).
Proof.
  intros m t. rewrite row_ranked, (Qsum_nth _ dcat). unfold rowsum. apply Qsum_map_ext. intros j _.
  unfold ranked, srt. change (@nil Q) with (cvalues dcat). rewrite map_nth. reflexivity.
Qed.

Lemma run_outcome_exact : forall M cap m recipe h t deals rem, cap_suffices cap m recipe -> mcafee_M M cap m recipe h = Ok t ->
  optimal_trade cap m recipe true = Ok (deals, rem) ->
  exists P, tprices t = Some P /\ length P = length m /\ ((mt_num_of_deals deals = 0)%nat -> forall i, (i < length m)%nat -> nth i P 0 == 0)
    /\ outcome M m h t (mt_num_of_deals deals) (num_of_deals t) (fun i => nth i P 0).
Proof.
  intros M cap m recipe h t deals rem Hcap H Ho.
  destruct (mcafee_result _ _ _ _ _ _ _ _ H Ho) as [Hne [Hl [H1 [Hst [Er [_ R]]]]]].
  set (k := mt_num_of_deals deals) in *. clearbody k.
  assert (Lc : length (clone_market m) = length m) by apply clone_length.
  assert (Hk : forall j, (j < length (clone_market m))%nat -> (k <= length (vals (clone_market m) j))%nat).
  { intros j Hj. apply (ones_enough _ recipe); [assumption|lia|apply Hst|assumption]. }
  destruct (mc_prices _ _ _ _ _ R) as [P [HP [LP Hpr]]].
  assert (D := mc_deals _ _ _ _ _ R).
  exists P. split; [assumption|]. split; [lia|]. split; [intros -> i Hi; apply Hpr; lia|]. constructor.
  - destruct k; [lia|]. destruct (accepted _ _ _ _ _); lia.
  - destruct k; [lia|]. destruct (accepted _ _ _ _ _); lia.
  - intros i Hi. rewrite srt_vals. apply Hk. lia.
  - intros s Hs. rewrite rowsum_row. destruct Hst as [_ [He [Ha _]]].
    assert (He' : enough (S s) (clone_market m) recipe) by (eapply enough_le; [|exact He]; lia).
    assert (X := Ha s Hs). eapply acceptable_proper in X; [|apply ones_gain; assumption || lia]. exact X.
  - intros Hb. rewrite rowsum_row.
    assert (He : enough (S k) (clone_market m) recipe).
    { apply enough_ones; [assumption|lia|]. intros j Hj. rewrite <- srt_vals. specialize (Hb j). lia. }
    assert (X := stop_reason _ _ _ _ _ (cap_clone _ _ _ Hcap) Hst He).
    destruct (Qlt_le_dec (Qsum (row 0 (clone_market m) k)) 0) as [Y|Y]; [assumption|]. exfalso. apply X. cbn.
    rewrite ones_gain by (assumption || lia). assumption.
  - intros i pos x Hi.
    destruct (mc_utility _ _ _ _ _ recipe i pos x R Er H1 ltac:(lia) ltac:(lia) Hk) as [P' [HP' ->]].
    assert (P' = P) by congruence. subst P'. reflexivity.
  - intros i Hi H0. specialize (Hpr i ltac:(lia)). rewrite srt_vals. destruct k as [|k']; [lia|]. cbv zeta in Hpr.
    rewrite Hpr. replace (S k' - 1)%nat with k' by lia.
    destruct (accepted M (clone_market m) (S k') h (row 0 (clone_market m) k')) eqn:EA; [|lra].
    apply accepted_inv in EA. destruct EA as [_ G].
    destruct (G (nth k' (vals (clone_market m) i) 0)) as [G1 G2].
    { unfold vals. rewrite <- (col_nth (clone_market m) i k') by lia. apply nth_In. rewrite row_length. lia. }
    destruct (Qlt_bool_reflect (nth k' (vals (clone_market m) i) 0) 0) as [Y|Y].
    + specialize (G2 ltac:(lra)). lra.
    + specialize (G1 ltac:(lra)). lra.
  - intros Hd i Hi. specialize (Hpr i ltac:(lia)). rewrite srt_vals. destruct k as [|k']; [lia|]. cbv zeta in Hpr.
    rewrite Hpr. replace (S k' - 1)%nat with k' by lia.
    destruct (accepted M (clone_market m) (S k') h (row 0 (clone_market m) k')) eqn:EA; [|lra]. lia.
  - intros H0 Hd. destruct k as [|k']; [lia|].
    destruct (accepted M (clone_market m) (S k') h (row 0 (clone_market m) k')) eqn:EA; [|lia].
    split; [apply (accepted_inv _ _ _ _ _ EA)|]. intros i Hi. cbv zeta. specialize (Hpr i ltac:(lia)). cbv zeta in Hpr. rewrite Hpr, srt_vals.
    replace (S k' - 1)%nat with k' by lia. rewrite candidate_spec. reflexivity.
  - intros H0 -> Hg. destruct k as [|k']; [lia|].
    assert (EA : accepted M (clone_market m) (S k') true (row 0 (clone_market m) k') = true).
    { apply accepted_spec. intros c Hc. apply In_nth with (d := dcat) in Hc. destruct Hc as [i [Hi <-]].
      specialize (Hg i Hi). cbv zeta in Hg. unfold srt in Hg. change (@nil Q) with (cvalues dcat) in Hg. rewrite map_nth in Hg. exact Hg. }
    rewrite EA in D. exact D.
Qed.

Lemma run_outcome : forall M cap m recipe h t, cap_suffices cap m recipe -> mcafee_M M cap m recipe h = Ok t ->
  exists k d P, outcome M m h t k d P.
Proof.
  intros M cap m recipe h t Hcap H. destruct (mcafee_optimal _ _ _ _ _ _ H) as [deals [rem Ho]].
  destruct (run_outcome_exact _ _ _ _ _ _ _ _ Hcap H Ho) as (P & _ & _ & _ & O). eauto.
Qed.

Lemma bounded_search : forall n (P : nat -> Prop), (forall x, (x < n)%nat -> P x \/ ~ P x) ->
  (exists x, (x < n)%nat /\ P x) \/ (forall x, (x < n)%nat -> ~ P x).
Proof.
  induction n as [|n IH]; intros P HD; [right; intros x Hx; lia|].
  destruct (HD n ltac:(lia)) as [Y|Y]; [left; exists n; split; [lia|assumption]|].
  destruct (IH P ltac:(intros; apply HD; lia)) as [[x [Hx Px]]|N]; [left; exists x; split; [lia|assumption]|].
  right. intros x Hx. destruct (Nat.eq_dec x n) as [->|]; [assumption|]. apply N. lia.
Qed.

Lemma search : forall m m' (u u' : nat -> nat -> Q),
  (exists i j, misreports m m' i j /\ u' i j <= u i j) \/ (forall i j, misreports m m' i j -> u i j < u' i j).
Proof.
  intros m m' u u'.
  assert (DI : forall i j, (misreports m m' i j /\ u' i j <= u i j) \/ ~ (misreports m m' i j /\ u' i j <= u i j)).
  { intros i j. unfold misreports, is_agent.
    destruct (lt_dec i (length m)) as [A|A]; [|right; tauto].
    destruct (lt_dec j (length (nth i (map cvalues m) []))) as [B|B]; [|right; tauto].
    destruct (Qeq_dec (agent_value m i j) (agent_value m' i j)) as [C|C]; [right; tauto|].
    destruct (Qlt_le_dec (u i j) (u' i j)) as [E|E]; [right; intros [_ X]; lra|left; tauto]. }
  destruct (bounded_search (length m) (fun i => exists j, (j < length (nth i (map cvalues m) []))%nat /\ misreports m m' i j /\ u' i j <= u i j)) as [[i [_ [j [_ X]]]]|N].
  - intros i _. destruct (bounded_search (length (nth i (map cvalues m) [])) (fun j => misreports m m' i j /\ u' i j <= u i j)) as [Y|Y]; [intros; apply DI|left; exact Y|].
    right. intros [j [Hj X]]. apply (Y j Hj X).
  - left. exists i, j. exact X.
  - right. intros i j Hm. destruct (Qlt_le_dec (u i j) (u' i j)) as [E|E]; [assumption|]. exfalso.
    destruct Hm as [[Hi Hj] Hd]. apply (N i Hi). exists j. split; [assumption|]. split; [split; [split; assumption|assumption]|assumption].
Qed.

Section Two.
  Variables (M : Q) (h : bool) (m m' : market) (t t' : trade) (rank rank' : nat -> nat -> nat) (k d k' d' : nat) (P P' : nat -> Q).
  Hypothesis HS : same_agents m m'.
  Hypothesis HR : rankings m rank.
  Hypothesis HR' : rankings m' rank'.
  Hypothesis O : outcome M m h t k d P.
  Hypothesis O' : outcome M m' h t' k' d' P'.

  Let V := fun i => nth i (map cvalues m) [].
  Let V' := fun i => nth i (map cvalues m') [].

  Lemma Lm : length m = length m'. Proof. apply Proof_Gsp2.same_agents_len. assumption. Qed.
  Lemma LV : forall i, length (V i) = length (V' i). Proof. apply Proof_Gsp2.same_agents_len. assumption. Qed.
  Lemma Ls : forall i, length (srt m i) = length (srt m' i).
  Proof. intros i. unfold srt. rewrite !sort_desc_length. apply LV. Qed.
  Lemma Ls1 : forall i, length (srt m i) = length (V i). Proof. intros i. apply sort_desc_length. Qed.

  Lemma rk : forall i j, is_agent m i j -> nth (rank i j) (srt m i) 0 == agent_value m i j /\ (rank i j < length (srt m i))%nat.
  Proof.
    intros i j [Hi Hj]. split; [apply ranking_sorted; [apply HR; assumption|assumption]|].
    rewrite Ls1. apply (HR i Hi). assumption.
  Qed.
  Lemma rk' : forall i j, is_agent m i j -> nth (rank' i j) (srt m' i) 0 == agent_value m' i j /\ (rank' i j < length (srt m i))%nat.
  Proof.
    intros i j [Hi Hj]. assert (Hj' := Hj). fold (V i) in Hj'. rewrite LV in Hj'.
    assert (Hi' : (i < length m')%nat) by (rewrite <- Lm; assumption).
    split; [apply ranking_sorted; [apply HR'; assumption|assumption]|].
    rewrite Ls. unfold srt. rewrite sort_desc_length. apply (HR' i); assumption.
  Qed.

  Lemma srt_desc : forall mm i, desc (srt mm i). Proof. intros. apply sort_desc_desc. Qed.

  Lemma truthful_nonneg : forall i j, is_agent m i j -> 0 <= utility t i (rank i j) (agent_value m i j).
  Proof.
    intros i j Ha. assert (Hi : (i < length m)%nat) by apply Ha. rewrite (o_util _ _ _ _ _ _ _ O i _ _ Hi).
    destruct (Nat.ltb_spec (rank i j) d) as [X|X]; [|lra].
    destruct (rk i j Ha) as [E L]. assert (A := o_d _ _ _ _ _ _ _ O). assert (B := o_len _ _ _ _ _ _ _ O i Hi).
    assert (C := o_price _ _ _ _ _ _ _ O i Hi ltac:(lia)).
    assert (D := desc_nth (srt m i) 0 (rank i j) (k - 1) (srt_desc m i) ltac:(lia) ltac:(lia)). lra.
  Qed.

  Hypothesis ALL : forall i j, misreports m m' i j ->
    utility t i (rank i j) (agent_value m i j) < utility t' i (rank' i j) (agent_value m i j).

  (** All the misreporting agents trade, and gain. *)
  Lemma liars : forall i j, misreports m m' i j -> (rank' i j < d')%nat /\ P' i < agent_value m i j.
  Proof.
    intros i j Hm. assert (Ha : is_agent m i j) by apply Hm. assert (Hi : (i < length m')%nat) by (rewrite <- Lm; apply Ha).
    assert (X := ALL i j Hm). assert (Y := truthful_nonneg i j Ha). rewrite (o_util _ _ _ _ _ _ _ O' i _ _ Hi) in X.
    destruct (Nat.ltb_spec (rank' i j) d') as [Z|Z]; [split; [assumption|lra]|lra].
  Qed.

  Lemma honest_or : forall i j, is_agent m i j -> misreports m m' i j \/ agent_value m i j == agent_value m' i j.
  Proof. intros i j Ha. destruct (Qeq_dec (agent_value m i j) (agent_value m' i j)); [right; assumption|left; split; assumption]. Qed.

  (** From place [d'] on, the agents of the lying run tell the truth. *)
  Lemma outside : forall i j, is_agent m i j -> (d' <= rank' i j)%nat -> nth (rank' i j) (srt m' i) 0 == agent_value m i j.
  Proof.
    intros i j Ha Hr. destruct (rk' i j Ha) as [E _]. destruct (honest_or i j Ha) as [X|X]; [|lra].
    destruct (liars i j X). lia.
  Qed.

  (** The true value of each trader of the lying run is at least the price there. *)
  Lemma inside : forall i j, is_agent m i j -> (rank' i j < k')%nat -> P' i <= agent_value m i j.
  Proof.
    intros i j Ha Hr. assert (Hi : (i < length m')%nat) by (rewrite <- Lm; apply Ha).
    destruct (honest_or i j Ha) as [X|X]; [destruct (liars i j X); lra|].
    destruct (rk' i j Ha) as [E L]. assert (B := o_len _ _ _ _ _ _ _ O' i Hi). assert (C := o_price _ _ _ _ _ _ _ O' i Hi ltac:(lia)).
    assert (D := desc_nth (srt m' i) 0 (rank' i j) (k' - 1) (srt_desc m' i) ltac:(lia) ltac:(lia)). lra.
  Qed.

  (** So is the [k']-th true value of each category. *)
  Lemma true_at_least : forall i, (i < length m)%nat -> (0 < k')%nat -> P' i <= nth (k' - 1) (srt m i) 0.
  Proof.
    intros i Hi Hk. assert (Hi' : (i < length m')%nat) by (rewrite <- Lm; assumption).
    assert (B := o_len _ _ _ _ _ _ _ O' i Hi').
    destruct (pigeon (V' i) (V i) (rank' i) (rank i) k') as [j [Hj [J1 J2]]].
    { apply HR'. assumption. } { apply HR. assumption. } { symmetry. apply LV. } { rewrite <- LV, <- Ls1, Ls. lia. }
    assert (Ha : is_agent m i j) by (split; [assumption|fold (V i); rewrite LV; assumption]).
    assert (X := inside i j Ha ltac:(lia)). destruct (rk i j Ha) as [E L].
    assert (D := desc_nth (srt m i) 0 (k' - 1) (rank i j) (srt_desc m i) ltac:(lia) ltac:(lia)). lra.
  Qed.

  (** The true value at a place from [d'] on is at most the reported one. *)
  Lemma true_at_most : forall i s, (i < length m)%nat -> (d' <= s < length (srt m i))%nat -> nth s (srt m i) 0 <= nth s (srt m' i) 0.
  Proof.
    intros i s Hi Hs.
    destruct (pigeon (V i) (V' i) (rank i) (rank' i) (S s)) as [j [Hj [J1 J2]]].
    { apply HR. assumption. } { apply HR'. rewrite <- Lm. assumption. } { apply LV. } { rewrite <- Ls1. lia. }
    assert (Ha : is_agent m i j) by (split; assumption). cbn [Nat.sub] in J1, J2. rewrite Nat.sub_0_r in J1, J2.
    assert (X := outside i j Ha ltac:(lia)). destruct (rk i j Ha) as [E L]. destruct (rk' i j Ha) as [E' L'].
    assert (D := desc_nth (srt m i) 0 (rank i j) s (srt_desc m i) ltac:(lia) ltac:(lia)).
    assert (D' := desc_nth (srt m' i) 0 s (rank' i j) (srt_desc m' i) ltac:(lia) ltac:(rewrite <- Ls; lia)). lra.
  Qed.

  (** Enough true deals. *)
  Lemma more_deals : (0 < k')%nat -> 0 <= rowsum m (k' - 1) -> (k' <= k)%nat.
  Proof.
    intros Hk Hrow. destruct (le_lt_dec k' k) as [X|X]; [assumption|exfalso].
    assert (B : forall i, (i < length m)%nat -> (k' <= length (srt m i))%nat).
    { intros i Hi. rewrite Ls. apply (o_len _ _ _ _ _ _ _ O'). rewrite <- Lm. assumption. }
    assert (Y := o_end _ _ _ _ _ _ _ O ltac:(intros i Hi; specialize (B i Hi); lia)).
    assert (Z : rowsum m (k' - 1) <= rowsum m k).
    { unfold rowsum. apply Qsum_map_le. intros i Hi. apply in_seq in Hi. specialize (B i ltac:(lia)).
      apply desc_nth; [apply srt_desc|lia|lia]. }
    lra.
  Qed.

  Lemma rejected_case : (d' < k')%nat -> forall i j, misreports m m' i j -> False.
  Proof.
    intros Hd i j Hm. assert (Hk : (0 < k')%nat) by lia.
    assert (Ha : is_agent m i j) by apply Hm. assert (Hi : (i < length m)%nat) by apply Ha.
    assert (Hi' : (i < length m')%nat) by (rewrite <- Lm; assumption).
    assert (dk : (k' <= S d')%nat) by apply (o_k _ _ _ _ _ _ _ O').
    assert (EQ : forall c, (c < length m)%nat -> nth (k' - 1) (srt m c) 0 == P' c).
    { intros c Hc. assert (Hc' : (c < length m')%nat) by (rewrite <- Lm; assumption).
      assert (X := true_at_least c Hc Hk). assert (Y := o_rej _ _ _ _ _ _ _ O' Hd c Hc').
      assert (B := o_len _ _ _ _ _ _ _ O' c Hc'). rewrite <- Ls in B.
      assert (Z := true_at_most c (k' - 1) Hc ltac:(lia)). lra. }
    assert (K : (k' <= k)%nat).
    { apply more_deals; [assumption|]. assert (X := o_row _ _ _ _ _ _ _ O' (k' - 1)%nat ltac:(lia)).
      assert (E : rowsum m (k' - 1) == rowsum m' (k' - 1)).
      { unfold rowsum. rewrite <- Lm. apply Qsum_map_ext. intros c Hc. apply in_seq in Hc. rewrite (EQ c ltac:(lia)).
        apply (o_rej _ _ _ _ _ _ _ O' Hd). rewrite <- Lm. lia. }
      lra. }
    destruct (liars i j Hm) as [L1 L2]. assert (X := ALL i j Hm).
    rewrite (o_util _ _ _ _ _ _ _ O i _ _ Hi), (o_util _ _ _ _ _ _ _ O' i _ _ Hi') in X.
    destruct (rk i j Ha) as [E L]. assert (B := o_len _ _ _ _ _ _ _ O i Hi).
    assert (Rlt : (rank i j < k' - 1)%nat).
    { destruct (lt_dec (rank i j) (k' - 1)) as [Y|Y]; [assumption|exfalso].
      assert (D := desc_nth (srt m i) 0 (k' - 1) (rank i j) (srt_desc m i) ltac:(lia) ltac:(lia)). assert (F := EQ i Hi). lra. }
    assert (A := o_k _ _ _ _ _ _ _ O). destruct (Nat.ltb_spec (rank i j) d) as [Y|Y]; [|lia].
    destruct (Nat.ltb_spec (rank' i j) d') as [Z|Z]; [|lia].
    assert (C := o_price _ _ _ _ _ _ _ O i Hi ltac:(lia)).
    assert (D := desc_nth (srt m i) 0 (k' - 1) (k - 1) (srt_desc m i) ltac:(lia) ltac:(lia)). assert (F := EQ i Hi). lra.
  Qed.
End Two.

Theorem mcafee_group_plain : forall M cap m m' recipe t t' rank rank',
  same_agents m m' -> rankings m rank -> rankings m' rank' ->
  cap_suffices cap m recipe -> cap_suffices cap m' recipe ->
  mcafee_M M cap m recipe false = Ok t -> mcafee_M M cap m' recipe false = Ok t' ->
  (exists i j, misreports m m' i j) ->
  exists i j, misreports m m' i j
    /\ utility t' i (rank' i j) (agent_value m i j) <= utility t i (rank i j) (agent_value m i j).
Proof.
  intros M cap m m' recipe t t' rank rank' HS HR HR' C C' H H' [i [j Hm]].
  destruct (run_outcome _ _ _ _ _ _ C H) as [k [d [P O]]]. destruct (run_outcome _ _ _ _ _ _ C' H') as [k' [d' [P' O']]].
  destruct (search m m' (fun i j => utility t i (rank i j) (agent_value m i j)) (fun i j => utility t' i (rank' i j) (agent_value m i j))) as [X|X];
    [exact X|exfalso].
  assert (L := liars _ _ _ _ _ _ _ _ _ _ _ _ _ _ HS HR O O' X i j Hm).
  assert (A := o_d _ _ _ _ _ _ _ O').
  apply (rejected_case _ _ _ _ _ _ _ _ _ _ _ _ _ _ HS HR HR' O O' X) with (i := i) (j := j); [|assumption].
  destruct (Nat.eq_dec d' k') as [E|E]; [|lia]. destruct (o_acc _ _ _ _ _ _ _ O' ltac:(lia) E). discriminate.
Qed.
