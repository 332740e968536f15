(** * The experiments with the three mechanisms (C66) *)

From Coq Require Import String List Arith NArith Lia ZArith QArith Qround Lqa Bool Permutation.
From Verif Require Import Base Model_Agents Model_Trade Model_Prices Model_Market Model_Ascending Model_TradeReduction Model_McAfee
  Model_Experiment Spec_Market Spec_Trade Spec_Ascending Spec_TradeReduction Spec_McAfee Spec_Experiment
  Proof_Exp1 Proof_Exp2 Proof_Agents Proof_Market Proof_Trade Proof_Ascending Proof_Ascending2 Proof_Ascending4 Proof_Ascending5
  Proof_Deals Proof_TR3 Proof_TR4 Proof_TR6 Proof_TR7 Proof_TR8 Proof_TR9 Proof_TR11 Proof_TR12 Proof_TR13 Proof_TR14 Proof_McAfee2.
Import ListNotations.
Open Scope Q_scope.

(** ** The generated markets *)
Definition tame (recipe : list nat) (m : market) : Prop :=
  length recipe = length m /\ values_small MAX_VALUE recipe m /\ values_at_least (- MAX_VALUE) m
  /\ cap_suffices default_max_iterations m recipe /\ sorted_market m.

Lemma nsum_pos : forall recipe, recipe <> [] -> Forall (fun r => (0 < r)%nat) recipe -> (0 < nsum recipe)%nat.
Proof. intros [|r recipe] H F; [congruence|]. inversion F; subst. simpl. lia. Qed.

Lemma random_tame : forall n recipe ranges B m, recipe <> [] -> Forall (fun r => (0 < r)%nat) recipe ->
  length ranges = length recipe -> (0 <= B)%Z -> (forall lo hi, In (lo, hi) ranges -> - B <= lo /\ hi <= B)%Z ->
  (B * Z.of_nat (nsum recipe) < 100000000)%Z -> (N.of_nat n <= 2000000)%N ->
  random_market n recipe ranges m -> tame recipe m.
Proof.
  intros n recipe ranges B m NE FP LR B0 HB HS HN (draws & -> & LD & HD).
  assert (V : forall c v, In c (map (uniformly_random "agent") draws) -> In v (cvalues c) -> inject_Z (- B) <= v <= inject_Z B).
  { intros c v Hc Hv. apply in_map_iff in Hc. destruct Hc as (d & <- & Hd). unfold uniformly_random, new_category in Hv. cbn [cvalues] in Hv.
    apply (Permutation_in _ (sort_desc_perm _)) in Hv. apply in_map_iff in Hv. destruct Hv as (x & <- & Hx).
    apply In_nth_error in Hd. destruct Hd as (i & Hi).
    assert (Li : (i < length draws)%nat) by (apply nth_error_Some; congruence).
    destruct (nth_error recipe i) as [r|] eqn:Er; [|apply nth_error_None in Er; lia].
    destruct (nth_error ranges i) as [[lo hi]|] eqn:Eg; [|apply nth_error_None in Eg; lia].
    destruct (HD i d r lo hi Hi Er Eg) as [_ X]. specialize (X x Hx). apply py_round_within in X.
    apply nth_error_In in Eg. specialize (HB lo hi Eg). rewrite <- !Zle_Qle. lia. }
  assert (NP := nsum_pos recipe NE FP).
  assert (SB : inject_Z B * Qn (nsum recipe) < MAX_VALUE).
  { unfold Qn. rewrite <- inject_Z_mult. change MAX_VALUE with (inject_Z 100000000). rewrite <- Zlt_Qlt. assumption. }
  unfold tame. split; [rewrite map_length; auto|]. split; [|split; [|split]].
  - apply Proof_Ascending4.small_uniform; [exact NE|exists 0%nat; destruct recipe as [|r0 recipe]; [congruence|]; exists r0; split; [reflexivity|inversion FP; assumption]|rewrite map_length; auto|].
    exists (inject_Z B). split; [change 0 with (inject_Z 0); rewrite <- Zle_Qle; assumption|]. split; [assumption|].
    intros c v Hc Hv. specialize (V c v Hc Hv). rewrite inject_Z_opp in V. exact V.
  - intros c v Hc Hv. specialize (V c v Hc Hv). destruct V as [V _].
    assert (X : - MAX_VALUE <= inject_Z (- B)); [|lra].
    change (- MAX_VALUE) with (inject_Z (- 100000000)). rewrite <- Zle_Qle. nia.
  - destruct recipe as [|r recipe]; [congruence|]. destruct draws as [|d draws]; [discriminate|]. destruct ranges as [|[lo hi] ranges]; [discriminate|].
    inversion FP; subst. exists 0%nat, (uniformly_random "agent" d), r.
    destruct (HD 0%nat d r lo hi eq_refl eq_refl eq_refl) as [L _].
    split; [reflexivity|]. split; [reflexivity|]. split; [assumption|]. unfold csize, uniformly_random, new_category. cbn [cvalues].
    rewrite (Permutation_length (sort_desc_perm _)), map_length, L. apply Nat.mul_le_mono_r. unfold default_max_iterations. lia.
  - apply Forall_forall. intros c Hc. apply in_map_iff in Hc. destruct Hc as (d & <- & _). apply sort_desc_desc.
Qed.

Lemma random_no_spare : forall n recipe ranges m, recipe <> [] -> Forall (fun r => (0 < r)%nat) recipe ->
  length ranges = length recipe -> random_market n recipe ranges m -> no_spare m recipe.
Proof.
  intros n recipe ranges m NE FP LR (draws & -> & LD & HD). apply (exact_no_spare _ _ n NE FP); [rewrite map_length; auto|].
  intros i c r Hc Hr. rewrite nth_error_map in Hc. destruct (nth_error draws i) as [d|] eqn:Ed; [|discriminate]. injection Hc as <-.
  destruct (nth_error ranges i) as [[lo hi]|] eqn:Eg; [|apply nth_error_None in Eg; assert (i < length recipe)%nat by (apply nth_error_Some; congruence); lia].
  destruct (HD i d r lo hi Ed Hr Eg) as [L _]. unfold csize, uniformly_random, new_category. cbn [cvalues].
  rewrite (Permutation_length (sort_desc_perm _)), map_length. exact L.
Qed.

(** ** Gains are defined *)
Lemma gain_defined : forall cats recipe prices t z, length cats = length recipe -> length prices = length recipe ->
  Forall (fun r => (0 < r)%nat) recipe -> new_trade cats recipe (Some prices) = Ok t -> exists g, gain_from_trade t z = Ok g.
Proof.
  intros cats recipe prices t z LC LP FP H. destruct (gain_raises cats recipe prices t z LC LP H) as [G1 G2].
  destruct (gain_from_trade t z) as [g|e|] eqn:E; [eauto| |congruence].
  destruct (proj1 (G1 e) eq_refl) as (_ & D & X). exfalso. apply Exists_exists in X. destruct X as (c & Hc & Ec).
  apply In_nth_error in Hc. destruct Hc as (i & Hi). assert (Li : (i < length cats)%nat) by (apply nth_error_Some; congruence).
  destruct (nth_error recipe i) as [r|] eqn:Er; [|apply nth_error_None in Er; lia].
  destruct (deals_max _ _ _ _ H) as (_ & S & _). specialize (S i c r Hi Er). unfold csize in S. rewrite Ec in S. simpl in S.
  rewrite Forall_forall in FP. specialize (FP r (nth_error_In _ _ Er)). unfold num_of_deals in D. nia.
Qed.

Lemma sum_ge : forall p l, Forall (fun v => p <= v) l -> p * Qn (length l) <= Qsum l.
Proof.
  intros p l H. induction H as [|v l Hv H IH]; [change (p * 0 <= 0); lra|].
  cbn [length Qsum fold_right]. fold (Qsum l). replace (S (length l)) with (1 + length l)%nat by lia. rewrite Qn_plus. change (Qn 1) with 1. lra.
Qed.

(** If no agent loses, the traders together do not lose. *)
Lemma market_gain_nonneg : forall t prices cats i g, tprices t = Some prices ->
  (forall j c p v, nth_error cats j = Some c -> nth_error prices (i + j) = Some p -> In v (cvalues c) -> p <= v) ->
  gain_loop t false i cats = Ok g -> 0 <= g.
Proof.
  intros t prices cats. induction cats as [|c cats IH]; intros i g HP IR H.
  - simpl in H. inversion H. lra.
  - cbn [gain_loop] in H. apply bind_Ok in H. destruct H as (g1 & H1 & H). apply bind_Ok in H. destruct H as (g2 & H2 & H).
    injection H as <-.
    assert (G2 : 0 <= g2).
    { apply (IH (S i)); auto. intros j c' p v Hc Hp. apply (IR (S j)); [assumption|]. rewrite Nat.add_succ_r. exact Hp. }
    unfold gain_of_category in H1. apply bind_Ok in H1. destruct H1 as (r & _ & H1).
    destruct (Nat.eqb_spec (csize c) 0) as [Z|Z]; [discriminate|].
    apply bind_Ok in H1. destruct H1 as (p & Hp & H1). injection H1 as <-.
    unfold price_at in Hp. rewrite HP in Hp. apply get_Ok in Hp.
    assert (X : p * Qn (csize c) <= Qsum (cvalues c)).
    { apply sum_ge. apply Forall_forall. intros v Hv. apply (IR 0%nat c); [reflexivity| |assumption]. rewrite Nat.add_0_r. exact Hp. }
    assert (N : 0 < Qn (csize c)) by (apply Qn_pos; lia).
    assert (P := Qn_nonneg (r * tdeals t)).
    assert (Y : Qsum (cvalues c) * (Qn (r * tdeals t) / Qn (csize c)) == Qn (r * tdeals t) * (Qsum (cvalues c) / Qn (csize c))) by (field; lra).
    assert (W : p <= Qsum (cvalues c) / Qn (csize c)) by (apply Qle_shift_div_l; assumption).
    rewrite Y. nra.
Qed.

(** ** Ascending auction *)
Lemma positive_entry : forall recipe, recipe <> [] -> Forall (fun r => (0 < r)%nat) recipe -> has_positive_entry recipe.
Proof. intros [|r recipe] H F; [congruence|]. inversion F; subst. exists 0%nat, r. auto. Qed.

Lemma asc_fields : forall M fuel m recipe t, 0 < M -> ascending_auction_M M fuel m recipe = Ok t ->
  exists prices, new_trade (tcats t) recipe (Some prices) = Ok t /\ tprices t = Some prices /\ length (tcats t) = length recipe
    /\ length prices = length recipe.
Proof.
  intros M fuel m recipe t HM H. unfold ascending_auction_M in H. destruct (length recipe =? length m)%nat eqn:E; [|discriminate].
  apply Nat.eqb_eq in E. pose proof H as H0. apply bind_Ok in H. destruct H as (s & HL & H).
  destruct (deals_max _ _ _ _ H) as (Ht & _). exists (pv_prices (snd s)). rewrite Ht. cbn [tcats tprices].
  rewrite Ht in H. split; [exact H|]. split; [reflexivity|].
  assert (Lc : length (fst s) = length recipe /\ length (pv_prices (snd s)) = length recipe).
  { clear - HL E. assert (A : length (fst (ascending_start M m recipe)) = length recipe
                    /\ length (pv_prices (snd (ascending_start M m recipe))) = length recipe).
    { unfold ascending_start, new_price_vector, clone_market. cbn. rewrite map_length, repeat_length. auto. }
    revert A HL. generalize (ascending_start M m recipe). induction fuel as [|fuel IH]; intros s0 A HL; [discriminate|].
    cbn [ascending_loop] in HL. apply bind_Ok in HL. destruct HL as ([b s1] & R & HL). cbn [fst snd] in HL.
    assert (A1 : length (fst s1) = length recipe /\ length (pv_prices (snd s1)) = length recipe).
    { clear - R A. destruct s0 as [cats pv]. unfold ascending_round in R. cbn [fst snd] in A.
      apply bind_Ok in R. destruct R as (mi & _ & R). apply bind_Ok in R. destruct R as (c & _ & R).
      destruct (csize c =? 0)%nat; [inversion R; subst; exact A|].
      apply bind_Ok in R. destruct R as (low & _ & R). apply bind_Ok in R. destruct R as (pv' & I & R).
      assert (LP : length (pv_prices pv') = length (pv_prices pv)).
      { clear - I. unfold increase_price_up_to_balance in I. 
        repeat (apply bind_Ok in I; destruct I as (? & _ & I)).
        repeat match type of I with context [if ?b then _ else _] => destruct b end; inversion I; cbn [pv_prices]; apply set_nth_length. }
      destruct (pv_status pv') as [[]|]; try (inversion R; subst; cbn [fst snd]; lia);
        apply bind_Ok in R; destruct R as (c' & _ & R); inversion R; subst; cbn [fst snd]; rewrite set_nth_length; lia. }
    destruct b; [inversion HL; subst; exact A1|]. exact (IH _ A1 HL). }
  exact Lc.
Qed.

Lemma ascending_outcome : forall recipe m, recipe <> [] -> Forall (fun r => (0 < r)%nat) recipe -> tame recipe m ->
  exists o, raw ascending_auction recipe m o /\ fine o /\ out_market o == out_total o.
Proof.
  intros recipe m NE FP (L & SM & AL & CAP & _).
  destruct (optimal_trade_errors default_max_iterations m recipe true) as [[[deals rem] [HO _]]|[_ X]]; [|congruence].
  destruct (ascending_terminates MAX_VALUE (total_agents m + 1) m recipe) as [[t [H _]]|[_ [X|X]]]; [lia| |congruence|destruct X; apply positive_entry; assumption].
  assert (HM : 0 < MAX_VALUE) by reflexivity.
  destruct (asc_fields _ _ _ _ _ HM H) as (prices & NT & TP & LC & LP).
  destruct (gain_defined _ _ _ _ true LC LP FP NT) as (g & G). destruct (gain_defined _ _ _ _ false LC LP FP NT) as (g' & G').
  destruct (ascending_gain _ _ _ _ _ _ _ _ true g HM CAP H HO G) as (E & U & N & R). specialize (E g' G'). specialize (N AL). specialize (R SM).
  destruct (ascending_deals _ _ _ _ _ _ _ _ HM CAP H HO) as [D1 D2]. specialize (D2 AL).
  exists (mkOut (mt_num_of_deals deals) (mt_gain_from_trade deals) (num_of_deals t) g g'). split; [|split].
  - exists deals, rem, t. unfold ascending_auction. cbn. auto 10.
  - unfold fine. cbn [out_k out_opt out_deals out_total out_market]. split; [lia|]. destruct R as [_ R]. repeat split; try lra; exact R.
  - exact E.
Qed.

(** ** Trade reduction *)
Lemma gain_loop_eq : forall t ta z P Pa cats catsa, trecipe t = trecipe ta -> tdeals t = tdeals ta ->
  tprices t = Some P -> tprices ta = Some Pa -> Forall2 Qeq P Pa -> Forall2 cat_eq cats catsa -> forall i ga,
  gain_loop ta z i catsa = Ok ga -> exists g, gain_loop t z i cats = Ok g /\ g == ga.
Proof.
  intros t ta z P Pa cats catsa ER ED EP EPa HP HC. induction HC as [|c ca cats catsa [_ Hc] HC IH]; intros i ga H.
  - exists ga. split; [exact H|reflexivity].
  - cbn [gain_loop] in *. apply bind_Ok in H. destruct H as (g1 & H1 & H). apply bind_Ok in H. destruct H as (g2 & H2 & H).
    injection H as <-. destruct (IH _ _ H2) as (g2' & H2' & E2).
    unfold gain_of_category in *. apply bind_Ok in H1. destruct H1 as (r & Hr & H1). rewrite ER, Hr. cbn [bind].
    assert (SZ : csize c = csize ca) by (unfold csize; apply qeq_length; exact Hc). rewrite SZ.
    destruct (csize ca =? 0)%nat; [discriminate|]. apply bind_Ok in H1. destruct H1 as (pa & Hpa & H1).
    unfold price_at in *. rewrite EPa in Hpa. rewrite EP. apply get_Ok in Hpa.
    assert (exists p, nth_error P i = Some p /\ p == pa) as (p & Hp & Ep).
    { clear - HP Hpa. revert i Hpa. induction HP as [|x y P Pa E HP IH]; intros [|i] Hpa; try discriminate.
      - inversion Hpa; subst. exists x. auto.
      - apply IH. assumption. }
    apply get_Ok in Hp. rewrite Hp. cbn [bind]. rewrite H2'. cbn [bind]. eexists. split; [reflexivity|].
    injection H1 as <-. rewrite ED, E2. apply qeq_sum in Hc. destruct z; rewrite Hc; [reflexivity|]. rewrite Ep. reflexivity.
Qed.

Lemma ones_positive : forall recipe, all_ones recipe -> Forall (fun r => (0 < r)%nat) recipe.
Proof. intros recipe H. eapply Forall_impl; [|exact H]. cbn. intros a ->. lia. Qed.

Lemma same_gain : forall t ta z ga P Pa, trecipe t = trecipe ta -> tdeals t = tdeals ta ->
  tprices t = Some P -> tprices ta = Some Pa -> Forall2 Qeq P Pa -> Forall2 cat_eq (tcats t) (tcats ta) ->
  gain_from_trade ta z = Ok ga -> exists g, gain_from_trade t z = Ok g /\ g == ga.
Proof.
  intros t ta z ga P Pa ER ED EP EPa HP HC H. unfold gain_from_trade in *. rewrite ED. destruct (tdeals ta =? 0)%nat.
  - exists ga. split; [exact H|reflexivity].
  - eapply gain_loop_eq; eassumption.
Qed.

(** The trade of trade reduction has the same gain as that of the ascending auction. *)
Lemma tr_same : forall recipe m, ones_but_last recipe -> no_spare m recipe -> tame recipe m ->
  exists t ta ga ga' g g', trade_reduction m recipe true = Ok t /\ ascending_auction m recipe = Ok ta
    /\ num_of_deals t = num_of_deals ta
    /\ gain_from_trade ta true = Ok ga /\ gain_from_trade ta false = Ok ga'
    /\ gain_from_trade t true = Ok g /\ gain_from_trade t false = Ok g' /\ g == ga /\ g' == ga'.
Proof.
  intros recipe m O NS T. assert (FP := last_all_positive _ O).
  assert (NE : recipe <> []) by (destruct O as (n0 & r0 & _ & ->); destruct n0; discriminate).
  pose proof T as (L & SM & AL & CAP & _).
  destruct (ascending_outcome recipe m NE FP T) as (o & (deals & rem & ta & HO & _ & _ & HA & _ & GA & GA') & _ & _).
  destruct (tr_errors MAX_VALUE default_max_iterations m recipe true) as [[[t H] _]|[_ [X|X]]]; [|congruence|destruct X; apply positive_entry; assumption].
  assert (HM : 0 < MAX_VALUE) by reflexivity.
  destruct (tr_ascending_last _ _ _ _ _ _ _ HM O NS SM CAP H HA) as [ED X].
  exists t, ta, (out_total o), (out_market o).
  destruct (Nat.eq_dec (num_of_deals t) 0) as [Z|Z].
  - exists 0, 0. assert (Z' : tdeals ta = 0%nat) by (unfold num_of_deals in *; congruence). unfold gain_from_trade in *. rewrite Z' in GA, GA'.
    cbn [Nat.eqb] in GA, GA'. unfold num_of_deals in Z. rewrite Z, Z'. cbn [Nat.eqb]. injection GA as <-. injection GA' as <-.
    repeat split; auto; unfold num_of_deals; congruence.
  - destruct X as (CE & P & Pa & EP & EPa & HP); [lia|].
    destruct (tr_ok_inv _ _ _ _ _ _ H) as (_ & _ & NT & _ & _). destruct (deals_max _ _ _ _ NT) as (Et & _).
    destruct (asc_fields _ _ _ _ _ HM HA) as (prices & NA & _). destruct (deals_max _ _ _ _ NA) as (Ea & _).
    assert (ER : trecipe t = trecipe ta) by (rewrite Et, Ea; reflexivity).
    destruct (same_gain t ta true _ P Pa ER ED EP EPa HP CE GA) as (g & G & E).
    destruct (same_gain t ta false _ P Pa ER ED EP EPa HP CE GA') as (g' & G' & E').
    exists g, g'. repeat split; assumption.
Qed.

(** Every recipe of positive integers. *)
Lemma tr_outcome : forall recipe m, recipe <> [] -> Forall (fun r => (0 < r)%nat) recipe -> tame recipe m ->
  exists o, raw (fun m r => trade_reduction m r true) recipe m o /\ fine o /\ out_market o == out_total o.
Proof.
  intros recipe m NE FP (L & SM & AL & CAP & _).
  destruct (optimal_trade_errors default_max_iterations m recipe true) as [[[deals rem] [HO _]]|[_ X]]; [|congruence].
  destruct (tr_errors MAX_VALUE default_max_iterations m recipe true) as [[[t H] _]|[_ [X|X]]]; [|congruence|destruct X; apply positive_entry; assumption].
  assert (GD : forall a, exists g, gain_from_trade t a = Ok g).
  { intros a. destruct (tr_gain_errors _ _ _ _ _ a _ AL H) as [GE GT]. destruct (gain_from_trade t a) as [g|e|] eqn:E; [eauto| |congruence].
    destruct (proj1 (GE e) eq_refl) as (_ & _ & X). rewrite Forall_forall in FP. specialize (FP _ X). lia. }
  destruct (GD true) as (g & G). destruct (GD false) as (g' & G').
  destruct (tr_gain _ _ _ _ _ _ _ _ _ _ CAP AL H HO G) as (E & B & _ & R). specialize (E g' G'). specialize (R _ _ HO).
  destruct (tr_deals _ _ _ _ _ _ _ _ CAP AL H HO) as [D1 D2]. specialize (D2 _ _ HO).
  exists (mkOut (mt_num_of_deals deals) (mt_gain_from_trade deals) (num_of_deals t) g g'). split; [|split].
  - exists deals, rem, t. unfold trade_reduction. cbn. auto 10.
  - unfold fine. cbn [out_k out_opt out_deals out_total out_market]. split; [lia|]. split; [lra|]. split; [lra|]. split; [lra|exact R].
  - exact E.
Qed.

(** ** McAfee *)
Lemma mcafee_outcome : forall h recipe m, recipe <> [] -> all_ones recipe -> (length recipe <= 2)%nat \/ h = false -> tame recipe m ->
  exists o, raw (fun m r => mcafee m r h) recipe m o /\ fine o.
Proof.
  intros h recipe m NE O TWO (L & SM & AL & CAP & _).
  destruct (optimal_trade_errors default_max_iterations m recipe true) as [[[deals rem] [HO _]]|[_ X]]; [|congruence].
  destruct (mcafee_errors MAX_VALUE default_max_iterations m recipe h) as [[[t H] _]|[_ X]]; [destruct m; [destruct recipe; [congruence|discriminate]|discriminate]| |tauto].
  destruct (mcafee_gain _ _ _ _ _ _ _ _ H HO) as (g & g' & prices & G & G' & TP & E & U & R & _).
  assert (ND : 0 <= dot prices recipe).
  { destruct TWO as [TWO| ->]; [eapply mcafee_no_deficit_two; [rewrite <- L; exact TWO|exact H|exact TP]|eapply mcafee_no_deficit_plain; eassumption]. }
  assert (IR := mcafee_ir _ _ _ _ _ _ _ H TP).
  assert (N : 0 <= g').
  { unfold gain_from_trade in G'. destruct (tdeals t =? 0)%nat; [inversion G'; lra|]. eapply market_gain_nonneg; [exact TP| |exact G'].
    intros j c p v Hc Hp. exact (IR j c p v Hc Hp). }
  destruct (mcafee_traders _ _ _ _ _ _ _ _ H HO) as (D0 & D1 & D2 & _).
  exists (mkOut (mt_num_of_deals deals) (mt_gain_from_trade deals) (num_of_deals t) g g'). split.
  - exists deals, rem, t. unfold mcafee. cbn. auto 10.
  - unfold fine. cbn [out_k out_opt out_deals out_total out_market].
    assert (P := Qn_nonneg (num_of_deals t)). split; [|split; [exact N|split; [nra|split; [exact U|exact R]]]].
    destruct (Nat.eq_dec (mt_num_of_deals deals) 0) as [Z|Z]; [rewrite (D0 Z); lia|].
    destruct (Nat.eq_dec (num_of_deals t) (mt_num_of_deals deals)) as [Z1|Z1]; [lia|].
    rewrite D2; [lia|lia|]. destruct h; [right; intros X; apply Z1, D1; auto; lia|left; reflexivity].
Qed.

(** ** From the calls to the specification *)
Lemma raw_outcome : forall auction recipe m o, tame recipe m -> raw auction recipe m o -> outcome_of auction recipe m o.
Proof.
  intros auction recipe m o (L & _ & _ & CAP & _) (deals & rem & t & HO & K & OP & HA & D & G & G').
  destruct (optimality _ _ _ _ _ _ HO CAP) as [(DD & ED & OPT) _].
  destruct (optimal_trade_errors default_max_iterations m recipe false) as [[[dF rF] [HF _]]|[_ X]]; [|congruence].
  destruct (zero_flag _ _ _ _ _ _ _ HO HF CAP) as [_ ZF].
  split; [|split].
  - exists DD. split; [exact OPT|]. split; [rewrite <- K, <- ED; unfold mt_num_of_deals; rewrite map_length; reflexivity|].
    rewrite <- OP, <- ED. unfold mt_gain_from_trade, total_gain. rewrite map_map.
    clear. induction DD as [|d DD IH]; [reflexivity|]. cbn [map Qsum fold_right]. fold (Qsum (map deal_gain DD)). fold (Qsum (map (fun x => Qsum (concat x)) DD)).
    rewrite IH, deal_gain_concat. reflexivity.
  - intros D' HD'. rewrite <- K. apply ZF. exact HD'.
  - exists t. auto.
Qed.

Lemma outcomes_exist : forall auction recipe (P : iteration_outcome -> Prop) ms, Forall (tame recipe) ms ->
  (forall m, tame recipe m -> exists o, raw auction recipe m o /\ fine o /\ P o) ->
  exists os, Forall2 (raw auction recipe) ms os /\ Forall fine os /\ Forall P os.
Proof.
  intros auction recipe P ms H HX. induction H as [|m ms Hm H (os & A & B & C)]; [exists []; auto|].
  destruct (HX m Hm) as (o & X & Y & Z). exists (o :: os). auto.
Qed.

Lemma Forall2_det : forall auction recipe ms os os', Forall2 (raw auction recipe) ms os -> Forall2 (raw auction recipe) ms os' -> os = os'.
Proof.
  intros auction recipe ms os os' H. revert os'. induction H as [|m o ms os R H IH]; intros os' H'; inversion H' as [|? o' ? os'' R' H'']; subst; [reflexivity|].
  f_equal; [|apply IH; assumption].
  destruct R as (a & b & t & A1 & A2 & A3 & A4 & A5 & A6 & A7). destruct R' as (a' & b' & t' & B1 & B2 & B3 & B4 & B5 & B6 & B7).
  rewrite A1 in B1. injection B1 as <- <-. rewrite A4 in B4. injection B4 as <-. rewrite A6 in B6. injection B6. rewrite A7 in B7. injection B7.
  destruct o, o'. cbn in *. congruence.
Qed.

Lemma experiment_all : forall auction recipe (P : iteration_outcome -> Prop) samples,
  Forall (fun s => snd s <> [] /\ Forall (tame recipe) (snd s)) samples ->
  (forall m, tame recipe m -> exists o, raw auction recipe m o /\ fine o /\ P o) ->
  exists rows, experiment auction recipe samples = Ok rows
  /\ Forall2 (fun s r => num_of_agents r = fst s /\ row_bounds r
       /\ (exists os, Forall2 (outcome_of auction recipe) (snd s) os /\ Forall P os /\ row_averages os r /\ row_ratio os r
           /\ (Forall (fun o => out_market o == out_total o) os ->
               mean_auction_market_gft r == mean_auction_total_gft r /\ market_gft_ratio r == total_gft_ratio r))) samples rows.
Proof.
  intros auction recipe P samples HS HX. destruct (experiment_ok auction recipe samples) as (rows & E & F).
  - eapply Forall_impl; [|exact HS]. intros [n ms] [A B]. cbn [snd] in *. split; [exact A|].
    destruct (outcomes_exist auction recipe P ms B HX) as (os & X & Y & _). eauto.
  - exists rows. split; [exact E|]. clear E. induction F as [|[n ms] r samples rows (A & os & B & C & D1 & D2 & D3 & D4) F IH]; constructor.
    + cbn [fst snd] in *. split; [exact A|]. inversion HS as [|? ? [_ TM] _]; subst. cbn [snd] in TM. split; [exact D2|].
      destruct (outcomes_exist auction recipe P ms TM HX) as (os' & X & _ & Z).
      rewrite (Forall2_det _ _ _ _ _ X B) in Z. exists os. split; [|auto].
      clear - B TM. induction B as [|m o ms os R B IH]; constructor; inversion TM; subst; auto. apply raw_outcome; assumption.
    + apply IH. inversion HS; assumption.
Qed.
