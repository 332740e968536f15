(** * Prices in a better market (C112): trade reduction with a recipe of ones *)

From Coq Require Import String List Arith Lia QArith Lqa Permutation Sorted.
From Verif Require Import Base Model_Agents Model_Prices Model_Trade Model_Market Model_Ascending Model_TradeReduction Model_McAfee
  Spec_Market Spec_Trade Spec_Ascending Spec_TradeReduction Spec_McAfee Spec_Demos Spec_Statics Spec_Reorder Proof_Market Proof_Trade Proof_Prices Proof_Ascending
  Proof_Ascending2 Proof_Ascending3 Proof_Ascending4 Proof_Deals Proof_Statics
  Proof_TR Proof_TR2 Proof_TR3 Proof_TR4 Proof_TR5 Proof_TR6 Proof_TR8 Proof_McAfee2 Proof_Many Proof_Stable3 Proof_TA10 Proof_Better.
Import ListNotations.
Open Scope Q_scope.

Lemma tr_orderly : forall M cap m recipe z t dealsz remz, 0 < M -> cap_suffices cap m recipe -> values_small M recipe m ->
  all_ones recipe -> trade_reduction_M M cap m recipe z = Ok t -> optimal_trade cap m recipe z = Ok (dealsz, remz) -> dealsz <> [] ->
  exists P f, tprices t = Some P /\ length P = length m /\ length recipe = length m /\ (forall c, (c < length m)%nat -> nth c P 0 == f c)
    /\ orderly M recipe (vals (clone_market m)) f /\ ended recipe (vals (clone_market m)) f.
Proof.
  intros M cap m recipe z t dealsz remz HM Hcap Hsm H1 Ht Ez NE.
  assert (Hv : values_at_least (- M) m) by apply Hsm.
  destruct (tr_decides M cap m recipe z t dealsz remz Hcap Hv H1 Ht Ez) as (Hl & Hnt & kz & Lz & Hz & Hcase).
  destruct Hcase as [(X & _)|(i & ns & P & W & Hcat & HP & HQ & Hi)]; [destruct dealsz; [congruence|cbn in Lz; lia]|].
  destruct kz as [|j]; [destruct dealsz; [congruence|cbn in Lz; lia]|].
  set (m' := clone_market m) in *. set (n := length m) in *.
  assert (Lm' : length m' = n) by apply clone_length.
  assert (Hs' : sorted_market m') by apply clone_sorted.
  assert (Hl' : length recipe = length m') by congruence.
  assert (Hv' : values_at_least (- M) m') by (apply values_at_least_clone; assumption).
  assert (Hcap' : cap_suffices cap m' recipe) by (apply cap_clone; assumption).
  assert (R1 : forall c, (c < n)%nat -> nth c recipe 0%nat = 1%nat) by (intros c Hc; apply all_ones_nth; [assumption|lia]).
  assert (EB : at_block (S j) recipe = front j 0 n).
  { apply list_nat_ext; [unfold at_block; rewrite map_length, front_length; exact Hl|]. intros c. rewrite at_block_nth.
    destruct (lt_dec c n) as [L|L].
    - rewrite front_nth by assumption. rewrite R1 by assumption. simpl. lia.
    - rewrite (nth_overflow (front j 0 n)) by (rewrite front_length; lia). rewrite (nth_overflow recipe) by lia. lia. }
  assert (EO : tr_order (S j) recipe = seq 0 n ++ tr_order j recipe).
  { unfold tr_order. cbn [repeat concat]. f_equal. unfold pivot_categories. rewrite ones_pivots by assumption. f_equal. exact Hl. }
  assert (Hacc : acceptable z (psum M m' recipe (front j n n))).
  { eapply acceptable_le; [|apply (proj1 (proj2 (proj2 Hz)) j (Nat.lt_succ_diag_r j))].
    replace (front j n n) with (at_block j recipe); [apply psum_at_block; [assumption|assumption|apply Hz]|].
    apply list_nat_ext; [unfold at_block; rewrite map_length, front_length; exact Hl|]. intros c. rewrite at_block_nth.
    destruct (lt_dec c n) as [L|L].
    - rewrite front_nth by assumption. destruct (Nat.ltb_spec c n); [|lia]. rewrite R1 by lia. lia.
    - rewrite (nth_overflow (front j n n)) by (rewrite front_length; lia). rewrite (nth_overflow recipe) by lia. lia. }
  destruct (walk_last _ _ _ _ _ _ _ _ W) as (AC & ST & _).
  assert (AC0 : 0 <= psum M m' recipe (dec i ns)) by (apply acceptable_nonneg in AC; exact AC).
  assert (NEG : psum M m' recipe ns <= 0).
  { destruct ST as [->|ST]; [|apply not_acceptable in ST; exact ST].
    destruct (enough_dec (S (S j)) m' recipe) as [E|E].
    - assert (X := later_unacceptable cap (S j) m' recipe z Hs' Hcap' Hz (S j) (le_n _) E). apply not_acceptable in X.
      eapply Qle_trans; [|exact X]. apply psum_le_gain; try assumption. intros c Hc _. rewrite at_block_nth, R1 by lia. lia.
    - destruct (not_enough_exhausted (S j) m' recipe Hl' H1 (proj1 (proj2 Hz)) E) as (c & Hc & Ec).
      apply Qlt_le_weak. apply (untouched_negative M m' recipe Hl' _ c (small_clone_market _ _ _ Hsm)).
      + lia.
      + rewrite R1; lia.
      + rewrite at_block_nth, R1 by lia. lia. }
  destruct n as [|n'] eqn:En; [lia|]. rewrite <- En in *.
  destruct (walk_front M m' recipe z j n (tr_order j recipe) Hacc n' 0%nat) as (i0 & Hi0 & W0 & A0 & N0); [lia|].
  rewrite EB, EO in W. rewrite <- En in W0. rewrite W in W0. inversion W0; subst i ns. clear W0.
  assert (Hen : forall c, (c < n)%nat -> (S j <= length (vals m' c))%nat).
  { intros c Hc. assert (X := proj1 (enough_nth _ m' recipe Hl') (proj1 (proj2 Hz)) c ltac:(lia)). rewrite R1 in X by lia. lia. }
  assert (SJ : forall c, desc (vals m' c)).
  { intros c. destruct (lt_dec c (length m')) as [L|L]; [|rewrite vals_out by lia; constructor].
    eapply sorted_market_nth; [exact Hs'|]. apply nth_error_nth'. assumption. }
  set (ns := front j i0 n) in *.
  assert (NS : forall c, (c < n)%nat -> nth c ns 0%nat = if (c <? i0)%nat then j else S j) by (intros c Hc; apply front_nth; assumption).
  set (f := fp M m' recipe ns (Some i0)).
  assert (FO : forall c, (c < n)%nat -> c <> i0 -> f c = pr M m' ns c).
  { intros c Hc N. unfold f. apply fp_other; [lia|congruence]. }
  assert (FM : f i0 = bal M m' recipe ns i0) by (apply fp_main; lia).
  assert (BE := bal_eq M m' recipe Hl' ns i0 ltac:(rewrite R1; lia)). rewrite R1 in BE by lia. rewrite <- FM in BE.
  rewrite (psum_dec M m' recipe ns i0) in AC0 by lia. rewrite R1 in AC0 by lia. rewrite Qn_1 in *.
  assert (NI : nth i0 ns 0%nat = S j) by (rewrite NS by lia; rewrite Nat.ltb_irrefl; reflexivity).
  rewrite NI in AC0. replace (S j - 1)%nat with j in AC0 by lia.
  assert (LO : pr M m' ns i0 <= f i0) by lra. assert (HI2 : f i0 <= nth j (vals m' i0) (- M)) by lra.
  assert (PM : forall c, - M <= pr M m' ns c).
  { intros c. unfold pr. destruct (le_lt_dec (length (vals m' c)) (nth c ns 0%nat)) as [L|L]; [rewrite nth_overflow by assumption; lra|].
    destruct (lt_dec c (length m')) as [J|J]; [|rewrite vals_out in L by lia; simpl in L; lia].
    apply (Hv' (nth c m' dcat)); [apply nth_In; assumption|]. apply nth_In. exact L. }
  assert (FL : forall c, (c < n)%nat -> pr M m' ns c <= f c).
  { intros c Hc. destruct (Nat.eq_dec c i0) as [->|N]; [assumption|]. rewrite FO by assumption. lra. }
  assert (EX : forall c, (c < n)%nat -> (exceed (f c) (vals m' c) <= nth c ns 0)%nat).
  { intros c Hc. apply (exceed_rank_le _ _ (- M)); [apply SJ| |right; apply FL; assumption]. specialize (Hen c Hc). rewrite NS by assumption. destruct (c <? i0)%nat; lia. }
  exists P, f. split; [assumption|]. split; [|split; [assumption|split; [|split]]].
  - rewrite (qeq_length _ _ HQ). unfold final_prices. rewrite set_nth_length. unfold prices_of. rewrite map_length, seq_length. exact Lm'.
  - intros c Hc. unfold f, fp. clear -HQ. revert c. induction HQ as [|x y l l' H HQ IH]; intros [|c]; cbn [nth]; try reflexivity; [assumption|apply IH].
  - intros c [Hc _]. assert (Hcn : (c < n)%nat) by lia. split; [specialize (FL c Hcn); specialize (PM c); lra|].
    intros p Mp Lp.
    assert (G : (S (if (c <? i0)%nat then j else if (c =? i0)%nat then j else S j) <= exceed p (vals m' c))%nat).
    { destruct (Nat.eq_dec c i0) as [->|N].
      - rewrite Nat.ltb_irrefl, Nat.eqb_refl. apply (exceed_rank _ _ (- M)); [apply SJ|specialize (Hen i0 Hcn); lia|lra].
      - destruct (Nat.eqb_spec c i0) as [|_]; [contradiction|]. rewrite FO in Lp by assumption. unfold pr in Lp. rewrite NS in Lp by assumption.
        destruct (le_lt_dec (length (vals m' c)) (if (c <? i0)%nat then j else S j)) as [L|L]; [rewrite nth_overflow in Lp by assumption; lra|].
        apply (exceed_rank _ _ (- M)); [apply SJ|assumption|assumption]. }
    split; [lia|]. intros d [Hd _] N. assert (Hdn : (d < n)%nat) by lia. assert (X := EX d Hdn). rewrite NS in X by assumption.
    unfold ahead. rewrite !R1 by assumption. destruct (Nat.ltb_spec c i0), (Nat.ltb_spec d i0), (Nat.eqb_spec c i0); lia.
  - assert (Z : wdot f recipe == 0).
    { set (h := fun c => if Nat.eq_dec c i0 then f i0 else pr M m' ns c).
      assert (E1 : wdot f recipe == wdot h recipe).
      { apply wdot_ext. intros c Hc _. unfold h. destruct (Nat.eq_dec c i0) as [->|N]; [reflexivity|]. rewrite FO by (assumption || lia). reflexivity. }
      assert (E2 : wdot h recipe == wdot (pr M m' ns) recipe + Qn (nth i0 recipe 0%nat) * (h i0 - pr M m' ns i0)).
      { apply wdot_update; [lia|]. intros c N. unfold h. destruct (Nat.eq_dec c i0) as [|_]; [contradiction|reflexivity]. }
      fold (psum M m' recipe ns) in E2. rewrite R1, Qn_1 in E2 by lia. unfold h at 2 in E2. destruct (Nat.eq_dec i0 i0) as [_|X]; [|congruence]. lra. }
    split; [lra|left; assumption].
Qed.

Theorem reduction_better : forall M cap m m' recipe z t t' deals rem P P', 0 < M -> all_ones recipe ->
  values_small M recipe m -> values_small M recipe m' -> cap_suffices cap m recipe -> cap_suffices cap m' recipe ->
  improves m m' -> trade_reduction_M M cap m recipe z = Ok t -> trade_reduction_M M cap m' recipe z = Ok t' ->
  optimal_trade cap m recipe z = Ok (deals, rem) -> deals <> [] -> tprices t = Some P -> tprices t' = Some P' ->
  (forall j, (j < length m)%nat -> Permutation (cvalues (nth j m no_category)) (cvalues (nth j m' no_category)) -> nth j P' 0 <= nth j P 0)
  /\ (forall c, (c < length m)%nat -> (forall j, (j < length m)%nat -> j <> c -> Permutation (cvalues (nth j m no_category)) (cvalues (nth j m' no_category))) ->
     nth c P 0 <= nth c P' 0).
Proof.
  intros M cap m m' recipe z t t' deals rem P P' HM H1 Hsm Hsm' Hcap Hcap' HI Ht Ht' Ez NE HP HP'.
  assert (LM : length m = length m').
  { clear -HI. induction HI; [reflexivity|simpl; congruence]. }
  destruct (tr_orderly M cap m recipe z t deals rem HM Hcap Hsm H1 Ht Ez NE) as (P0 & f & EP & LP & LR & EF & OR & EN).
  assert (E0 : P0 = P) by congruence. subst P0.
  assert (OK' : exists r, optimal_trade cap m' recipe z = Ok r).
  { destruct (optimal_trade_spec cap m' recipe z) as (k & E & _); [congruence|]. eexists. exact E. }
  destruct OK' as [[deals' rem'] Ez'].
  assert (NE' : deals' <> []).
  { intros ->. destruct (optimal_improves cap m m' recipe z deals rem [] rem' HI Ez Ez') as [X _]. destruct deals; [congruence|cbn in X; lia]. }
  destruct (tr_orderly M cap m' recipe z t' deals' rem' HM Hcap' Hsm' H1 Ht' Ez' NE') as (P0' & f' & EP' & LP' & LR' & EF' & OR' & EN').
  assert (E0' : P0' = P') by congruence. subst P0'.
  assert (HX : forall k p, used_by recipe k -> (exceed p (vals (clone_market m) k) <= exceed p (vals (clone_market m') k))%nat).
  { intros k p _. rewrite (exceed_perm p _ _ (Proof_Better.vals_clone m k)), (exceed_perm p _ _ (Proof_Better.vals_clone m' k)). apply improves_exceed, improves_nth. assumption. }
  assert (SAME : forall j, Permutation (cvalues (nth j m no_category)) (cvalues (nth j m' no_category)) ->
    forall p, exceed p (vals (clone_market m') j) = exceed p (vals (clone_market m) j)).
  { intros j HJ p. rewrite (exceed_perm p _ _ (Proof_Better.vals_clone m j)), (exceed_perm p _ _ (Proof_Better.vals_clone m' j)). symmetry. apply exceed_perm. exact HJ. }
  assert (U : forall j, (j < length m)%nat -> used_by recipe j).
  { intros j Hj. split; [lia|]. rewrite (all_ones_nth recipe j H1) by lia. lia. }
  split.
  - intros j Hj HJ. rewrite EF, EF' by lia. apply (others_down M recipe _ _ f f' OR OR' EN EN' HX j (U j Hj) (SAME j HJ)).
  - intros c Hc HK. rewrite EF, EF' by lia. apply (own_up M recipe _ _ f f' OR OR' EN EN' HX c (U c Hc)).
    intros j [Hj _] N. apply SAME. apply HK; [lia|assumption].
Qed.

(** ** McAfee's protocol without the heuristic: the prices are the values of the last optimal deal *)

Theorem mcafee_better : forall M cap m m' recipe t t' deals rem P P', improves m m' ->
  mcafee_M M cap m recipe false = Ok t -> mcafee_M M cap m' recipe false = Ok t' ->
  optimal_trade cap m recipe true = Ok (deals, rem) -> deals <> [] -> tprices t = Some P -> tprices t' = Some P' ->
  forall j, (j < length m)%nat -> Permutation (cvalues (nth j m no_category)) (cvalues (nth j m' no_category)) -> nth j P' 0 <= nth j P 0.
Proof.
  intros M cap m m' recipe t t' deals rem P P' HI H H' Eo NE HP HP' j Hj HJ.
  assert (LM : length m = length m').
  { clear -HI. induction HI; [reflexivity|simpl; congruence]. }
  destruct (mcafee_optimal _ _ _ _ _ _ H') as (deals' & rem' & Eo').
  destruct (mcafee_traders _ _ _ _ _ _ _ _ H Eo) as (_ & _ & D & _ & _ & Q & EQ & LQ & F). assert (Q = P) by congruence. subst Q.
  destruct (mcafee_traders _ _ _ _ _ _ _ _ H' Eo') as (_ & _ & D' & _ & _ & Q' & EQ' & LQ' & F'). assert (Q' = P') by congruence. subst Q'.
  destruct (optimal_improves _ _ _ _ _ _ _ _ _ HI Eo Eo') as [LE _].
  unfold mt_num_of_deals in *. assert (K0 : (0 < length deals)%nat) by (destruct deals; [congruence|cbn; lia]).
  specialize (D K0 (or_introl eq_refl)). specialize (D' ltac:(lia) (or_introl eq_refl)).
  assert (Hj' : (j < length m')%nat) by lia. assert (HP1 : (j < length P)%nat) by lia. assert (HP2 : (j < length P')%nat) by lia.
  assert (N := nth_error_nth' m no_category Hj). assert (N' := nth_error_nth' m' no_category Hj').
  assert (R := nth_error_nth' P 0 HP1). assert (R' := nth_error_nth' P' 0 HP2).
  destruct (F _ _ _ N R K0) as [_ X]. destruct (F' _ _ _ N' R' ltac:(lia)) as [_ X'].
  rewrite X by lia. rewrite X' by lia. unfold ranked.
  assert (ES : Forall2 Qeq (sort_desc (cvalues (nth j m' no_category))) (sort_desc (cvalues (nth j m no_category)))).
  { eapply desc_qeq; [apply sort_desc_desc|apply sort_desc_desc| |apply qeq_refl]. eapply perm_trans; [apply sort_desc_perm|].
    eapply perm_trans; [apply Permutation_sym, HJ|]. apply Permutation_sym, sort_desc_perm. }
  assert (EN : nth (length deals' - 1) (sort_desc (cvalues (nth j m' no_category))) 0 == nth (length deals' - 1) (sort_desc (cvalues (nth j m no_category))) 0).
  { clear -ES. generalize (length deals' - 1)%nat. induction ES as [|x y l l' E ES IH]; intros [|k]; cbn [nth]; try reflexivity; [assumption|apply IH]. }
  rewrite EN. destruct (optimal_trade_shape _ _ _ _ _ _ Eo') as (k' & (_ & EN' & _) & Lk' & _).
  destruct (mcafee_ok_inv _ _ _ _ _ _ H') as (_ & LR & ON).
  assert (SZ : (length deals' <= length (sort_desc (cvalues (nth j m no_category))))%nat).
  { assert (Y := proj1 (enough_nth _ (clone_market m') recipe ltac:(rewrite clone_length; exact LR)) EN' j ltac:(lia)).
    rewrite (all_ones_nth recipe j ON) in Y by lia. rewrite (Permutation_length (Proof_Better.vals_clone m' j)) in Y.
    rewrite sort_desc_length. rewrite (Permutation_length HJ). change dcat with no_category in Y. lia. }
  apply desc_nth; [apply sort_desc_desc|lia|lia].
Qed.
