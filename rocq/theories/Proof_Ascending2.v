(** * Invariants of the ascending auction: budget, rationality, monotonicity *)

From Coq Require Import String List Arith Lia QArith Lqa Permutation Sorted Bool.
From Verif Require Import Base Model_Agents Model_Trade Model_Prices Model_Market Model_Ascending
  Spec_Market Spec_Trade Spec_Ascending Proof_Market Proof_Trade Proof_Prices Proof_Ascending.
Import ListNotations.
Open Scope Q_scope.

Lemma wdot_const : forall c recipe, wdot (fun _ => c) recipe == c * Qn (nsum recipe).
Proof.
  intros c recipe. induction recipe as [|r recipe IH]; [unfold wdot; simpl; rewrite Qn_0; ring|].
  unfold wdot in *. cbn [length seq map]. rewrite seq_map_shift, Qsum_cons. cbn [nth nsum fold_right].
  fold (nsum recipe). rewrite IH, Qn_plus. ring.
Qed.

Lemma nsum_pos : forall recipe j, (0 < nth j recipe 0)%nat -> (0 < nsum recipe)%nat.
Proof.
  induction recipe as [|r recipe IH]; intros [|j] H; simpl in *; try lia.
  specialize (IH j H). lia.
Qed.

Lemma psum_start : forall M m recipe, length recipe = length m ->
  psum M m recipe (sizes0 m) == - M * Qn (nsum recipe).
Proof.
  intros. rewrite <- wdot_const. unfold psum. apply wdot_ext. intros j _ _.
  unfold pr. rewrite sizes0_nth, nth_overflow by lia. reflexivity.
Qed.

Lemma choice_spec : forall recipe ns main, choice recipe ns = Ok main ->
  (main < length recipe)%nat /\ (0 < nth main recipe 0)%nat /\
  forall j, (j < length recipe)%nat -> (0 < nth j recipe 0)%nat ->
    (nth j ns 0 * nth main recipe 0 <= nth main ns 0 * nth j recipe 0)%nat.
Proof.
  intros recipe ns main H. apply argmax_spec in H. destruct H as [H1 H2].
  apply relevant_In in H1. destruct H1 as [H1 H3]. split; [assumption|]. split; [assumption|].
  intros j Hj Hr. specialize (H2 j (proj2 (relevant_In _ _) (conj Hj Hr))). unfold ratio in H2.
  apply Qn_le. rewrite !Qn_mult.
  assert (A := Qn_pos _ Hr). assert (B := Qn_pos _ H3).
  set (a := Qn (nth j ns 0%nat)) in *. set (b := Qn (nth j recipe 0%nat)) in *.
  set (c := Qn (nth main ns 0%nat)) in *. set (d := Qn (nth main recipe 0%nat)) in *.
  assert (E1 : a * d == (a / b) * (b * d)) by (field; lra).
  assert (E2 : c * b == (c / d) * (b * d)) by (field; lra).
  rewrite E1, E2. apply Qmult_le_compat_r; [assumption|]. nra.
Qed.

(** ** Outcomes *)

Definition outcome (M : Q) (m : market) (recipe ns : list nat) (stop : option nat) : Prop :=
  exists fuel, abs_loop M fuel m recipe (sizes0 m) = Ok (ns, stop).

Section Outcome.
  Variables (M : Q) (m : market) (recipe : list nat).
  Hypothesis HM : 0 < M.
  Hypothesis Hl : length recipe = length m.
  Hypothesis Hpos : exists j, (j < length recipe)%nat /\ (0 < nth j recipe 0)%nat.

  Lemma start_negative : psum M m recipe (sizes0 m) < 0.
  Proof.
    rewrite psum_start by assumption. destruct Hpos as [j [_ Hj]].
    assert (0 < Qn (nsum recipe)) by (apply Qn_pos; eapply nsum_pos; eassumption). nra.
  Qed.

  Lemma outcome_inv : forall ns stop, outcome M m recipe ns stop ->
    sizes_ok m ns /\ psum M m recipe ns < 0 /\ stopped M m recipe ns stop.
  Proof.
    intros ns stop [fuel H].
    apply (abs_loop_ind M m recipe (fun ns => sizes_ok m ns /\ psum M m recipe ns < 0)) in H; [tauto| |].
    - split; [apply sizes0_ok|apply start_negative].
    - intros a b [H1 H2] [main [_ [_ [H3 ->]]]]. split; [apply dec_ok; assumption|assumption].
  Qed.

  Lemma final_length : forall ns stop, length (final_prices M m recipe ns stop) = length m.
  Proof.
    intros ns [main|]; unfold final_prices; rewrite ?set_nth_length; apply prices_length.
  Qed.

  Definition fp (ns : list nat) (stop : option nat) (j : nat) : Q :=
    nth j (final_prices M m recipe ns stop) 0.

  Lemma fp_other : forall ns stop j, (j < length m)%nat -> stop <> Some j ->
    fp ns stop j = pr M m ns j.
  Proof.
    intros ns [main|] j Hj Hne; unfold fp, final_prices.
    - rewrite nth_set_nth_other by congruence. unfold prices_of. apply nth_map_seq. assumption.
    - unfold prices_of. apply nth_map_seq. assumption.
  Qed.

  Lemma fp_main : forall ns main, (main < length m)%nat -> fp ns (Some main) main = bal M m recipe ns main.
  Proof.
    intros. unfold fp, final_prices. apply nth_set_nth_same. rewrite prices_length. assumption.
  Qed.

  Lemma bal_eq : forall ns main, (0 < nth main recipe 0)%nat ->
    Qn (nth main recipe 0%nat) * bal M m recipe ns main
    == Qn (nth main recipe 0%nat) * pr M m ns main - psum M m recipe ns.
  Proof.
    intros ns main Hr. unfold bal. assert (H := Qn_pos _ Hr).
    rewrite prices_psum by assumption. field. lra.
  Qed.

  Lemma psum_dec : forall ns main, (main < length recipe)%nat ->
    psum M m recipe (dec main ns)
    == psum M m recipe ns + Qn (nth main recipe 0%nat) * (nth (nth main ns 0 - 1)%nat (vals m main) (- M) - pr M m ns main).
  Proof.
    intros ns main Hi. unfold psum.
    rewrite (wdot_update (pr M m ns) (pr M m (dec main ns)) recipe main Hi).
    - unfold pr at 2. rewrite nth_dec_same. reflexivity.
    - intros j Hj. unfold pr. rewrite nth_dec_other by auto. reflexivity.
  Qed.

  Lemma bal_bounds : forall ns main, (main < length recipe)%nat -> (0 < nth main recipe 0)%nat ->
    psum M m recipe ns < 0 -> 0 <= psum M m recipe (dec main ns) ->
    pr M m ns main < bal M m recipe ns main
    /\ bal M m recipe ns main <= nth (nth main ns 0 - 1)%nat (vals m main) (- M).
  Proof.
    intros ns main Hi Hr H1 H2. assert (E := bal_eq ns main Hr). rewrite psum_dec in H2 by assumption.
    assert (H := Qn_pos _ Hr). set (r := Qn (nth main recipe 0%nat)) in *.
    set (b := bal M m recipe ns main) in *. set (p := pr M m ns main) in *.
    set (low := nth (nth main ns 0 - 1)%nat (vals m main) (- M)) in *. set (S := psum M m recipe ns) in *.
    split.
    - apply Qnot_le_lt. intros X. assert (r * b <= r * p) by (apply Qmult_le_l; assumption). lra.
    - apply Qnot_lt_le. intros X. assert (r * low < r * b) by (apply Qmult_lt_l; assumption). lra.
  Qed.

  (** Zero price-sum at a zero-sum stop. *)
  Lemma final_zero : forall ns main, outcome M m recipe ns (Some main) ->
    dot (final_prices M m recipe ns (Some main)) recipe == 0.
  Proof.
    intros ns main H. apply outcome_inv in H. destruct H as [Hok [Hneg [main' [Hch [[H _]|[H [H1 H2]]]]]]]; [discriminate|].
    inversion H; subst main'. clear H. apply choice_spec in Hch. destruct Hch as [Hi [Hr _]].
    cbn [final_prices].
    rewrite (dot_set_nth main (bal M m recipe ns main) (prices_of M m ns) recipe (nth main recipe 0%nat) (pr M m ns main)).
    - rewrite prices_psum by assumption. assert (E := bal_eq ns main Hr). lra.
    - unfold prices_of. apply nth_error_map_seq. lia.
    - apply nth_error_nth'. assumption.
  Qed.

  Lemma final_zero_wdot : forall ns main, outcome M m recipe ns (Some main) ->
    wdot (fp ns (Some main)) recipe == 0.
  Proof.
    intros ns main H. rewrite <- (final_zero ns main H).
    rewrite dot_wdot by (rewrite final_length; auto). reflexivity.
  Qed.

  (** The final price is at least the price at the last departure. *)
  Lemma fp_lower : forall ns stop j, outcome M m recipe ns stop -> (j < length m)%nat ->
    pr M m ns j <= fp ns stop j.
  Proof.
    intros ns stop j H Hj. assert (H' := H). apply outcome_inv in H.
    destruct H as [Hok [Hneg [main [Hch [[H _]|[H [H1 H2]]]]]]].
    - subst. rewrite fp_other by (auto; discriminate). lra.
    - subst. destruct (Nat.eq_dec main j) as [->|Hne].
      + rewrite fp_main by assumption. apply choice_spec in Hch. destruct Hch as [Hi [Hr _]].
        destruct (bal_bounds ns j Hi Hr Hneg H2). lra.
      + rewrite fp_other by (auto; congruence). lra.
  Qed.

  (** Individual rationality: touched categories, or all of them if values are at least -M. *)
  Lemma fp_upper : forall ns stop j, outcome M m recipe ns stop -> sorted_market m -> (j < length m)%nat ->
    (0 < nth j ns 0)%nat ->
    (nth j ns 0 < length (vals m j) \/ stop = Some j \/ values_at_least (- M) m)%nat ->
    fp ns stop j <= nth (nth j ns 0 - 1)%nat (vals m j) (- M).
  Proof.
    intros ns stop j H Hs Hj Hn Hc. apply outcome_inv in H.
    destruct H as [Hok [Hneg [main [Hch Hst]]]].
    assert (Hsj : desc (vals m j)).
    { eapply sorted_market_nth; [exact Hs|]. apply nth_error_nth'. assumption. }
    assert (Hnj : (nth j ns 0 <= length (vals m j))%nat) by apply Hok.
    assert (Hpr : stop <> Some j -> fp ns stop j <= nth (nth j ns 0 - 1)%nat (vals m j) (- M)).
    { intros Hne. rewrite fp_other by assumption. unfold pr.
      destruct (le_lt_dec (length (vals m j)) (nth j ns 0%nat)) as [Hge|Hlt].
      - rewrite nth_overflow by assumption. destruct Hc as [Hc|[Hc|Hc]]; [lia|congruence|].
        apply (Hc (nth j m dcat)); [apply nth_In; assumption|]. unfold vals. apply nth_In.
        unfold vals in *. lia.
      - apply desc_nth; [assumption|lia|assumption]. }
    destruct Hst as [[-> _]|[-> [H1 H2]]]; [apply Hpr; discriminate|].
    destruct (Nat.eq_dec main j) as [->|Hne]; [|apply Hpr; congruence].
    rewrite fp_main by assumption. apply choice_spec in Hch. destruct Hch as [Hi [Hr _]].
    apply bal_bounds; assumption.
  Qed.

  (** All agents left are worth at least the price. *)
  Lemma left_rational : forall ns stop j v, outcome M m recipe ns stop -> sorted_market m ->
    values_at_least (- M) m -> (j < length m)%nat ->
    In v (firstn (nth j ns 0%nat) (vals m j)) -> fp ns stop j <= v.
  Proof.
    intros ns stop j v H Hs Hv Hj Hin.
    assert (Hok := proj1 (outcome_inv ns stop H)).
    assert (Hnj : (nth j ns 0 <= length (vals m j))%nat) by apply Hok.
    assert (Hn : (0 < nth j ns 0)%nat).
    { destruct (nth j ns 0%nat); [destruct Hin|lia]. }
    eapply Qle_trans; [apply fp_upper; eauto|].
    apply In_nth with (d := - M) in Hin. destruct Hin as [x [Hx <-]].
    rewrite firstn_length_le in Hx by assumption.
    assert (E : nth x (firstn (nth j ns 0%nat) (vals m j)) (- M) = nth x (vals m j) (- M)).
    { rewrite <- (firstn_skipn (nth j ns 0%nat) (vals m j)) at 2.
      rewrite app_nth1; [reflexivity|]. rewrite firstn_length_le; assumption. }
    rewrite E. apply desc_nth; [|lia|lia].
    eapply sorted_market_nth; [exact Hs|]. apply nth_error_nth'. assumption.
  Qed.

  (** Everybody who left is worth at most the price. *)
  Lemma gone_bounded : forall ns stop j v, outcome M m recipe ns stop -> sorted_market m ->
    (j < length m)%nat -> In v (skipn (nth j ns 0%nat) (vals m j)) -> v <= fp ns stop j.
  Proof.
    intros ns stop j v H Hs Hj Hin. eapply Qle_trans; [|apply fp_lower; eassumption].
    unfold pr. apply In_nth with (d := - M) in Hin. destruct Hin as [x [Hx <-]].
    rewrite skipn_length in Hx.
    assert (E : nth x (skipn (nth j ns 0%nat) (vals m j)) (- M) = nth (nth j ns 0 + x)%nat (vals m j) (- M)).
    { rewrite <- (firstn_skipn (nth j ns 0%nat) (vals m j)) at 2.
      rewrite app_nth2; rewrite firstn_length_le by lia; [|lia]. f_equal. lia. }
    rewrite E. apply desc_nth; [|lia|lia].
    eapply sorted_market_nth; [exact Hs|]. apply nth_error_nth'. assumption.
  Qed.

  (** If the loop stopped because of an empty category there are no deals. *)
  Lemma empty_stop : forall ns, outcome M m recipe ns None ->
    forall j, (j < length recipe)%nat -> (0 < nth j recipe 0)%nat -> nth j ns 0%nat = 0%nat.
  Proof.
    intros ns H j Hj Hr. apply outcome_inv in H.
    destruct H as [Hok [Hneg [main [Hch [[_ H]|[H _]]]]]]; [|discriminate].
    apply choice_spec in Hch. destruct Hch as [Hi [Hr' Hm]]. specialize (Hm j Hj Hr).
    rewrite H in Hm. nia.
  Qed.
End Outcome.

Lemma has_positive : forall recipe, has_positive_entry recipe <->
  exists j, (j < length recipe)%nat /\ (0 < nth j recipe 0)%nat.
Proof.
  intros recipe. split.
  - intros [i [r [H1 H2]]]. exists i. split; [apply nth_error_Some; congruence|].
    rewrite (nth_error_nth _ _ _ H1). assumption.
  - intros [j [H1 H2]]. exists j, (nth j recipe 0%nat). split; [apply nth_error_nth'; assumption|assumption].
Qed.

Lemma no_positive : forall recipe, ~ has_positive_entry recipe -> relevant_indices recipe = [].
Proof.
  intros recipe H. destruct (relevant_indices recipe) as [|i l] eqn:E; [reflexivity|].
  exfalso. apply H. apply has_positive. exists i. apply relevant_In. rewrite E. left. reflexivity.
Qed.

Lemma has_positive_dec : forall recipe, {has_positive_entry recipe} + {~ has_positive_entry recipe}.
Proof.
  intros recipe. destruct (relevant_indices recipe) as [|i l] eqn:E.
  - right. rewrite has_positive. intros [j H]. apply relevant_In in H. rewrite E in H. destruct H.
  - left. apply has_positive. exists i. apply relevant_In. rewrite E. left. reflexivity.
Qed.

(** C10 *)
Theorem ascending_terminates : forall M fuel m recipe, (total_agents m < fuel)%nat ->
  (exists t, ascending_auction_M M fuel m recipe = Ok t
             /\ length recipe = length m /\ has_positive_entry recipe)
  \/ (ascending_auction_M M fuel m recipe = Raise ValueError
      /\ (length recipe <> length m \/ ~ has_positive_entry recipe)).
Proof.
  intros M fuel m recipe Hf.
  destruct (Nat.eq_dec (length recipe) (length m)) as [Hl|Hl].
  - destruct (has_positive_dec recipe) as [Hp|Hp].
    + left. destruct (auction_spec M m recipe Hl (proj1 (has_positive _) Hp) fuel Hf) as [ns [stop [t [_ [Ht _]]]]].
      eauto.
    + right. split; [|auto]. unfold ascending_auction_M. rewrite Hl, Nat.eqb_refl.
      destruct fuel as [|fuel]; [lia|]. cbn [ascending_loop]. unfold ascending_start, ascending_round.
      rewrite no_positive by assumption. reflexivity.
  - right. split; [|auto]. unfold ascending_auction_M.
    destruct (Nat.eqb_spec (length recipe) (length m)); [contradiction|reflexivity].
Qed.

(** More fuel does not change the result: the loop really stopped. *)
Lemma ascending_loop_mono : forall fuel k recipe s s', ascending_loop fuel recipe s = Ok s' ->
  ascending_loop (fuel + k) recipe s = Ok s'.
Proof.
  induction fuel as [|fuel IH]; intros k recipe s s' H; [discriminate|].
  cbn [ascending_loop Nat.add] in *. destruct (ascending_round recipe s) as [[b s1]|e|]; try discriminate.
  cbn [bind fst snd] in *. destruct b; [assumption|]. apply IH. assumption.
Qed.

(** The common set-up of the theorems about the result of the auction. *)
Lemma auction_outcome : forall M fuel m recipe t, ascending_auction_M M fuel m recipe = Ok t ->
  let m' := clone_market m in
  length recipe = length m' /\ (exists j, (j < length recipe)%nat /\ (0 < nth j recipe 0)%nat) /\
  exists ns stop, outcome M m' recipe ns stop
    /\ abs_loop M fuel m' recipe (sizes0 m') = Ok (ns, stop)
    /\ t = mkTrade (shrink m' ns) recipe (Some (final_prices M m' recipe ns stop)) (num_of_deals t)
    /\ supports (shrink m' ns) recipe (num_of_deals t)
    /\ forall n, supports (shrink m' ns) recipe n -> (n <= num_of_deals t)%nat.
Proof.
  intros M fuel m recipe t H m'. unfold ascending_auction_M in H.
  destruct (Nat.eqb_spec (length recipe) (length m)) as [Hl|Hl]; [|discriminate].
  assert (Hl' : length recipe = length m') by (unfold m'; rewrite clone_length; auto).
  split; [assumption|]. apply bind_Ok in H. destruct H as [[cats pv] [H Ht]].
  rewrite start_state in H by assumption. fold m' in H.
  assert (R := loop_refines M fuel m' recipe (sizes0 m') None Hl' (sizes0_ok m')).
  destruct (abs_loop M fuel m' recipe (sizes0 m')) as [[ns stop]|e|] eqn:E; [| rewrite R in H; discriminate | rewrite R in H; discriminate].
  destruct R as [st' R]. rewrite R in H. inversion H; subst cats pv. clear H.
  cbn [fst snd pv_prices] in Ht. split.
  - destruct (has_positive_dec recipe) as [Hp|Hp]; [apply has_positive; assumption|].
    exfalso. destruct fuel as [|fuel]; [discriminate|]. cbn [abs_loop] in E. unfold choice in E.
    rewrite no_positive in E by assumption. discriminate.
  - exists ns, stop. split; [exists fuel; assumption|]. split; [reflexivity|].
    apply deals_max in Ht. unfold num_of_deals. exact Ht.
Qed.

(** Deals require a zero-sum stop. *)
Lemma deals_zero_stop : forall M m recipe ns stop d, 0 < M -> length recipe = length m ->
  (exists j, (j < length recipe)%nat /\ (0 < nth j recipe 0)%nat) ->
  outcome M m recipe ns stop -> supports (shrink m ns) recipe d -> (0 < d)%nat ->
  exists main, stop = Some main.
Proof.
  intros M m recipe ns stop d HM Hl Hpos Ho Hs Hd. destruct stop as [main|]; [eauto|exfalso].
  destruct Hpos as [j [Hj Hr]].
  assert (Hz := empty_stop M m recipe HM Hl (ex_intro _ j (conj Hj Hr)) ns Ho j Hj Hr).
  specialize (Hs j (mkCat (cname (nth j m dcat)) (firstn (nth j ns 0%nat) (vals m j))) (nth j recipe 0%nat)).
  assert (X : (d * nth j recipe 0 <= csize (mkCat (cname (nth j m dcat)) (firstn (nth j ns 0%nat) (vals m j))))%nat).
  { apply Hs; [unfold shrink; apply nth_error_map_seq; lia|apply nth_error_nth'; assumption]. }
  rewrite Hz in X. unfold csize in X. simpl in X. nia.
Qed.

(** C11 *)
Theorem ascending_sbb : forall M fuel m recipe t, 0 < M ->
  ascending_auction_M M fuel m recipe = Ok t -> (0 < num_of_deals t)%nat ->
  exists prices, tprices t = Some prices /\ length prices = length m /\ dot prices recipe == 0.
Proof.
  intros M fuel m recipe t HM H Hd. apply auction_outcome in H.
  destruct H as [Hl [Hpos [ns [stop [Ho [_ [Et [Hs _]]]]]]]].
  destruct (deals_zero_stop _ _ _ _ _ _ HM Hl Hpos Ho Hs Hd) as [main ->].
  rewrite Et. cbn [tprices]. eexists. split; [reflexivity|].
  split; [rewrite final_length, clone_length; reflexivity|]. apply final_zero; assumption.
Qed.

Lemma values_at_least_clone : forall b m, values_at_least b m -> values_at_least b (clone_market m).
Proof.
  intros b m H c v Hc Hv. unfold clone_market in Hc. apply in_map_iff in Hc. destruct Hc as [c0 [<- Hc]].
  apply (H c0 v Hc). unfold clone, new_category in Hv. simpl in Hv.
  eapply Permutation_in; [apply sort_desc_perm|exact Hv].
Qed.

(** C12 *)
Theorem ascending_ir : forall M fuel m recipe t prices, 0 < M -> values_at_least (- M) m ->
  ascending_auction_M M fuel m recipe = Ok t -> tprices t = Some prices ->
  forall i c p v, nth_error (tcats t) i = Some c -> nth_error prices i = Some p ->
    In v (cvalues c) -> p <= v.
Proof.
  intros M fuel m recipe t prices HM Hv H Hp i c p v Hc Hpi Hin. apply auction_outcome in H.
  destruct H as [Hl [Hpos [ns [stop [Ho [_ [Et _]]]]]]]. set (m' := clone_market m) in *.
  rewrite Et in Hc, Hp. cbn [tcats tprices] in Hc, Hp. inversion Hp; subst prices. clear Hp.
  assert (Hi : (i < length m')%nat).
  { rewrite <- (shrink_length m' ns). apply nth_error_Some. congruence. }
  unfold shrink in Hc. rewrite nth_error_map_seq in Hc by assumption. inversion Hc; subst c. clear Hc.
  cbn [cvalues] in Hin.
  assert (E : p = fp M m' recipe ns stop i) by (unfold fp; symmetry; apply nth_error_nth; assumption).
  rewrite E. eapply left_rational; eauto; [apply clone_sorted|apply values_at_least_clone; assumption].
Qed.

(** C13: who is left. *)
Theorem ascending_weakest : forall M fuel m recipe t prices, 0 < M ->
  ascending_auction_M M fuel m recipe = Ok t -> tprices t = Some prices ->
  length (tcats t) = length m /\
  forall i c0 c p, nth_error m i = Some c0 -> nth_error (tcats t) i = Some c -> nth_error prices i = Some p ->
    cname c = cname c0 /\ desc (cvalues c) /\
    exists gone, Permutation (cvalues c ++ gone) (cvalues c0)
      /\ (forall x y, In x (cvalues c) -> In y gone -> y <= x)
      /\ (forall y, In y gone -> y <= p).
Proof.
  intros M fuel m recipe t prices HM H Hp. apply auction_outcome in H.
  destruct H as [Hl [Hpos [ns [stop [Ho [_ [Et _]]]]]]]. set (m' := clone_market m) in *.
  rewrite Et in Hp |- *. cbn [tcats tprices] in Hp |- *. inversion Hp; subst prices. clear Hp.
  split; [rewrite shrink_length; apply clone_length|].
  intros i c0 c p Hc0 Hc Hpi.
  assert (Hi : (i < length m')%nat).
  { rewrite <- (shrink_length m' ns). apply nth_error_Some. congruence. }
  unfold shrink in Hc. rewrite nth_error_map_seq in Hc by assumption. inversion Hc; subst c. clear Hc.
  assert (Ec : nth i m' dcat = clone c0) by (apply nth_error_nth, clone_nth'; assumption).
  cbn [cname cvalues]. split; [rewrite Ec; reflexivity|].
  assert (Hd : desc (vals m' i)).
  { eapply sorted_market_nth; [apply clone_sorted|]. apply nth_error_nth'. exact Hi. }
  split; [apply desc_firstn; assumption|].
  exists (skipn (nth i ns 0%nat) (vals m' i)). split; [|split].
  - rewrite firstn_skipn. unfold vals. rewrite Ec. simpl. apply sort_desc_perm.
  - intros x y Hx Hy. eapply desc_firstn_skipn; eassumption.
  - intros y Hy. assert (E : p = fp M m' recipe ns stop i) by (unfold fp; symmetry; apply nth_error_nth; assumption).
    rewrite E. eapply gone_bounded; eauto. apply clone_sorted.
Qed.

(** C13: monotone prices along the run. *)
Lemma visited_shape : forall M m recipe s, 0 < M -> length recipe = length m -> has_positive_entry recipe ->
  visited M m recipe s ->
  let m' := clone_market m in
  exists ns st, s = (shrink m' ns, mkPV recipe (prices_of M m' ns) st) /\ sizes_ok m' ns
    /\ psum M m' recipe ns < 0.
Proof.
  intros M m recipe s HM Hl Hpos Hv m'.
  assert (Hl' : length recipe = length m') by (unfold m'; rewrite clone_length; auto).
  assert (Hpos' := proj1 (has_positive _) Hpos).
  induction Hv as [|s s' _ [ns [st [-> [Hok Hneg]]]] Hr].
  - exists (sizes0 m'), None. split; [apply start_state; assumption|].
    split; [apply sizes0_ok|apply start_negative; assumption].
  - destruct (choice recipe ns) as [main|e|] eqn:Hch.
    + destruct (round_spec M m' recipe ns st main Hl' Hok Hch) as [[H1 H2]|[[H1 [H2 H3]]|[H1 [H2 H3]]]].
      * rewrite H2 in Hr. discriminate.
      * rewrite H3 in Hr. discriminate.
      * rewrite H3 in Hr. inversion Hr; subst. exists (dec main ns), (Some STOPPED_AT_AGENT_VALUE).
        split; [reflexivity|]. split; [apply dec_ok; assumption|assumption].
    + exfalso. destruct Hpos' as [j Hj]. apply relevant_In in Hj. unfold choice, argmax in Hch.
      destruct (relevant_indices recipe); [destruct Hj|discriminate].
    + exfalso. unfold choice, argmax in Hch. destruct (relevant_indices recipe); discriminate.
Qed.

Theorem ascending_monotone : forall M m recipe s b s', 0 < M -> values_at_least (- M) m ->
  length recipe = length m -> has_positive_entry recipe ->
  visited M m recipe s -> ascending_round recipe s = Ok (b, s') ->
  price_sum (snd s) < 0 /\ price_sum (snd s') <= 0
  /\ Forall2 Qle (pv_prices (snd s)) (pv_prices (snd s'))
  /\ length (pv_prices (snd s)) = length m.
Proof.
  intros M m recipe s b s' HM Hv Hl Hpos Hvis Hr.
  set (m' := clone_market m).
  assert (Hl' : length recipe = length m') by (unfold m'; rewrite clone_length; auto).
  destruct (visited_shape _ _ _ _ HM Hl Hpos Hvis) as [ns [st [-> [Hok Hneg]]]]. fold m' in Hok, Hneg, Hr |- *.
  assert (Hs0 : price_sum (mkPV recipe (prices_of M m' ns) st) < 0).
  { unfold price_sum. simpl. rewrite prices_psum by assumption. assumption. }
  cbn [snd]. split; [assumption|].
  assert (Hlen : length (pv_prices (mkPV recipe (prices_of M m' ns) st)) = length m).
  { cbn. rewrite prices_length. unfold m'. apply clone_length. }
  rewrite Hlen.
  assert (Hmono : forall P, length P = length m' ->
    (forall j, (j < length m')%nat -> pr M m' ns j <= nth j P 0) -> Forall2 Qle (prices_of M m' ns) P).
  { intros P HP Hj. assert (X : forall a b n, length b = n -> length a = n ->
      (forall j, (j < n)%nat -> nth j a 0 <= nth j b 0) -> Forall2 Qle a b).
    { induction a as [|x a IH]; intros [|y q] n E1 E2 E3; simpl in *; try lia; constructor.
      - apply (E3 0%nat). lia.
      - apply (IH q (n - 1)%nat); try lia. intros j Hj'. apply (E3 (S j)). lia. }
    apply (X _ _ (length m')); [assumption|apply prices_length|]. intros j Hj'.
    unfold prices_of at 1. rewrite nth_map_seq by assumption. apply Hj. assumption. }
  destruct (choice recipe ns) as [main|e|] eqn:Hch.
  - assert (Hch' := choice_spec _ _ _ Hch). destruct Hch' as [Hi [Hrm _]].
    destruct (round_spec M m' recipe ns st main Hl' Hok Hch) as [[H1 H2]|[[H1 [H2 H3]]|[H1 [H2 H3]]]].
    + rewrite H2 in Hr. inversion Hr; subst. cbn [snd pv_prices]. split; [lra|]. split; [|reflexivity].
      apply Hmono; [apply prices_length|]. intros j Hj. unfold prices_of.
      rewrite nth_map_seq by assumption. lra.
    + rewrite H3 in Hr. inversion Hr; subst. cbn [snd]. unfold price_sum. cbn [pv_prices pv_recipe final_prices].
      split; [|split; [|reflexivity]].
      * rewrite (dot_set_nth main (bal M m' recipe ns main) (prices_of M m' ns) recipe (nth main recipe 0%nat) (pr M m' ns main)).
        -- rewrite prices_psum by assumption. assert (E := bal_eq M m' recipe Hl' ns main Hrm). lra.
        -- unfold prices_of. apply nth_error_map_seq. lia.
        -- apply nth_error_nth'. assumption.
      * apply Hmono; [rewrite set_nth_length; apply prices_length|]. intros j Hj.
        destruct (Nat.eq_dec main j) as [->|Hne].
        -- rewrite nth_set_nth_same by (rewrite prices_length; assumption).
           destruct (bal_bounds M m' recipe Hl' ns j Hi Hrm Hneg H2). lra.
        -- rewrite nth_set_nth_other by assumption. unfold prices_of. rewrite nth_map_seq by assumption. lra.
    + rewrite H3 in Hr. inversion Hr; subst. cbn [snd]. unfold price_sum. cbn [pv_prices pv_recipe].
      split; [rewrite prices_psum by assumption; lra|]. split; [|reflexivity].
      apply Hmono; [apply prices_length|]. intros j Hj. unfold prices_of.
      rewrite nth_map_seq by assumption. unfold pr.
      destruct (Nat.eq_dec main j) as [->|Hne]; [|rewrite nth_dec_other by assumption; lra].
      rewrite nth_dec_same.
      assert (Hnj : (nth j ns 0 <= length (vals m' j))%nat) by apply Hok.
      destruct (le_lt_dec (length (vals m' j)) (nth j ns 0%nat)) as [Hge|Hlt].
      * rewrite (nth_overflow _ _ Hge). apply (values_at_least_clone _ _ Hv (nth j m' dcat)); [apply nth_In; assumption|].
        unfold vals. apply nth_In. unfold vals in *. lia.
      * apply desc_nth; [|lia|assumption]. eapply sorted_market_nth; [apply clone_sorted|].
        apply nth_error_nth'. exact Hj.
  - exfalso. apply has_positive in Hpos. destruct Hpos as [j Hj]. apply relevant_In in Hj. unfold choice, argmax in Hch.
    destruct (relevant_indices recipe); [destruct Hj|discriminate].
  - exfalso. unfold choice, argmax in Hch. destruct (relevant_indices recipe); discriminate.
Qed.

(** The result of the auction comes from a stopping round after a visited state. *)
Lemma loop_visited : forall M m recipe fuel s s', visited M m recipe s ->
  ascending_loop fuel recipe s = Ok s' ->
  exists s1, visited M m recipe s1 /\ ascending_round recipe s1 = Ok (true, s').
Proof.
  intros M m recipe. induction fuel as [|fuel IH]; intros s s' Hv H; [discriminate|].
  cbn [ascending_loop] in H. apply bind_Ok in H. destruct H as [[b s2] [H1 H2]]. cbn [fst snd] in H2.
  destruct b; [inversion H2; subst; eauto|]. apply (IH s2); [|assumption].
  eapply visited_next; eassumption.
Qed.

Theorem auction_visited : forall M fuel m recipe t, ascending_auction_M M fuel m recipe = Ok t ->
  exists s cats pv, visited M m recipe s /\ ascending_round recipe s = Ok (true, (cats, pv))
    /\ tcats t = cats /\ tprices t = Some (pv_prices pv).
Proof.
  intros M fuel m recipe t H. unfold ascending_auction_M in H.
  destruct (Nat.eqb_spec (length recipe) (length m)); [|discriminate].
  apply bind_Ok in H. destruct H as [[cats pv] [H Ht]].
  destruct (loop_visited M m recipe fuel _ _ (visited_start _ _ _) H) as [s1 [Hv Hr]].
  exists s1, cats, pv. split; [assumption|]. split; [assumption|].
  destruct (deals_max _ _ _ _ Ht) as [E _]. rewrite E. split; reflexivity.
Qed.
