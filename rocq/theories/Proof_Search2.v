(** * The search for an input where including_gft_0 matters (C98) *)

From Coq Require Import String List Arith Lia QArith Lqa Permutation Bool.
From Verif Require Import Base Model_Agents Model_Trade Model_Prices Model_Market Model_Ascending Model_TradeReduction Model_Report Model_Search
  Spec_Market Spec_Trade Spec_Ascending Spec_Search Proof_Flag Proof_Search.
From Verif Require Import Props_Ascending Props_TradeReduction.
Import ListNotations.
Open Scope list_scope.
Open Scope Q_scope.

Lemma repr_total : forall show t P, tprices t = Some P -> length P = length (trecipe t) ->
  forall cats i, (i + length cats <= length (trecipe t))%nat -> exists s, repr_loop show t i cats = Ok s.
Proof.
  intros show t P HP LP. induction cats as [|c cats IH]; intros i H; [exists ""%string; reflexivity|]. cbn [repr_loop].
  cbn [length] in H. rewrite (get_lt _ _ _ 0%nat) by lia. cbn [bind].
  destruct (IH (S i)) as [s Hs]; [lia|].
  destruct (0 <? nth i (trecipe t) 0)%nat.
  - unfold price_at. rewrite HP. rewrite (get_lt _ _ _ 0) by lia. cbn [bind]. rewrite Hs. eexists. reflexivity.
  - cbn [bind]. rewrite Hs. eexists. reflexivity.
Qed.

Lemma new_trade_recipe : forall cats recipe p t, new_trade cats recipe p = Ok t -> trecipe t = recipe.
Proof. intros cats recipe p t H. unfold new_trade in H. destruct (min_list _); [|discriminate]. injection H as <-. reflexivity. Qed.

Lemma tr_recipe : forall M cap m recipe z t, trade_reduction_M M cap m recipe z = Ok t -> trecipe t = recipe /\ length recipe = length m.
Proof.
  intros M cap m recipe z t E. unfold trade_reduction_M in E.
  destruct (Nat.eqb_spec (length recipe) (length m)) as [L|]; [|discriminate]. split; [|assumption].
  destruct (optimal_trade cap m recipe true) as [[deals remaining]| |]; try discriminate. cbn [bind] in E.
  destruct deals as [|d deals]; [eapply new_trade_recipe; exact E|].
  destruct (get_highest_agents remaining recipe) as [h| |]; try discriminate. cbn [bind] in E.
  match type of E with bind ?X _ = _ => destruct X as [[list_ps rem']| |]; try discriminate end. cbn [bind] in E.
  destruct (fold_result _ _ _) as [s| |]; try discriminate. eapply new_trade_recipe; exact E.
Qed.

Lemma tr_text : forall show M cap m recipe z t, values_at_least (- M) m -> trade_reduction_M M cap m recipe z = Ok t ->
  exists s, trade_text show t = Ok s.
Proof.
  intros show M cap m recipe z t HV E. destruct (tr_recipe _ _ _ _ _ _ E) as [ER EL].
  unfold trade_text. destruct (Nat.eqb_spec (tdeals t) 0) as [Z|Z]; [exists "No trade"%string; reflexivity|].
  assert (B := C17_strong_budget_balance _ _ _ _ _ _ E). destruct (tprices t) as [P|] eqn:HP; [|exfalso; apply Z; exact B].
  destruct B as [LP _].
  destruct (Proof_Market.optimal_trade_spec cap m recipe true EL) as [k [Ho _]].
  destruct (C18_best_traders _ _ _ _ _ _ _ _ HV E Ho) as [LC _].
  destruct (repr_total show t P HP ltac:(congruence) (tcats t) 0) as [s Hs]; [simpl; rewrite LC, ER; lia|].
  rewrite Hs. eexists. reflexivity.
Qed.

Lemma gft0_round_spec : forall show recipe b s, length recipe = 2%nat -> has_positive_entry recipe -> ~ In 0%nat recipe -> floor_ok (b, s) ->
  exists t t' g g', 
    trade_reduction [new_category "buyer" b; new_category "seller" s] recipe false = Ok t
    /\ trade_reduction [new_category "buyer" b; new_category "seller" s] recipe true = Ok t'
    /\ gain_from_trade t true = Ok g /\ gain_from_trade t' true = Ok g'
    /\ gft0_round show recipe b s = Ok (num_of_deals t, num_of_deals t', g, g')
    /\ (num_of_deals t <= num_of_deals t')%nat.
Proof.
  intros show recipe b s HL HP H0 HF. unfold gft0_round. cbn [bind new_market].
  set (m := [new_category "buyer" b; new_category "seller" s]).
  assert (VA : values_at_least (- MAX_VALUE) m).
  { intros c v Hc Hv. unfold floor_ok in HF. rewrite Forall_forall in HF. apply HF. apply in_or_app.
    destruct Hc as [<-|[<-|[]]]; cbn [cvalues new_category] in Hv; apply (Permutation_in _ (sort_desc_perm _)) in Hv; auto. }
  assert (K : forall z, exists t g x, trade_reduction m recipe z = Ok t /\ gain_from_trade t true = Ok g /\ trade_text show t = Ok x).
  { intros z. destruct (C21_errors MAX_VALUE default_max_iterations m recipe z) as [[[t Ht] _]|[_ [N|N]]]; [|contradiction|contradiction].
    destruct (C21_gain_errors MAX_VALUE default_max_iterations m recipe z true t VA Ht) as [G T].
    destruct (tr_text show _ _ _ _ _ _ VA Ht) as [x Hx].
    destruct (gain_from_trade t true) as [g|e|] eqn:EG; [|exfalso; destruct (proj1 (G e) eq_refl) as (_ & _ & X); contradiction|congruence].
    exists t, g, x. split; [exact Ht|]. split; [exact EG|exact Hx]. }
  destruct (K false) as (t & g & x & A1 & A2 & A3). destruct (K true) as (t' & g' & x' & B1 & B2 & B3).
  exists t, t', g, g'. split; [assumption|]. split; [assumption|]. split; [assumption|]. split; [assumption|].
  rewrite A1. cbn [bind]. rewrite B1. cbn [bind]. rewrite A3. cbn [bind]. rewrite B3. cbn [bind]. rewrite A2. cbn [bind]. rewrite B2.
  cbn [bind]. split; [reflexivity|]. exact (proj1 (flag_adds_traders _ _ _ _ _ _ A1 B1)).
Qed.

Lemma gft0_loop_spec : forall show recipe draw, length recipe = 2%nat -> has_positive_entry recipe -> ~ In 0%nat recipe ->
  (forall n, floor_ok (draw n)) -> forall rounds last printed,
  exists last' found rows, gft0_loop show recipe draw rounds last printed = Ok (last', found, printed ++ rows)
    /\ Forall2 (fun n row => round_report recipe (draw n) row /\ (fst (fst (fst row)) <= snd (fst (fst row)))%nat)
         (firstn (length rows) rounds) rows
    /\ (found = false -> length rows = length rounds /\ Forall (fun row => ~ differs row) rows)
    /\ (found = true -> exists early n row, rows = early ++ [row] /\ Forall (fun r => ~ differs r) early /\ differs row
          /\ nth_error rounds (length early) = Some n /\ last' = Some (draw n)).
Proof.
  intros show recipe draw HL HP H0 HF. induction rounds as [|n rounds IH]; intros last printed; cbn [gft0_loop].
  - exists last, false, []. rewrite app_nil_r. split; [reflexivity|]. split; [constructor|]. split; [auto|discriminate].
  - assert (HFn := HF n). destruct (draw n) as [b s] eqn:D.
    destruct (gft0_round_spec show recipe b s HL HP H0 HFn) as (t & t' & g & g' & A1 & A2 & A3 & A4 & A5 & A6).
    cbn [fst snd]. rewrite A5. cbn [bind]. set (row := (num_of_deals t, num_of_deals t', g, g')).
    assert (RR : round_report recipe (draw n) row /\ (fst (fst (fst row)) <= snd (fst (fst row)))%nat).
    { split; [|exact A6]. rewrite D. exists t, t'. cbn [fst snd row]. auto 10. }
    destruct (negb (num_of_deals t =? num_of_deals t')%nat && negb (Qeq_bool g' g)) eqn:C.
    + exists (Some (b, s)), true, [row]. split; [reflexivity|]. split; [constructor; [exact RR|constructor]|]. split; [discriminate|].
      intros _. exists [], n, row. split; [reflexivity|]. split; [constructor|]. split; [|split; [reflexivity|rewrite D; reflexivity]].
      apply andb_prop in C. destruct C as [C1 C2]. apply negb_true_iff in C1. apply negb_true_iff in C2. apply Nat.eqb_neq in C1.
      split; [exact C1|]. cbn [fst snd row]. intros X. symmetry in X. apply Qeq_bool_iff in X. congruence.
    + assert (ND : ~ differs row).
      { intros [X Y]. cbn [fst snd row] in X, Y. apply Nat.eqb_neq in X. rewrite X in C. cbn [negb andb] in C.
        apply negb_false_iff in C. apply Qeq_bool_iff in C. apply Y. symmetry. exact C. }
      destruct (IH (Some (b, s)) (printed ++ [row])) as (last' & found & rows & E & F & G & K).
      exists last', found, (row :: rows). split; [rewrite E, <- app_assoc; reflexivity|].
      split; [cbn [length firstn]; constructor; assumption|]. split.
      * intros Z. destruct (G Z) as [G1 G2]. split; [cbn [length]; lia|constructor; assumption].
      * intros Z. destruct (K Z) as (early & n' & r' & K1 & K2 & K3 & K4 & K5).
        exists (row :: early), n', r'. split; [rewrite K1; reflexivity|]. split; [constructor; assumption|]. split; [assumption|]. split; assumption.
Qed.

Lemma program_floor : forall bs, program_draw bs -> floor_ok bs.
Proof.
  intros bs (_ & _ & HB & HS). unfold floor_ok. apply Forall_forall. intros v Hv. apply in_app_or in Hv.
  assert (K : exists z, v = inject_Z z /\ (-10 <= z)%Z).
  { destruct Hv as [Hv|Hv]; [destruct (HB v Hv) as (z & E & L)|destruct (HS v Hv) as (z & E & L)]; exists z; (split; [exact E|lia]). }
  destruct K as (z & -> & L). rewrite Zle_Qle in L. unfold MAX_VALUE. eapply Qle_trans; [|exact L]. vm_compute. discriminate.
Qed.

Theorem gft0_search_spec : forall show draw, (forall n, program_draw (draw n)) ->
  exists last found rows, gft0_search show draw = Ok (last, found, rows)
    /\ Forall2 (fun n row => round_report [1; 2]%nat (draw n) row /\ (fst (fst (fst row)) <= snd (fst (fst row)))%nat)
         (seq 2 (length rows)) rows
    /\ (found = false -> length rows = N.to_nat 9998 /\ Forall (fun row => ~ differs row) rows)
    /\ (found = true -> exists early row, rows = early ++ [row] /\ Forall (fun r => ~ differs r) early /\ differs row
          /\ last = Some (draw (2 + length early)%nat)).
Proof.
  intros show draw HD. unfold gft0_search.
  destruct (gft0_loop_spec show [1; 2]%nat draw eq_refl) with (rounds := seq 2 (N.to_nat 9998)) (last := @None (list Q * list Q))
    (printed := @nil (nat * nat * Q * Q)) as (last & found & rows & E & F & G & K).
  - exists 0%nat, 1%nat. split; [reflexivity|lia].
  - intros [X|[X|[]]]; discriminate.
  - intros n. apply program_floor, HD.
  - revert E F G K. generalize (N.to_nat 9998). intros k E F G K. exists last, found, rows. split; [exact E|].
    assert (SL : firstn (length rows) (seq 2 k) = seq 2 (length rows)).
    { assert (L := F). apply Forall2_length in L. rewrite firstn_length, seq_length in L.
      replace k with (length rows + (k - length rows))%nat by lia. rewrite seq_app.
      rewrite firstn_app, seq_length, Nat.sub_diag, firstn_O, app_nil_r. apply firstn_all2. rewrite seq_length. lia. }
    rewrite SL in F. split; [exact F|]. split.
    + intros Z. destruct (G Z) as [G1 G2]. rewrite seq_length in G1. auto.
    + intros Z. destruct (K Z) as (early & n & row & K1 & K2 & K3 & K4 & K5). exists early, row.
      split; [assumption|]. split; [assumption|]. split; [assumption|]. rewrite K5. f_equal. f_equal.
      assert (L : (length early < k)%nat) by (rewrite <- (seq_length k 2); apply nth_error_Some; congruence).
      assert (X := nth_error_nth _ _ 0%nat K4). rewrite seq_nth in X by assumption. symmetry. exact X.
Qed.
