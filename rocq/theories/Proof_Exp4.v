(** * experiment_comparing_sbb.py (C67) *)

From Coq Require Import String List Arith NArith Lia ZArith QArith Qround Lqa Bool Permutation.
From Verif Require Import Base Model_Agents Model_Trade Model_Prices Model_Market Model_Ascending Model_TradeReduction
  Model_Experiment Spec_Market Spec_Trade Spec_Ascending Spec_TradeReduction Spec_Experiment
  Proof_Exp1 Proof_Exp2 Proof_Exp3 Proof_Market Proof_TR4 Proof_TR8.
Import ListNotations.
Open Scope Q_scope.

Definition total_wins (w : wins) : nat := let '(e, t, a) := w in (e + t + a)%nat.

Lemma wins_k_total : forall s w, total_wins (count_wins_k s w) = S (total_wins w).
Proof. intros s [[e t] a]. unfold count_wins_k. destruct (_ <? _)%nat; [|destruct (_ =? _)%nat]; simpl; lia. Qed.

Lemma wins_gft_total : forall s w, total_wins (count_wins_gft s w) = S (total_wins w).
Proof. intros s [[e t] a]. unfold count_wins_gft. destruct (Qlt_bool _ _); [|destruct (Qeq_bool _ _)]; simpl; lia. Qed.

Lemma sizes_total : forall recipe samples wg wk wg' wk', compare_sizes recipe wg wk samples = Ok (wg', wk') ->
  total_wins wg' = (total_wins wg + length samples)%nat /\ total_wins wk' = (total_wins wk + length samples)%nat.
Proof.
  intros recipe samples. induction samples as [|ms samples IH]; intros wg wk wg' wk' H.
  - inversion H; subst. simpl. lia.
  - cbn [compare_sizes] in H. apply bind_Ok in H. destruct H as (s & _ & H). apply IH in H.
    rewrite wins_k_total, wins_gft_total in H. cbn [length]. lia.
Qed.

Lemma percent_bounds : forall x num, (0 < num)%nat ->
  inject_Z (percent x num) * Qn num <= 100 * Qn x /\ 100 * Qn x < (inject_Z (percent x num) + 1) * Qn num /\ (0 <= percent x num)%Z.
Proof.
  intros x num H. assert (N : 0 < Qn num) by (apply Qn_pos; assumption). unfold percent.
  assert (E : Qn (x * 100) == 100 * Qn x).
  { unfold Qn. rewrite Nat2Z.inj_mul, inject_Z_mult. change (inject_Z (Z.of_nat 100)) with 100. lra. }
  set (q := Qn (x * 100) / Qn num). assert (EQ : q * Qn num == 100 * Qn x) by (unfold q; rewrite E; field; lra).
  assert (P : 0 <= q) by (apply div_nonneg; [assumption|apply Qn_nonneg]).
  rewrite py_int_floor by assumption. destruct (floor_bounds q) as [A B]. rewrite <- EQ. split; [|split].
  - apply Qmult_le_compat_r; [assumption|lra].
  - apply Qmult_lt_compat_r; assumption.
  - change 0%Z with (Qfloor 0). apply Qfloor_resp_le. assumption.
Qed.

Lemma three_percents : forall e t a num, (0 < num)%nat -> (e + t + a = num)%nat ->
  (98 <= percent e num + percent t num + percent a num <= 100)%Z
  /\ (0 <= percent e num)%Z /\ (0 <= percent t num)%Z /\ (0 <= percent a num)%Z.
Proof.
  intros e t a num H E. destruct (percent_bounds e num H) as (A1 & A2 & A3). destruct (percent_bounds t num H) as (B1 & B2 & B3).
  destruct (percent_bounds a num H) as (C1 & C2 & C3). split; [|auto].
  assert (N : 0 < Qn num) by (apply Qn_pos; assumption).
  assert (S : Qn num == Qn e + Qn t + Qn a) by (rewrite <- E, !Qn_plus; reflexivity).
  set (p := (percent e num + percent t num + percent a num)%Z).
  assert (EP : inject_Z p == inject_Z (percent e num) + inject_Z (percent t num) + inject_Z (percent a num)).
  { unfold p. rewrite !inject_Z_plus. reflexivity. }
  assert (U : inject_Z p * Qn num <= 100 * Qn num) by (rewrite EP; lra).
  assert (L : 97 * Qn num < inject_Z p * Qn num) by (rewrite EP; lra).
  apply Qmult_le_r in U; [|assumption]. apply Qmult_lt_r in L; [|assumption].
  change 100 with (inject_Z 100) in U. change 97 with (inject_Z 97) in L. rewrite <- Zle_Qle in U. rewrite <- Zlt_Qlt in L. lia.
Qed.

Lemma compare_consistent : forall runs rows, compare_experiment runs = Ok rows -> Forall2 cmp_consistent runs rows.
Proof.
  intros runs. induction runs as [|[recipe samples] runs IH]; intros rows H; [inversion H; constructor|].
  cbn [compare_experiment] in H. apply bind_Ok in H. destruct H as ([[[eg tg] ag] [[ek tk] ak]] & HS & H). cbn [fst snd] in H.
  apply bind_Ok in H. destruct H as (r & HR & H). apply bind_Ok in H. destruct H as (rest & HT & H). injection H as <-.
  constructor; [|apply IH; assumption]. apply sizes_total in HS. unfold total_wins in HS. cbn in HS.
  unfold compare_row in HR. destruct (Nat.eqb_spec (length samples) 0) as [Z|Z]; [discriminate|]. injection HR as <-.
  unfold cmp_consistent. cbn [external_wins ties ascending_wins external_wins_gft_pct tie_gft_pct ascending_wins_gft_pct
    external_wins_k_pct tie_k_pct ascending_wins_k_pct snd].
  destruct (three_percents eg tg ag (length samples)) as (A & A'); [lia|lia|].
  destruct (three_percents ek tk ak (length samples)) as (B & B'); [lia|lia|]. repeat split; try tauto; lia.
Qed.

(** ** No exceptions *)
Lemma compare_iteration_ok : forall recipe m s, recipe <> [] -> Forall (fun r => (0 < r)%nat) recipe -> tame recipe m ->
  exists s', compare_iteration recipe s m = Ok s'.
Proof.
  intros recipe m s NE FP T. destruct (ascending_outcome recipe m NE FP T) as (o & (deals & rem & ta & HO & _ & _ & HA & _ & GA & _) & _).
  destruct T as (L & SM & AL & CAP & _).
  destruct (tr_errors MAX_VALUE default_max_iterations m recipe true) as [[[t H] _]|[_ [X|X]]]; [|congruence|destruct X; apply positive_entry; assumption].
  destruct (tr_gain_errors _ _ _ _ _ true _ AL H) as [G1 G2].
  destruct (gain_from_trade t true) as [g|e|] eqn:EG; [| |congruence].
  - unfold compare_iteration. rewrite HO. cbn [bind]. unfold trade_reduction. rewrite H. cbn [bind]. rewrite HA. cbn [bind]. rewrite EG. cbn [bind].
    rewrite GA. cbn [bind]. eauto.
  - exfalso. destruct (proj1 (G1 e) eq_refl) as (_ & _ & X). rewrite Forall_forall in FP. specialize (FP _ X). lia.
Qed.

Lemma compare_loop_ok : forall recipe ms s, recipe <> [] -> Forall (fun r => (0 < r)%nat) recipe -> Forall (tame recipe) ms ->
  exists s', compare_loop recipe s ms = Ok s'.
Proof.
  intros recipe ms s NE FP F. revert s. induction F as [|m ms Hm F IH]; intros s; [eexists; reflexivity|].
  destruct (compare_iteration_ok recipe m s NE FP Hm) as (s' & E). cbn [compare_loop]. rewrite E. cbn [bind]. apply IH.
Qed.

Lemma compare_ok : forall runs,
  Forall (fun run => fst run <> [] /\ Forall (fun r => (0 < r)%nat) (fst run) /\ snd run <> [] /\ Forall (Forall (tame (fst run))) (snd run)) runs ->
  exists rows, compare_experiment runs = Ok rows.
Proof.
  intros runs H. induction H as [|[recipe samples] runs (NE & FP & NS & F) H (rows & IH)]; [eexists; reflexivity|].
  cbn [fst snd] in *. cbn [compare_experiment].
  assert (X : forall wg wk, exists w, compare_sizes recipe wg wk samples = Ok w).
  { clear - NE FP F. induction F as [|ms samples Hm F IH]; intros wg wk; [eexists; reflexivity|].
    destruct (compare_loop_ok recipe ms (mkCS 0 0 0 0) NE FP Hm) as (s & E). cbn [compare_sizes]. rewrite E. cbn [bind]. apply IH. }
  destruct (X (0, 0, 0)%nat (0, 0, 0)%nat) as ([wg wk] & E). rewrite E. cbn [bind fst snd]. unfold compare_row.
  destruct (Nat.eqb_spec (length samples) 0) as [Z|Z]; [destruct samples; [congruence|discriminate]|].
  destruct wg as [[eg tg] ag], wk as [[ek tk] ak]. cbn [bind]. rewrite IH. cbn [bind]. eauto.
Qed.

(** ** Recipes of ones, except for the last entry: always a tie *)
Lemma ones_loop : forall recipe ms s, ones_but_last recipe -> Forall (fun m => tame recipe m /\ no_spare m recipe) ms ->
  c_ext_count s = c_asc_count s -> c_ext_gft s == c_asc_gft s ->
  exists s', compare_loop recipe s ms = Ok s' /\ c_ext_count s' = c_asc_count s' /\ c_ext_gft s' == c_asc_gft s'.
Proof.
  intros recipe ms s O F. revert s. induction F as [|m ms [Hm Hns] F IH]; intros s E1 E2; [exists s; auto|].
  destruct (tr_same recipe m O Hns Hm) as (t & ta & ga & ga' & g & g' & Ht & Ha & ED & A1 & _ & A3 & _ & E & _).
  destruct Hm as (L & _). destruct (optimal_trade_errors default_max_iterations m recipe true) as [[dr [HO _]]|[_ X]]; [|congruence].
  cbn [compare_loop]. unfold compare_iteration. rewrite HO. cbn [bind]. rewrite Ht. cbn [bind]. rewrite Ha. cbn [bind]. rewrite A3. cbn [bind].
  rewrite A1. cbn [bind]. apply IH; cbn [c_ext_count c_asc_count c_ext_gft c_asc_gft]; [congruence|rewrite E2, E; reflexivity].
Qed.

Lemma ones_sizes : forall recipe samples, ones_but_last recipe -> Forall (Forall (fun m => tame recipe m /\ no_spare m recipe)) samples -> forall n k,
  compare_sizes recipe (0, n, 0)%nat (0, k, 0)%nat samples = Ok ((0, n + length samples, 0)%nat, (0, k + length samples, 0)%nat).
Proof.
  intros recipe samples O F. induction F as [|ms samples Hm F IH]; intros n k.
  - cbn [compare_sizes length]. rewrite !Nat.add_0_r. reflexivity.
  - destruct (ones_loop recipe ms (mkCS 0 0 0 0) O Hm eq_refl (Qeq_refl 0)) as (s & E & E1 & E2).
    cbn [compare_sizes]. rewrite E. cbn [bind]. unfold count_wins_gft, count_wins_k. rewrite E1, Nat.ltb_irrefl, Nat.eqb_refl.
    assert (X : Qlt_bool (c_asc_gft s) (c_ext_gft s) = false) by (apply Qlt_bool_false; lra). rewrite X.
    apply Qeq_bool_iff in E2. rewrite E2, IH. cbn [length]. rewrite !Nat.add_succ_r. reflexivity.
Qed.

Lemma percent_all : forall n, (0 < n)%nat -> percent n n = 100%Z.
Proof.
  intros n H. assert (N : 0 < Qn n) by (apply Qn_pos; assumption). destruct (percent_bounds n n H) as (A & B & _).
  apply Qmult_le_r in A; [|assumption]. apply Qmult_lt_r in B; [|assumption].
  change 100 with (inject_Z 100) in A, B. assert (B' : inject_Z 100 < inject_Z (percent n n + 1)) by (rewrite inject_Z_plus; exact B).
  rewrite <- Zle_Qle in A. rewrite <- Zlt_Qlt in B'. lia.
Qed.

Lemma percent_0 : forall n, (0 < n)%nat -> percent 0 n = 0%Z.
Proof.
  intros n H. assert (N : 0 < Qn n) by (apply Qn_pos; assumption). destruct (percent_bounds 0 n H) as (A & _ & C).
  assert (X : inject_Z (percent 0 n) <= 0). { apply (Qmult_le_r _ _ (Qn n)); [assumption|]. change (Qn 0) with 0 in A. lra. }
  change 0 with (inject_Z 0) in X. rewrite <- Zle_Qle in X. lia.
Qed.

Lemma compare_ones : forall runs,
  Forall (fun run => ones_but_last (fst run) /\ snd run <> [] /\ Forall (Forall (fun m => tame (fst run) m /\ no_spare m (fst run))) (snd run)) runs ->
  compare_experiment runs = Ok (map (fun run => mkCR 0 100 0 0 100 0 0 (length (snd run)) 0) runs).
Proof.
  intros runs H. induction H as [|[recipe samples] runs (O & NS & F) H IH]; [reflexivity|].
  cbn [fst snd] in *. cbn [compare_experiment]. rewrite (ones_sizes recipe samples O F 0 0). cbn [bind fst snd]. unfold compare_row.
  assert (L : (0 < length samples)%nat) by (destruct samples; [congruence|simpl; lia]).
  destruct (Nat.eqb_spec (length samples) 0) as [Z|Z]; [lia|]. rewrite IH. cbn [bind map snd Nat.add].
  rewrite !percent_all, !percent_0 by assumption. reflexivity.
Qed.
