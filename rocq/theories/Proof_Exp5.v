(** * The experiments on generated markets (C66, C67) *)

From Coq Require Import String List Arith NArith Lia ZArith QArith Lqa.
From Verif Require Import Base Model_Agents Model_Trade Model_Market Model_Ascending Model_TradeReduction Model_McAfee
  Model_Experiment Spec_Market Spec_Trade Spec_TradeReduction Spec_Experiment Proof_Exp2 Proof_Exp3 Proof_Exp4.
Import ListNotations.
Open Scope Q_scope.

Lemma input_tame : forall recipe ranges n ms, experiment_input recipe ranges -> experiment_sample recipe ranges n ms ->
  Forall (tame recipe) ms.
Proof.
  intros recipe ranges n ms (NE & FP & LR & B & B0 & HB & HS) (_ & HN & F). eapply Forall_impl; [|exact F].
  intros m Hm. cbv beta. eapply random_tame; eassumption.
Qed.

Lemma samples_tame : forall recipe ranges samples, experiment_input recipe ranges ->
  Forall (fun s => experiment_sample recipe ranges (fst s) (snd s)) samples ->
  Forall (fun s => snd s <> [] /\ Forall (tame recipe) (snd s)) samples.
Proof.
  intros recipe ranges samples I F. eapply Forall_impl; [|exact F]. intros [n ms] H. cbn [fst snd] in *.
  split; [exact (proj1 H)|eapply input_tame; eassumption].
Qed.

Lemma asc_experiment : forall recipe ranges samples, experiment_input recipe ranges ->
  Forall (fun s => experiment_sample recipe ranges (fst s) (snd s)) samples ->
  exists rows, experiment ascending_auction recipe samples = Ok rows
  /\ Forall2 (fun s r => num_of_agents r = fst s /\ row_bounds r
       /\ mean_auction_market_gft r == mean_auction_total_gft r /\ market_gft_ratio r == total_gft_ratio r
       /\ exists os, Forall2 (outcome_of ascending_auction recipe) (snd s) os /\ row_averages os r /\ row_ratio os r) samples rows.
Proof.
  intros recipe ranges samples I F. pose proof I as (NE & FP & _).
  destruct (experiment_all ascending_auction recipe (fun o => out_market o == out_total o) samples) as (rows & E & R).
  - eapply samples_tame; eassumption.
  - intros m T. apply ascending_outcome; assumption.
  - exists rows. split; [exact E|]. clear - R. induction R as [|s r samples rows (A & B & os & C & D & E1 & E2 & E3) R IH]; constructor; [|assumption].
    split; [exact A|]. split; [exact B|]. destruct (E3 D). eauto 8.
Qed.

Lemma tr_experiment : forall recipe ranges samples, experiment_input recipe ranges ->
  Forall (fun s => experiment_sample recipe ranges (fst s) (snd s)) samples ->
  exists rows, experiment (fun m r => trade_reduction m r true) recipe samples = Ok rows
  /\ Forall2 (fun s r => num_of_agents r = fst s /\ row_bounds r
       /\ mean_auction_market_gft r == mean_auction_total_gft r /\ market_gft_ratio r == total_gft_ratio r
       /\ exists os, Forall2 (outcome_of (fun m r => trade_reduction m r true) recipe) (snd s) os /\ row_averages os r /\ row_ratio os r) samples rows.
Proof.
  intros recipe ranges samples I F. pose proof I as (NE & FP & _).
  destruct (experiment_all (fun m r => trade_reduction m r true) recipe (fun o => out_market o == out_total o) samples) as (rows & E & R).
  - eapply samples_tame; eassumption.
  - intros m T. apply tr_outcome; assumption.
  - exists rows. split; [exact E|]. clear - R. induction R as [|s r samples rows (A & B & os & C & D & E1 & E2 & E3) R IH]; constructor; [|assumption].
    split; [exact A|]. split; [exact B|]. destruct (E3 D). eauto 8.
Qed.

Lemma mcafee_experiment : forall h recipe ranges samples, experiment_input recipe ranges -> all_ones recipe ->
  (length recipe <= 2)%nat \/ h = false ->
  Forall (fun s => experiment_sample recipe ranges (fst s) (snd s)) samples ->
  exists rows, experiment (fun m r => mcafee m r h) recipe samples = Ok rows
  /\ Forall2 (fun s r => num_of_agents r = fst s /\ row_bounds r
       /\ exists os, Forall2 (outcome_of (fun m r => mcafee m r h) recipe) (snd s) os /\ row_averages os r /\ row_ratio os r) samples rows.
Proof.
  intros h recipe ranges samples I O TWO F. pose proof I as (NE & FP & _).
  destruct (experiment_all (fun m r => mcafee m r h) recipe (fun _ => True) samples) as (rows & E & R).
  - eapply samples_tame; eassumption.
  - intros m T. destruct (mcafee_outcome h recipe m NE O TWO T) as (o & A & B). eauto.
  - exists rows. split; [exact E|]. clear - R. induction R as [|s r samples rows (A & B & os & C & D & E1 & E2 & E3) R IH]; constructor; [|assumption].
    split; [exact A|]. split; [exact B|]. eauto 8.
Qed.

(** ** The comparison *)
Lemma cmp_tame : forall recipe (samples : list (list market)),
  (exists ranges, experiment_input recipe ranges /\ Forall (fun ms => exists n, experiment_sample recipe ranges n ms) samples) ->
  Forall (Forall (tame recipe)) samples.
Proof.
  intros recipe samples (ranges & I & F). eapply Forall_impl; [|exact F]. intros ms (n & H). cbv beta. eapply input_tame; eassumption.
Qed.

Lemma cmp_runs : forall runs, Forall (fun run => snd run <> [] /\ exists ranges, experiment_input (fst run) ranges
    /\ Forall (fun ms => exists n, experiment_sample (fst run) ranges n ms) (snd run)) runs ->
  exists rows, compare_experiment runs = Ok rows /\ Forall2 cmp_consistent runs rows.
Proof.
  intros runs F. destruct (compare_ok runs) as (rows & E).
  - eapply Forall_impl; [|exact F]. intros [recipe samples] (NS & H). cbn [fst snd] in *. pose proof H as (ranges & (NE & FP & _) & _).
    split; [exact NE|]. split; [exact FP|]. split; [exact NS|]. apply cmp_tame. exact H.
  - exists rows. split; [exact E|]. apply compare_consistent. exact E.
Qed.

Lemma cmp_ties_last : forall runs, Forall (fun run => snd run <> [] /\ ones_but_last (fst run) /\ exists ranges, experiment_input (fst run) ranges
    /\ Forall (fun ms => exists n, experiment_sample (fst run) ranges n ms) (snd run)) runs ->
  compare_experiment runs = Ok (map (fun run => mkCR 0 100 0 0 100 0 0 (length (snd run)) 0) runs).
Proof.
  intros runs F. apply compare_ones. eapply Forall_impl; [|exact F]. intros [recipe samples] (NS & O & H). cbn [fst snd] in *.
  split; [exact O|]. split; [exact NS|]. destruct H as (ranges & I & F'). eapply Forall_impl; [|exact F']. intros ms (n & S). cbv beta.
  assert (T := input_tame recipe ranges n ms I S). destruct I as (NE & FP & LR & _). destruct S as (_ & _ & R).
  rewrite Forall_forall in T, R |- *. intros m Hm. split; [apply T; exact Hm|].
  apply (random_no_spare n recipe ranges); auto.
Qed.

Lemma cmp_ties : forall runs, Forall (fun run => snd run <> [] /\ all_ones (fst run) /\ exists ranges, experiment_input (fst run) ranges
    /\ Forall (fun ms => exists n, experiment_sample (fst run) ranges n ms) (snd run)) runs ->
  compare_experiment runs = Ok (map (fun run => mkCR 0 100 0 0 100 0 0 (length (snd run)) 0) runs).
Proof.
  intros runs F. apply cmp_ties_last. eapply Forall_impl; [|exact F]. intros [recipe samples] (NS & O & H). cbn [fst snd] in *.
  split; [exact NS|]. split; [|exact H]. destruct H as (ranges & (NE & _) & _). apply Proof_TR14.ones_are_last; assumption.
Qed.

