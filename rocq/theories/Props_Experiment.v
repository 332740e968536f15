(** * Properties C66 - C68: the simulation experiments *)

From Coq Require Import String List Arith NArith Lia ZArith QArith Qminmax Lqa Sorted.
From Verif Require Import Base Model_Agents Model_Trade Model_Market Model_Ascending Model_TradeReduction Model_McAfee
  Model_RecipeTree Model_TreeAuction Model_Experiment Spec_Market Spec_Trade Spec_TradeReduction Spec_RecipeTree Spec_TreeAuction
  Spec_Experiment Proof_Exp4 Proof_Exp5 Proof_Exp6 Proof_Exp7 Props_TreeAuction Props_TreeEff.
Import ListNotations.
Open Scope Q_scope.

(** ** C66: experiment.py

    [samples] lists, for every number of agents, the markets generated in the iterations.  For every such choice of random
    numbers the experiment succeeds, its columns are the averages of the iterations' outcomes (rounded), and they obey the
    bounds of the documentation. *)
Theorem C66_ascending : forall recipe ranges samples, experiment_input recipe ranges ->
  Forall (fun s => experiment_sample recipe ranges (fst s) (snd s)) samples ->
  exists rows, experiment ascending_auction recipe samples = Ok rows
  /\ Forall2 (fun s r => num_of_agents r = fst s /\ row_bounds r
       /\ mean_auction_market_gft r == mean_auction_total_gft r /\ market_gft_ratio r == total_gft_ratio r
       /\ exists os, Forall2 (outcome_of ascending_auction recipe) (snd s) os /\ row_averages os r /\ row_ratio os r) samples rows.
Proof. exact asc_experiment. Qed.
Print Assumptions C66_ascending.

Theorem C66_trade_reduction : forall recipe ranges samples, experiment_input recipe ranges ->
  Forall (fun s => experiment_sample recipe ranges (fst s) (snd s)) samples ->
  exists rows, experiment (fun m r => trade_reduction m r true) recipe samples = Ok rows
  /\ Forall2 (fun s r => num_of_agents r = fst s /\ row_bounds r
       /\ mean_auction_market_gft r == mean_auction_total_gft r /\ market_gft_ratio r == total_gft_ratio r
       /\ exists os, Forall2 (outcome_of (fun m r => trade_reduction m r true) recipe) (snd s) os
            /\ row_averages os r /\ row_ratio os r) samples rows.
Proof. exact tr_experiment. Qed.
Print Assumptions C66_trade_reduction.

(** McAfee's auction (its default is [h = true]). *)
Theorem C66_mcafee : forall h recipe ranges samples, experiment_input recipe ranges -> all_ones recipe ->
  (length recipe <= 2)%nat \/ h = false ->
  Forall (fun s => experiment_sample recipe ranges (fst s) (snd s)) samples ->
  exists rows, experiment (fun m r => mcafee m r h) recipe samples = Ok rows
  /\ Forall2 (fun s r => num_of_agents r = fst s /\ row_bounds r
       /\ exists os, Forall2 (outcome_of (fun m r => mcafee m r h) recipe) (snd s) os
            /\ row_averages os r /\ row_ratio os r) samples rows.
Proof. exact mcafee_experiment. Qed.
Print Assumptions C66_mcafee.

(** Without iterations: ZeroDivisionError, whatever the auction. *)
Theorem C66_no_iterations : forall auction recipe n samples,
  experiment auction recipe ((n, []) :: samples) = Raise ZeroDivisionError.
Proof. exact Proof_Exp2.experiment_no_iterations. Qed.
Print Assumptions C66_no_iterations.

(** Two iterations with three buyers and three sellers: one with a single valuable deal, one with three small ones. *)
Definition exp_market_1 : market := map (uniformly_random "agent") [[100; 3 # 10; 0]; [-(1); -(150); -(149)]].
Definition exp_market_2 : market := map (uniformly_random "agent") [[10; 12; 41 # 4]; [-(9); -(8); -(7)]].
Definition exp_ranges : list (Z * Z) := [(0, 100); (-200, 0)]%Z.
Definition exp_samples : list (nat * list market) := [(3%nat, [exp_market_1; exp_market_2])].

Lemma exp_input : experiment_input [1; 1]%nat exp_ranges.
Proof.
  split; [discriminate|]. split; [repeat constructor|]. split; [reflexivity|]. exists 200%Z. split; [lia|]. split; [|cbn; lia].
  intros lo hi [E|[E|[]]]; injection E as <- <-; lia.
Qed.

Lemma exp_valid : Forall (fun s => experiment_sample [1; 1]%nat exp_ranges (fst s) (snd s)) exp_samples.
Proof.
  constructor; [|constructor]. cbn [fst snd]. split; [discriminate|]. split; [vm_compute; discriminate|].
  assert (X : forall b s, (forall x, In x b -> 0 <= x <= 100) -> (forall x, In x s -> -(200) <= x <= 0) -> length b = 3%nat -> length s = 3%nat ->
    random_market 3 [1; 1]%nat exp_ranges (map (uniformly_random "agent") [b; s])).
  { intros b s Hb Hs Lb Ls. exists [b; s]. split; [reflexivity|]. split; [reflexivity|].
    intros [|[|i]] d r lo hi E1 E2 E3; cbn in E1, E2, E3; [| |destruct i; discriminate];
    injection E1 as <-; injection E2 as <-; injection E3 as <- <-; split; auto. }
  constructor; [|constructor; [|constructor]]; apply X; try reflexivity;
  intros x H; repeat (destruct H as [<-|H]; [unfold Qle; cbn; lia|]); destruct H.
Qed.

(** In the first iteration the only deal is lost; in the second one of three. *)
Example C66_witness : match experiment ascending_auction [1; 1]%nat exp_samples with
  | Ok [r] => mean_optimal_count r == 2 /\ mean_auction_count r == 1 /\ mean_optimal_gft r == 107 # 2
      /\ mean_auction_total_gft r == 3 /\ total_gft_ratio r == 561 # 100 /\ count_ratio r == 50
  | _ => False end.
Proof. vm_compute. repeat split; reflexivity. Qed.

(** Trade reduction with a recipe that is not all ones: two buyers' deals, four sellers. *)
Definition exp_samples_2 : list (nat * list market) :=
  [(2%nat, [map (uniformly_random "agent") [[10; 9]; [-(1); -(2); -(3); -(4)]]])].

Example C66_tr_witness : experiment_input [1; 2]%nat exp_ranges
  /\ Forall (fun s => experiment_sample [1; 2]%nat exp_ranges (fst s) (snd s)) exp_samples_2
  /\ match experiment (fun m r => trade_reduction m r true) [1; 2]%nat exp_samples_2 with
  | Ok [r] => mean_optimal_count r == 2 /\ mean_auction_count r == 1 /\ mean_optimal_gft r == 9
      /\ mean_auction_total_gft r == 5 /\ total_gft_ratio r == 5556 # 100
  | _ => False end.
Proof.
  split; [|split].
  - split; [discriminate|]. split; [repeat constructor|]. split; [reflexivity|]. exists 200%Z. split; [lia|]. split; [|cbn; lia].
    intros lo hi [E|[E|[]]]; injection E as <- <-; lia.
  - constructor; [|constructor]. cbn [fst snd]. split; [discriminate|]. split; [vm_compute; discriminate|]. constructor; [|constructor].
    eexists. split; [reflexivity|]. split; [reflexivity|].
    intros [|[|i]] d r lo hi E1 E2 E3; cbn in E1, E2, E3; [| |destruct i; discriminate];
    injection E1 as <-; injection E2 as <-; injection E3 as <- <-; (split; [reflexivity|]);
    intros x H; repeat (destruct H as [<-|H]; [unfold Qle; cbn; lia|]); destruct H.
  - vm_compute. repeat split; reflexivity.
Qed.

(** The documentation's "theoretically at least 1 - 1/k" does not hold for the columns, where k is the mean: *)
Theorem C66_mean_ratio_refuted : exists recipe ranges samples row,
  experiment_input recipe ranges /\ Forall (fun s => experiment_sample recipe ranges (fst s) (snd s)) samples
  /\ experiment ascending_auction recipe samples = Ok [row]
  /\ 0 < mean_optimal_count row /\ total_gft_ratio row < 100 * (1 - 1 / mean_optimal_count row).
Proof.
  exists [1; 1]%nat, exp_ranges, exp_samples. eexists. split; [exact exp_input|]. split; [exact exp_valid|].
  split; [vm_compute; reflexivity|]. split; vm_compute; reflexivity.
Qed.
Print Assumptions C66_mean_ratio_refuted.

(** McAfee's auction with its price heuristic and three categories: the traders' gain exceeds the total gain (the auctioneer
    pays the difference). *)
Theorem C66_mcafee_three_refuted : exists recipe ranges samples row,
  experiment_input recipe ranges /\ all_ones recipe
  /\ Forall (fun s => experiment_sample recipe ranges (fst s) (snd s)) samples
  /\ experiment (fun m r => mcafee m r true) recipe samples = Ok [row]
  /\ mean_auction_total_gft row < mean_auction_market_gft row /\ 100 < market_gft_ratio row.
Proof.
  exists [1; 1; 1]%nat, [(0, 10); (-10, 0); (-10, 0)]%Z,
    [(2%nat, [map (uniformly_random "agent") [[10; 1]; [-(1); -(5)]; [-(1); -(5)]]])]. eexists.
  split; [|split; [repeat constructor|split; [|split; [vm_compute; reflexivity|split; vm_compute; reflexivity]]]].
  - split; [discriminate|]. split; [repeat constructor|]. split; [reflexivity|]. exists 10%Z. split; [lia|]. split; [|cbn; lia].
    intros lo hi [E|[E|[E|[]]]]; injection E as <- <-; lia.
  - constructor; [|constructor]. cbn [fst snd]. split; [discriminate|]. split; [vm_compute; discriminate|]. constructor; [|constructor].
    eexists. split; [reflexivity|]. split; [reflexivity|].
    intros [|[|[|i]]] d r lo hi E1 E2 E3; cbn in E1, E2, E3; [| | |destruct i; discriminate];
    injection E1 as <-; injection E2 as <-; injection E3 as <- <-; (split; [reflexivity|]);
    intros x H; repeat (destruct H as [<-|H]; [unfold Qle; cbn; lia|]); destruct H.
Qed.
Print Assumptions C66_mcafee_three_refuted.

(** ** C67: experiment_comparing_sbb.py

    A run is a recipe and, for every number of agents, the markets generated in the iterations. *)
Theorem C67_succeeds : forall runs, Forall (fun run => snd run <> [] /\ exists ranges, experiment_input (fst run) ranges
    /\ Forall (fun ms => exists n, experiment_sample (fst run) ranges n ms) (snd run)) runs ->
  exists rows, compare_experiment runs = Ok rows /\ Forall2 cmp_consistent runs rows.
Proof. exact cmp_runs. Qed.
Print Assumptions C67_succeeds.

(** The counters and percentages, for all markets. *)
Theorem C67_counts : forall runs rows, compare_experiment runs = Ok rows ->
  Forall2 (fun run r => (exists os, Forall2 (size_total_of (fst run)) (snd run) os /\ cmp_row_of os r)
                        /\ cmp_consistent run r) runs rows.
Proof.
  intros runs rows H. assert (A := compare_counts runs rows H). assert (B := compare_consistent runs rows H).
  clear H. induction A; inversion B; subst; constructor; auto.
Qed.
Print Assumptions C67_counts.

(** For recipes of ones the two auctions always tie. *)
Theorem C67_ones_tie : forall runs, Forall (fun run => snd run <> [] /\ all_ones (fst run) /\ exists ranges, experiment_input (fst run) ranges
    /\ Forall (fun ms => exists n, experiment_sample (fst run) ranges n ms) (snd run)) runs ->
  compare_experiment runs = Ok (map (fun run => mkCR 0 100 0 0 100 0 0 (length (snd run)) 0) runs).
Proof. exact cmp_ties. Qed.
Print Assumptions C67_ones_tie.

(** ... and more generally for recipes of ones except for the last entry, such as 1:2 or 1:1:3. *)
Theorem C67_last_tie : forall runs, Forall (fun run => snd run <> [] /\ ones_but_last (fst run) /\ exists ranges, experiment_input (fst run) ranges
    /\ Forall (fun ms => exists n, experiment_sample (fst run) ranges n ms) (snd run)) runs ->
  compare_experiment runs = Ok (map (fun run => mkCR 0 100 0 0 100 0 0 (length (snd run)) 0) runs).
Proof. exact cmp_ties_last. Qed.
Print Assumptions C67_last_tie.

(** With an empty list of numbers of agents: ZeroDivisionError. *)
Theorem C67_no_sizes : forall recipe runs, compare_experiment ((recipe, []) :: runs) = Raise ZeroDivisionError.
Proof. reflexivity. Qed.
Print Assumptions C67_no_sizes.

(** One run with the recipe (1,1) and one with (2,1), where trade reduction wins for one of three sizes: 33 + 66 is 99. *)
Definition cmp_market_2 : market := map (uniformly_random "agent") [[40; 21; 17; 10]; [-(11); -(14)]].
Definition cmp_market_1 : market := map (uniformly_random "agent") [[40; 21]; [-(11)]].
Definition cmp_runs_example : list (list nat * list (list market)) :=
  [([1; 1]%nat, [[exp_market_1; exp_market_2]]);
   ([2; 1]%nat, [[cmp_market_1; cmp_market_1]; [cmp_market_2; cmp_market_2]; [cmp_market_1]])].

Example C67_witness : Forall (fun run => snd run <> [] /\ exists ranges, experiment_input (fst run) ranges
    /\ Forall (fun ms => exists n, experiment_sample (fst run) ranges n ms) (snd run)) cmp_runs_example.
Proof.
  constructor; [|constructor; [|constructor]]; cbn [fst snd]; (split; [discriminate|]).
  - exists exp_ranges. split; [exact exp_input|]. constructor; [|constructor]. exists 3%nat. pose proof exp_valid as V. inversion V; assumption.
  - exists exp_ranges. split.
    + split; [discriminate|]. split; [repeat constructor|]. split; [reflexivity|]. exists 200%Z. split; [lia|]. split; [|cbn; lia].
      intros lo hi [E|[E|[]]]; injection E as <- <-; lia.
    + assert (X1 : random_market 1 [2; 1]%nat exp_ranges cmp_market_1).
      { eexists. split; [reflexivity|]. split; [reflexivity|].
        intros [|[|i]] d r lo hi E1 E2 E3; cbn in E1, E2, E3; [| |destruct i; discriminate];
        injection E1 as <-; injection E2 as <-; injection E3 as <- <-; (split; [reflexivity|]);
        intros x H; repeat (destruct H as [<-|H]; [unfold Qle; cbn; lia|]); destruct H. }
      assert (X2 : random_market 2 [2; 1]%nat exp_ranges cmp_market_2).
      { eexists. split; [reflexivity|]. split; [reflexivity|].
        intros [|[|i]] d r lo hi E1 E2 E3; cbn in E1, E2, E3; [| |destruct i; discriminate];
        injection E1 as <-; injection E2 as <-; injection E3 as <- <-; (split; [reflexivity|]);
        intros x H; repeat (destruct H as [<-|H]; [unfold Qle; cbn; lia|]); destruct H. }
      repeat constructor; [exists 1%nat|exists 2%nat|exists 1%nat];
        (split; [discriminate|split; [vm_compute; discriminate|repeat constructor; assumption]]).
Qed.

Definition cmp_market_12 : market := map (uniformly_random "agent") [[40; 21]; [-(11); -(14); -(5); -(7)]].

Example C67_last_witness : ones_but_last [1; 2]%nat /\ experiment_input [1; 2]%nat exp_ranges
  /\ experiment_sample [1; 2]%nat exp_ranges 2 [cmp_market_12]
  /\ compare_experiment [([1; 2]%nat, [[cmp_market_12]])] = Ok [mkCR 0 100 0 0 100 0 0 1 0].
Proof.
  split; [exists 1%nat, 2%nat; split; [lia|reflexivity]|]. split; [|split].
  - split; [discriminate|]. split; [repeat constructor|]. split; [reflexivity|]. exists 200%Z. split; [lia|]. split; [|cbn; lia].
    intros lo hi [E|[E|[]]]; injection E as <- <-; lia.
  - split; [discriminate|]. split; [vm_compute; discriminate|]. constructor; [|constructor].
    eexists. split; [reflexivity|]. split; [reflexivity|].
    intros [|[|i]] d r lo hi E1 E2 E3; cbn in E1, E2, E3; [| |destruct i; discriminate];
    injection E1 as <-; injection E2 as <-; injection E3 as <- <-; (split; [reflexivity|]);
    intros x H; repeat (destruct H as [<-|H]; [unfold Qle; cbn; lia|]); destruct H.
  - vm_compute. reflexivity.
Qed.

Example C67_run : compare_experiment cmp_runs_example
  = Ok [mkCR 0 100 0 0 100 0 0 1 0; mkCR 33 66 0 0 100 0 1 2 0].
Proof. vm_compute. reflexivity. Qed.

(** ** C68: experiment_ascending_auction_recipetree_random.py

    The auction is run with initial prices [p0 m] that the linear program finds for the market [m].  If no auction raises an
    exception (C38, C41), the experiment succeeds, its columns are the averages, and they obey the bounds. *)
Theorem C68_rows : forall M p0 fuel struct samples, 0 < M ->
  Forall (fun s => snd s <> [] /\ Forall (tree_input M p0 struct) (snd s)
    /\ Forall (fun m => exists r, tree_auction M (p0 m) fuel m struct = Ok r) (snd s)) samples ->
  exists rows, tree_experiment (fun m => tree_auction M (p0 m) fuel m struct) struct samples = Ok rows
  /\ Forall2 (fun s r => tr_numofagents r = fst s /\ tree_row_bounds r
       /\ gftformula r == Qmax 0 ((meanoptimalkmin r - 1) / (meanoptimalkmin r + 1) * 100)
       /\ exists os, Forall2 (tree_outcome_of (fun m => tree_auction M (p0 m) fuel m struct) struct) (snd s) os
          /\ tree_row_averages os r
          /\ (Forall (tree_input_competitive M struct) (snd s) -> forall K, 0 < K ->
              Forall (fun o => K <= inject_Z (Z.of_N (to_kmin o))) os -> Exists (fun o => 0 < to_opt o) os ->
              100 * (1 - 1 / K) <= totalgftratio r)) samples rows.
Proof. exact tree_experiment_ok. Qed.
Print Assumptions C68_rows.

(** With one iteration, "gftformula" is a lower bound of "totalgftratio". *)
Theorem C68_formula : forall M p0 fuel struct n m r row, 0 < M -> tree_input M p0 struct m ->
  tree_input_competitive M struct m -> tree_auction M (p0 m) fuel m struct = Ok r ->
  tree_experiment (fun m => tree_auction M (p0 m) fuel m struct) struct [(n, [m])] = Ok [row] ->
  0 < meanoptimalgft row -> gftformula row <= totalgftratio row.
Proof. exact tree_experiment_single. Qed.
Print Assumptions C68_formula.

(** Without iterations: ZeroDivisionError. *)
Theorem C68_no_iterations : forall auction struct n samples,
  tree_experiment auction struct ((n, []) :: samples) = Raise ZeroDivisionError.
Proof. reflexivity. Qed.
Print Assumptions C68_no_iterations.

(** The market of C63 (three deals, gain 27, of which the auction attains 20), and one with a single deal, which is lost. *)
Definition lost_market : market := [mkCat "buyer" [100; 3; 2]; mkCat "seller" [-(40); -(41); -(42)]].

Definition tree_p0 (m : market) : list Q := ratio_p0.

Lemma ratio_input : forall m, length m = 2%nat -> sorted_market m -> values_above (- MAX_VALUE) m -> tree_input MAX_VALUE tree_p0 ratio_struct m.
Proof.
  intros m L S V. split; [exact S|]. split; [exact V|]. intros t rs Ht Hrs. unfold new_tree in Ht. cbn -[Nat.ltb] in Ht.
  rewrite L in *. cbn in Ht. injection Ht as <-. cbn in Hrs. injection Hrs as <-. split.
  - unfold distinct_categories; simpl; repeat constructor; simpl; intuition discriminate.
  - split; [reflexivity|]. split; [repeat constructor; unfold Qle; simpl; lia|]. exists (- (2) * MAX_VALUE). intros r [<-|[]]; reflexivity.
Qed.

Lemma ratio_market_input : tree_input MAX_VALUE tree_p0 ratio_struct ratio_market.
Proof.
  apply ratio_input; [reflexivity|unfold sorted_market, desc; repeat constructor; unfold Qle; simpl; lia|].
  unfold values_above; apply in_values; repeat constructor; unfold Qle; simpl; lia.
Qed.
Lemma lost_market_input : tree_input MAX_VALUE tree_p0 ratio_struct lost_market.
Proof.
  apply ratio_input; [reflexivity|unfold sorted_market, desc; repeat constructor; unfold Qle; simpl; lia|].
  unfold values_above; apply in_values; repeat constructor; unfold Qle; simpl; lia.
Qed.
Lemma ratio_market_competitive : tree_input_competitive MAX_VALUE ratio_struct ratio_market.
Proof.
  split; [apply no_ties_intro; repeat constructor; simpl; intros F; discriminate F|].
  intros t Ht. vm_compute in Ht. injection Ht as <-. split; [|intros i [<-|[<-|[]]]; vm_compute; lia].
  exists 100. split; [unfold values_within; apply in_values; repeat constructor; unfold Qle; simpl; lia|unfold Qle; simpl; lia].
Qed.
Lemma lost_market_competitive : tree_input_competitive MAX_VALUE ratio_struct lost_market.
Proof.
  split; [apply no_ties_intro; repeat constructor; simpl; intros F; discriminate F|].
  intros t Ht. vm_compute in Ht. injection Ht as <-. split; [|intros i [<-|[<-|[]]]; vm_compute; lia].
  exists 100. split; [unfold values_within; apply in_values; repeat constructor; unfold Qle; simpl; lia|unfold Qle; simpl; lia].
Qed.

(** The hypotheses are met, and the row of the first market has formula 50% and ratio 20/27. *)
Example C68_witness : exists row,
  Forall (tree_input MAX_VALUE tree_p0 ratio_struct) [ratio_market; lost_market]
  /\ Forall (tree_input_competitive MAX_VALUE ratio_struct) [ratio_market; lost_market]
  /\ (exists r, tree_auction MAX_VALUE (tree_p0 ratio_market) 20 ratio_market ratio_struct = Ok r)
  /\ tree_experiment (fun m => tree_auction MAX_VALUE (tree_p0 m) 20 m ratio_struct) ratio_struct [(3%nat, [ratio_market])] = Ok [row]
  /\ gftformula row == 50 /\ totalgftratio row == 2000 # 27 /\ meanoptimalgft row == 27.
Proof.
  eexists. split; [constructor; [exact ratio_market_input|constructor; [exact lost_market_input|constructor]]|].
  split; [constructor; [exact ratio_market_competitive|constructor; [exact lost_market_competitive|constructor]]|].
  split; [eexists; vm_compute; reflexivity|]. split; [vm_compute; reflexivity|]. repeat split; vm_compute; reflexivity.
Qed.

(** For the mean of several iterations, "gftformula" may exceed "totalgftratio": one iteration loses a single large deal. *)
Theorem C68_mean_formula_refuted : exists p0 struct ms row, length ms = 2%nat
  /\ Forall (tree_input MAX_VALUE p0 struct) ms /\ Forall (tree_input_competitive MAX_VALUE struct) ms
  /\ tree_experiment (fun m => tree_auction MAX_VALUE (p0 m) 20 m struct) struct [(3%nat, ms)] = Ok [row]
  /\ 0 < meanoptimalgft row /\ totalgftratio row < gftformula row.
Proof.
  exists tree_p0, ratio_struct, [ratio_market; lost_market]. eexists. split; [reflexivity|].
  split; [constructor; [exact ratio_market_input|constructor; [exact lost_market_input|constructor]]|].
  split; [constructor; [exact ratio_market_competitive|constructor; [exact lost_market_competitive|constructor]]|].
  split; [vm_compute; reflexivity|]. split; vm_compute; reflexivity.
Qed.
Print Assumptions C68_mean_formula_refuted.

(** If no deal is possible, the counters report kmin = 99999: the formula claims more than 99.9%, while the ratio is 0.  Such an
    iteration also distorts the mean. *)
Theorem C68_no_deal_refuted : exists p0 struct m row,
  tree_input MAX_VALUE p0 struct m /\ tree_input_competitive MAX_VALUE struct m
  /\ tree_experiment (fun m => tree_auction MAX_VALUE (p0 m) 20 m struct) struct [(1%nat, [m])] = Ok [row]
  /\ meanoptimalcount row == 0 /\ meanoptimalkmin row == 99999 /\ meanoptimalkmax row == 0
  /\ totalgftratio row == 0 /\ (999 # 10) < gftformula row.
Proof.
  exists tree_p0, ratio_struct, [mkCat "buyer" [1]; mkCat "seller" [-(5)]]. eexists. split.
  { apply ratio_input; [reflexivity|unfold sorted_market, desc; repeat constructor; unfold Qle; simpl; lia|].
    unfold values_above; apply in_values; repeat constructor; unfold Qle; simpl; lia. }
  split.
  { split; [apply no_ties_intro; repeat constructor; simpl; intros F; discriminate F|].
    intros t Ht. vm_compute in Ht. injection Ht as <-. split; [|intros i [<-|[<-|[]]]; vm_compute; lia].
    exists 100. split; [unfold values_within; apply in_values; repeat constructor; unfold Qle; simpl; lia|unfold Qle; simpl; lia]. }
  split; [vm_compute; reflexivity|]. repeat split; vm_compute; reflexivity.
Qed.
Print Assumptions C68_no_deal_refuted.
