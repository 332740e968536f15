(** * Properties C69, C70: the experiments on stock prices, and on random markets with the integer tree *)

From Coq Require Import String List Arith NArith Lia ZArith QArith Qround Qminmax Lqa Sorted.
From Verif Require Import Base Model_Agents Model_Trade Model_Market Model_RecipeTree Model_TreeAuction Model_IntTree Model_IntAuction
  Model_Experiment Model_StockExperiment Spec_Market Spec_RecipeTree Spec_TreeAuction Spec_Experiment Spec_StockExperiment
  Proof_Stock Props_Ascending Props_TreeEff Props_Experiment Props_Int.
Import ListNotations.
Open Scope Q_scope.

(** ** C69: experiment_ascending_auction_recipetree_stock.py

    [stocks] lists, for every stock and iteration, the prices of the categories after the shuffles.  If no auction raises an
    exception and the numbers of agents are given in increasing order, the experiment succeeds.  A row holds, for its number
    of agents [n], the sums over the runs (stock and iteration) that reach [n], divided by the number of all runs. *)
Theorem C69_rows : forall M p0 fuel struct counts nums its stocks, 0 < M -> (0 < its)%nat -> stocks <> [] ->
  Forall (fun k => 0 <= k) counts -> Sorted.StronglySorted lt nums ->
  Forall (fun s => length s = its /\ Forall (run_ok M p0 fuel struct counts nums) s) stocks ->
  let auction := fun m => tree_auction M (p0 m) fuel m struct in
  exists rows, stock_experiment auction struct counts nums its stocks = Ok rows
  /\ Forall2 (fun n row => exists ms os, used_markets nums counts n (concat stocks) ms
       /\ Forall2 (tree_outcome_of auction struct) ms os
       /\ (os = [] -> row = (None, 0))
       /\ (os <> [] -> exists r, row = (Some r, formula_of (sr_kmin r)) /\ stock_columns (Qn (length stocks * its)) os r
            /\ first_possible nums n (concat stocks) (sr_possible r) /\ stock_bounds r /\ 0 <= formula_of (sr_kmin r) < 100
            /\ (Forall (tree_input_competitive M struct) ms -> length os = (length stocks * its)%nat -> forall K, 0 < K ->
                Forall (fun o => K <= inject_Z (Z.of_N (to_kmin o)) /\ 0 < to_opt o) os -> 100 * (1 - 1 / K) <= sr_gft_ratio r))) nums rows.
Proof. exact stock_experiment_ok. Qed.
Print Assumptions C69_rows.

(** Two stocks, one with three buyers and sellers, one with a single pair. *)
Definition stock_a : list (list Q) := [[20; 31; 42]; [-(21); -(1); -(12)]].
Definition stock_b : list (list Q) := [[10]; [-(5)]].
Definition stock_auction : market -> result tree_trade := fun m => tree_auction MAX_VALUE (tree_p0 m) 20 m ratio_struct.
Definition two_stocks : list (list (list (list Q))) := [[stock_a]; [stock_b]].
Definition stock_nums : list nat := [1; 2; 3]%nat.

Lemma two_cut : forall n b s, (n <= 3)%nat -> stock_market [1; 1] n [b; s]
  [new_category "agent" (if (length b <? n)%nat then b else firstn n b); new_category "agent" (if (length b <? n)%nat then s else firstn n s)].
Proof.
  intros n b s L. split; [reflexivity|]. unfold available. assert (E : Z.to_nat (Qfloor (Qn n * 1)) = n).
  { destruct n as [|[|[|[|n]]]]; try reflexivity; lia. }
  intros [|[|j]] prices k E1 E2; cbn in E1, E2; [| |destruct j; discriminate]; injection E1 as <-; injection E2 as <-; cbn [nth_error]; rewrite E; reflexivity.
Qed.

Ltac stock_input := apply ratio_input;
  [reflexivity | unfold sorted_market, desc; repeat constructor; unfold Qle; simpl; lia
  | unfold values_above; apply in_values; repeat constructor; unfold Qle; simpl; lia].

Lemma stock_a_ok : run_ok MAX_VALUE tree_p0 20 ratio_struct [1; 1] stock_nums stock_a.
Proof.
  split; [discriminate|]. split; [cbn; lia|]. intros n [I _].
  assert (L : (n <= 3)%nat) by (destruct I as [<-|[<-|[<-|[]]]]; lia).
  eexists. destruct I as [<-|[<-|[<-|[]]]]; (eexists; split; [apply two_cut; exact L|]; split; [stock_input|vm_compute; reflexivity]).
Qed.

Lemma stock_b_ok : run_ok MAX_VALUE tree_p0 20 ratio_struct [1; 1] stock_nums stock_b.
Proof.
  split; [discriminate|]. split; [cbn; lia|]. intros n [I _].
  assert (L : (n <= 3)%nat) by (destruct I as [<-|[<-|[<-|[]]]]; lia).
  eexists. destruct I as [<-|[<-|[<-|[]]]]; (eexists; split; [apply two_cut; exact L|]; split; [stock_input|vm_compute; reflexivity]).
Qed.

(** The hypotheses are met; the small stock is used for n = 1 and n = 2 (with its single pair), not for n = 3. *)
Example C69_witness :
  Sorted.StronglySorted lt stock_nums
  /\ Forall (fun s => length s = 1%nat /\ Forall (run_ok MAX_VALUE tree_p0 20 ratio_struct [1; 1] stock_nums) s) two_stocks
  /\ used stock_nums stock_b 1 /\ used stock_nums stock_b 2 /\ ~ used stock_nums stock_b 3
  /\ exists r1 f1 r2 r3, stock_experiment stock_auction ratio_struct [1; 1] stock_nums 1 two_stocks
       = Ok [(Some r1, f1); (Some r2, 0); (Some r3, 0)]
     /\ sr_possible r2 = 2%nat /\ sr_optimal_gft r2 == 35 # 2 /\ sr_gft r2 == 15 /\ sr_gft_ratio r2 == 50.
Proof.
  split; [repeat constructor; lia|].
  split. { constructor; [split; [reflexivity|constructor; [exact stock_a_ok|constructor]]|].
    constructor; [split; [reflexivity|constructor; [exact stock_b_ok|constructor]]|constructor]. }
  split; [split; [cbn; auto|intros x [<-|[<-|[<-|[]]]] A; cbn in A; lia]|].
  split; [split; [cbn; auto|intros x [<-|[<-|[<-|[]]]] A; cbn in A; lia]|].
  split; [intros [_ A]; specialize (A 2%nat ltac:(cbn; auto) ltac:(cbn; lia)); lia|].
  do 4 eexists. split; [vm_compute; reflexivity|]. repeat split; vm_compute; reflexivity.
Qed.

(** The columns are not the averages over the auctions that were held: a stock with too few prices counts as a zero.  For the
    third row a single auction was held, which attained the optimal gain 60; the row says 30, and a ratio of 50%. *)
Theorem C69_average_refuted : exists struct counts nums its stocks p0 fuel row1 row2 r3 f3 m t r opt k kmin kmax,
  Sorted.StronglySorted lt nums
  /\ Forall (fun s => length s = its /\ Forall (run_ok MAX_VALUE p0 fuel struct counts nums) s) stocks
  /\ stock_experiment (fun m => tree_auction MAX_VALUE (p0 m) fuel m struct) struct counts nums its stocks = Ok [row1; row2; (Some r3, f3)]
  /\ used_markets nums counts (nth 2 nums 0%nat) (concat stocks) [m]
  /\ new_tree m struct = Ok t /\ optimal_trade_with_counters m t = (opt, (k, 60, kmin, kmax))
  /\ tree_auction MAX_VALUE (p0 m) fuel m struct = Ok r /\ tt_gft r == 60
  /\ sr_optimal_gft r3 == 30 /\ sr_gft r3 == 30 /\ sr_gft_ratio r3 == 50.
Proof.
  exists ratio_struct, [1; 1], stock_nums, 1%nat, two_stocks, tree_p0, 20%nat. do 4 eexists.
  exists [new_category "agent" [20; 31; 42]; new_category "agent" [-(21); -(1); -(12)]].
  do 6 eexists. split; [repeat constructor; lia|]. split.
  { constructor; [split; [reflexivity|constructor; [exact stock_a_ok|constructor]]|].
    constructor; [split; [reflexivity|constructor; [exact stock_b_ok|constructor]]|constructor]. }
  split; [vm_compute; reflexivity|]. split.
  { constructor; [split; [cbn; auto|intros x [<-|[<-|[<-|[]]]] A; cbn in A; lia] |exact (two_cut 3 [20; 31; 42] [-(21); -(1); -(12)] (le_n 3))|].
    apply um_skip; [intros [_ A]; specialize (A 2%nat ltac:(cbn; auto) ltac:(cbn; lia)); cbn in A; lia|constructor]. }
  split; [vm_compute; reflexivity|]. split; [vm_compute; reflexivity|]. split; [vm_compute; reflexivity|].
  repeat split; vm_compute; reflexivity.
Qed.
Print Assumptions C69_average_refuted.

(** If a number of agents is listed twice, its outcomes are counted twice, and divided once for the first row and twice for the
    second: the first row reports a ratio of 200%. *)
Theorem C69_duplicates_refuted : exists struct counts n its stocks p0 fuel r1 f1 r2 f2,
  Forall (fun s => length s = its /\ Forall (run_ok MAX_VALUE p0 fuel struct counts [n; n]) s) stocks
  /\ stock_experiment (fun m => tree_auction MAX_VALUE (p0 m) fuel m struct) struct counts [n; n] its stocks = Ok [(Some r1, f1); (Some r2, f2)]
  /\ sr_gft_ratio r1 == 200 /\ sr_gft r1 == 60 /\ sr_gft_ratio r2 == 100 /\ sr_gft r2 == 30.
Proof.
  exists ratio_struct, [1; 1], 2%nat, 2%nat, [[stock_a; stock_a]], tree_p0, 20%nat. do 4 eexists. split.
  { assert (X : run_ok MAX_VALUE tree_p0 20 ratio_struct [1; 1] [2; 2]%nat stock_a).
    { split; [discriminate|]. split; [cbn; lia|]. intros n [I _]. destruct I as [<-|[<-|[]]];
        (eexists; eexists; split; [apply (two_cut 2); lia|]; split; [stock_input|vm_compute; reflexivity]). }
    constructor; [split; [reflexivity|constructor; [exact X|constructor; [exact X|constructor]]]|constructor]. }
  split; [vm_compute; reflexivity|]. repeat split; vm_compute; reflexivity.
Qed.
Print Assumptions C69_duplicates_refuted.

(** If the numbers of agents are not increasing, rows are lost: the loop stops at the second number that exceeds the prices, so
    a later number that the prices would suffice for gets a row without results. *)
Theorem C69_unsorted_refuted : exists struct counts its stocks p0 fuel r1 f1,
  Forall (fun s => length s = its /\ Forall (fun cats => available cats = 3%nat) s) stocks
  /\ stock_experiment (fun m => tree_auction MAX_VALUE (p0 m) fuel m struct) struct counts [5; 4; 2]%nat its stocks = Ok [(Some r1, f1); (None, 0); (None, 0)]
  /\ exists r, stock_experiment (fun m => tree_auction MAX_VALUE (p0 m) fuel m struct) struct counts [2]%nat its stocks = Ok [(Some r, 0)]
     /\ sr_gft r == 30.
Proof.
  exists ratio_struct, [1; 1], 1%nat, [[stock_a]], tree_p0, 20%nat. do 2 eexists. split; [repeat constructor|].
  split; [vm_compute; reflexivity|]. eexists. split; vm_compute; reflexivity.
Qed.
Print Assumptions C69_unsorted_refuted.

(** An auction on a market without a deal counts with kmin = 99999: "gftformula" claims more than 99.9%, "gftratio" is 0. *)
Theorem C69_formula_refuted : exists struct counts nums its stocks p0 fuel r1 f1 row2 row3,
  Sorted.StronglySorted lt nums
  /\ Forall (fun s => length s = its /\ Forall (run_ok MAX_VALUE p0 fuel struct counts nums) s) stocks
  /\ stock_experiment (fun m => tree_auction MAX_VALUE (p0 m) fuel m struct) struct counts nums its stocks = Ok [(Some r1, f1); row2; row3]
  /\ sr_gft_ratio r1 == 0 /\ 999 # 10 < f1 /\ sr_count r1 == 1 # 2.
Proof.
  exists ratio_struct, [1; 1], stock_nums, 1%nat, two_stocks, tree_p0, 20%nat. do 4 eexists. split; [repeat constructor; lia|]. split.
  { constructor; [split; [reflexivity|constructor; [exact stock_a_ok|constructor]]|].
    constructor; [split; [reflexivity|constructor; [exact stock_b_ok|constructor]]|constructor]. }
  split; [vm_compute; reflexivity|]. repeat split; vm_compute; reflexivity.
Qed.
Print Assumptions C69_formula_refuted.

(** ** C70: experiment_ascending_auction_recipetree_integer_random.py

    Whatever the random markets, the auction, and the numbers of agents: for a recipe tree with more than one category the
    experiment raises an exception in its first iteration (C47), so it never writes a row. *)
Theorem C70_raises : forall auction struct counts n m ms samples i ch,
  new_int_tree m counts struct = Ok (Node i ch) -> ch <> [] ->
  int_experiment auction struct counts ((n, m :: ms) :: samples) = Raise TypeError
  \/ int_experiment auction struct counts ((n, m :: ms) :: samples) = Raise IndexError.
Proof.
  intros auction struct counts n m ms samples i ch T H. cbn [int_experiment int_iterations]. unfold int_iteration. rewrite T. cbn [bind].
  destruct (C47_counters_raise m counts i ch H) as [-> | ->]; cbn [bind]; auto.
Qed.
Print Assumptions C70_raises.

Theorem C70_no_iterations : forall auction struct counts n samples,
  int_experiment auction struct counts ((n, []) :: samples) = Raise ZeroDivisionError.
Proof. reflexivity. Qed.
Print Assumptions C70_no_iterations.

(** The recipe of the script: the example of the paper. *)
Example C70_witness : exists m struct counts i ch, new_int_tree m counts struct = Ok (Node i ch) /\ ch <> []
  /\ int_experiment (fun _ => Ok (0%nat, 0)) struct counts [(2%nat, [m])] = Raise TypeError.
Proof.
  exists [mkCat "buyer" [10; 9]; mkCat "seller" [-(1); -(2)]], ratio_struct, [1; 1]%nat. do 2 eexists.
  split; [vm_compute; reflexivity|]. split; [discriminate|vm_compute; reflexivity].
Qed.
