(** * Specification notions for the experiments (C66 - C68) *)

From Coq Require Import String List Arith NArith ZArith QArith.
From Verif Require Import Base Model_Agents Model_Trade Model_Market Model_Ascending Model_TradeReduction Model_Experiment
  Model_RecipeTree Model_TreeAuction Spec_Market Spec_Trade Spec_RecipeTree Spec_TreeAuction.
Import ListNotations.
Open Scope Q_scope.

(** [x] is [y] up to a rounding error of at most half a hundredth. *)
Definition rounded (y x : Q) : Prop := y - (1 # 200) <= x <= y + (1 # 200).

(** A market that the experiment may generate: [n * recipe[i]] random numbers between [lo] and [hi] for category [i]. *)
Definition random_market (n : nat) (recipe : list nat) (ranges : list (Z * Z)) (m : market) : Prop :=
  exists draws, m = map (uniformly_random "agent") draws /\ length draws = length recipe
    /\ forall i d r lo hi, nth_error draws i = Some d -> nth_error recipe i = Some r -> nth_error ranges i = Some (lo, hi) ->
         length d = (n * r)%nat /\ forall x, In x d -> inject_Z lo <= x <= inject_Z hi.

(** What one iteration contributes: the largest number of deals of an optimal trade and its gain; the number of deals of the
    auction, and its gain with and without the auctioneer's share. *)
Record iteration_outcome : Type := mkOut { out_k : nat; out_opt : Q; out_deals : nat; out_total : Q; out_market : Q }.

Definition outcome_of (auction : market -> list nat -> result trade) (recipe : list nat) (m : market) (o : iteration_outcome) : Prop :=
  (exists D, optimal m recipe D /\ length D = out_k o /\ total_gain D == out_opt o)
  /\ (forall D, optimal m recipe D -> (length D <= out_k o)%nat)
  /\ exists t, auction m recipe = Ok t /\ num_of_deals t = out_deals o
       /\ gain_from_trade t true = Ok (out_total o) /\ gain_from_trade t false = Ok (out_market o).

(** The averages of a row. *)
Definition row_averages (os : list iteration_outcome) (r : row) : Prop :=
  iterations r = length os
  /\ rounded (average (map (fun o => Qn (out_k o)) os)) (mean_optimal_count r)
  /\ rounded (average (map (fun o => Qn (out_deals o)) os)) (mean_auction_count r)
  /\ rounded (average (map out_opt os)) (mean_optimal_gft r)
  /\ rounded (average (map out_total os)) (mean_auction_total_gft r)
  /\ rounded (average (map out_market os)) (mean_auction_market_gft r).

(** What the documentation (experiment.py:11-23) promises about the columns, for a mechanism that loses at most one deal. *)
Definition row_bounds (r : row) : Prop :=
  mean_optimal_count r - 1 <= mean_auction_count r <= mean_optimal_count r
  /\ 0 <= count_ratio r <= 100
  /\ 0 <= total_gft_ratio r <= 100
  /\ 0 <= mean_auction_total_gft r <= mean_optimal_gft r
  /\ 0 <= market_gft_ratio r <= total_gft_ratio r
  /\ 0 <= mean_auction_market_gft r <= mean_auction_total_gft r.

(** The competitive ratio, for the smallest number of optimal deals [K] of all iterations. *)
Definition row_ratio (os : list iteration_outcome) (r : row) : Prop :=
  forall K, (0 < K)%nat -> Forall (fun o => (K <= out_k o)%nat) os -> Exists (fun o => 0 < out_opt o) os ->
  100 * (1 - 1 / Qn K) - (1 # 200) <= total_gft_ratio r.

(** ** Inputs *)

(** A recipe of positive integers with one range per category, such that one deal's values stay below the auctions' price
    bound (10^8) . *)
Definition experiment_input (recipe : list nat) (ranges : list (Z * Z)) : Prop :=
  recipe <> [] /\ Forall (fun r => (0 < r)%nat) recipe /\ length ranges = length recipe
  /\ exists B, (0 <= B)%Z /\ (forall lo hi, In (lo, hi) ranges -> - B <= lo /\ hi <= B)%Z
       /\ (B * Z.of_nat (nsum recipe) < 100000000)%Z.

(** The markets generated for [n] agents per category: at least one, and at most 2000000 deals per market (the bound on the
    number of deals of [optimal_trade]). *)
Definition experiment_sample (recipe : list nat) (ranges : list (Z * Z)) (n : nat) (ms : list market) : Prop :=
  ms <> [] /\ (N.of_nat n <= 2000000)%N /\ Forall (random_market n recipe ranges) ms.

(** ** The comparison of two auctions: every number of agents is counted exactly once, and the percentages add up to 100, up
    to the truncation of each to an integer. *)
Definition cmp_consistent (run : list nat * list (list market)) (r : cmp_row) : Prop :=
  (external_wins r + ties r + ascending_wins r = length (snd run))%nat
  /\ (98 <= external_wins_gft_pct r + tie_gft_pct r + ascending_wins_gft_pct r <= 100)%Z
  /\ (98 <= external_wins_k_pct r + tie_k_pct r + ascending_wins_k_pct r <= 100)%Z
  /\ (0 <= external_wins_gft_pct r /\ 0 <= tie_gft_pct r /\ 0 <= ascending_wins_gft_pct r)%Z
  /\ (0 <= external_wins_k_pct r /\ 0 <= tie_k_pct r /\ 0 <= ascending_wins_k_pct r)%Z.


(** The total results of both auctions over the markets of one number of agents: deals and gains. *)
Record size_total : Type := mkTotal { ext_deals : nat; asc_deals : nat; ext_gain : Q; asc_gain : Q }.

Definition size_total_of (recipe : list nat) (ms : list market) (o : size_total) : Prop :=
  exists tes tas ges gas,
    map (fun m => trade_reduction m recipe true) ms = map Ok tes /\ map (fun m => ascending_auction m recipe) ms = map Ok tas
    /\ map (fun t => gain_from_trade t true) tes = map Ok ges /\ map (fun t => gain_from_trade t true) tas = map Ok gas
    /\ ext_deals o = nsum (map num_of_deals tes) /\ asc_deals o = nsum (map num_of_deals tas)
    /\ ext_gain o == Qsum ges /\ asc_gain o == Qsum gas.

Definition how_many {A} (p : A -> bool) (l : list A) : nat := length (filter p l).
Definition share (x n : nat) : Z := (100 * Z.of_nat x / Z.of_nat n)%Z.

(** The row of one recipe counts, over the numbers of agents, who has the larger total. *)
Definition cmp_row_of (os : list size_total) (r : cmp_row) : Prop :=
  let n := length os in
  external_wins r = how_many (fun o => Qlt_bool (asc_gain o) (ext_gain o)) os
  /\ ties r = how_many (fun o => Qeq_bool (asc_gain o) (ext_gain o)) os
  /\ ascending_wins r = how_many (fun o => Qlt_bool (ext_gain o) (asc_gain o)) os
  /\ external_wins_gft_pct r = share (external_wins r) n /\ tie_gft_pct r = share (ties r) n
  /\ ascending_wins_gft_pct r = share (ascending_wins r) n
  /\ external_wins_k_pct r = share (how_many (fun o => asc_deals o <? ext_deals o)%nat os) n
  /\ tie_k_pct r = share (how_many (fun o => asc_deals o =? ext_deals o)%nat os) n
  /\ ascending_wins_k_pct r = share (how_many (fun o => ext_deals o <? asc_deals o)%nat os) n.

(** ** The experiment with recipe trees *)

(** What one iteration contributes. *)
Record tree_outcome : Type := mkTO { to_k : nat; to_opt : Q; to_kmin : N; to_kmax : N; to_deals : nat; to_gft : Q }.

(** [kmin] and [kmax] are the smallest and the largest number of deals on one of the paths used by the optimal deals [D]. *)
Definition path_counts (D : list tree_deal) (kmin kmax : N) : Prop :=
  (D = [] -> kmin = 99999%N /\ kmax = 0%N)
  /\ (D <> [] -> (exists d, In d D /\ kmin = N.of_nat (deals_on (fst d) D))
                /\ (exists d, In d D /\ kmax = N.of_nat (deals_on (fst d) D))
                /\ forall d, In d D -> (kmin <= N.of_nat (deals_on (fst d) D) <= kmax)%N).

Definition tree_outcome_of (auction : market -> result tree_trade) (struct : pystruct) (m : market) (o : tree_outcome) : Prop :=
  (exists t D, new_tree m struct = Ok t /\ tree_optimal m t D
     /\ (forall D', tree_optimal m t D' -> (length D' <= length D)%nat)
     /\ length D = to_k o /\ tree_gain D == to_opt o /\ path_counts D (to_kmin o) (to_kmax o))
  /\ exists r, auction m = Ok r /\ tt_deals r = to_deals o /\ tt_gft r = to_gft o.

Definition tree_row_averages (os : list tree_outcome) (r : tree_row) : Prop :=
  tr_iterations r = length os
  /\ meanoptimalcount r == average (map (fun o => Qn (to_k o)) os)
  /\ meanoptimalkmin r == average (map (fun o => inject_Z (Z.of_N (to_kmin o))) os)
  /\ meanoptimalkmax r == average (map (fun o => inject_Z (Z.of_N (to_kmax o))) os)
  /\ meanauctioncount r == average (map (fun o => Qn (to_deals o)) os)
  /\ meanoptimalgft r == average (map to_opt os)
  /\ meanauctiontotalgft r == average (map to_gft os).

(** The bounds the columns obey. *)
Definition tree_row_bounds (r : tree_row) : Prop :=
  0 <= meanauctioncount r <= meanoptimalcount r /\ 0 <= countratio r <= 100
  /\ 0 <= meanauctiontotalgft r <= meanoptimalgft r /\ 0 <= totalgftratio r <= 100
  /\ 0 <= gftformula r < 100
  /\ (0 < meanoptimalcount r -> countratio r == meanauctioncount r / meanoptimalcount r * 100)
  /\ (0 < meanoptimalgft r -> totalgftratio r == meanauctiontotalgft r / meanoptimalgft r * 100).

(** A market and initial prices that the tree auction is meant for. *)
Definition tree_input (M : Q) (p0 : market -> list Q) (struct : pystruct) (m : market) : Prop :=
  sorted_market m /\ values_above (- M) m
  /\ forall t rs, new_tree m struct = Ok t -> recipes (length m) t = Ok rs ->
       distinct_categories t /\ initial_prices_ok (length m) rs (- M) (p0 m).

(** ... and for which its competitive ratio is known (C63). *)
Definition tree_input_competitive (M : Q) (struct : pystruct) (m : market) : Prop :=
  no_ties m /\ forall t, new_tree m struct = Ok t ->
    (exists B, values_within B m /\ 2 * B * Qn (height t) <= M)
    /\ forall i, In i (node_indices t) -> (0 < csize (cat_at m i))%nat.
