(** * Specification notions for the experiments on stock prices (C69) *)

From Coq Require Import String List Arith NArith ZArith QArith Qround Sorted.
From Verif Require Import Base Model_Agents Model_Trade Model_Market Model_RecipeTree Model_TreeAuction Model_StockExperiment
  Spec_Market Spec_RecipeTree Spec_TreeAuction Spec_Experiment.
Import ListNotations.
Open Scope Q_scope.

(** The number of prices of the first category: how many agents are available. *)
Definition available (cats : list (list Q)) : nat := match cats with [] => 0%nat | c :: _ => length c end.

(** The numbers of agents that are used for given prices: the entries up to what is available, and the next larger one. *)
Definition used (nums : list nat) (cats : list (list Q)) (n : nat) : Prop :=
  In n nums /\ forall x, In x nums -> (available cats < x)%nat -> (n <= x)%nat.

(** The market: all prices if fewer than [n] are available, otherwise the first [floor (n * counts[j])] of category [j]. *)
Definition stock_market (counts : list Q) (n : nat) (cats : list (list Q)) (m : market) : Prop :=
  length m = length cats
  /\ forall j prices k, nth_error cats j = Some prices -> nth_error counts j = Some k ->
       nth_error m j = Some (new_category "agent"
         (if (available cats <? n)%nat then prices else firstn (Z.to_nat (Qfloor (Qn n * k))) prices)).

(** The percentages of one auction. *)
Definition outcome_count_ratio (o : tree_outcome) : Q := if (to_k o =? 0)%nat then 0 else Qn (to_deals o) / Qn (to_k o) * 100.
Definition outcome_gft_ratio (o : tree_outcome) : Q := if Qeq_bool (to_opt o) 0 then 0 else to_gft o / to_opt o * 100.

(** [r] holds the sums over the outcomes, divided by [d]. *)
Definition stock_columns (d : Q) (os : list tree_outcome) (r : stock_result) : Prop :=
  sr_count r == Qsum (map (fun o => Qn (to_k o)) os) / d
  /\ sr_kmin r == Qsum (map (fun o => inject_Z (Z.of_N (to_kmin o))) os) / d
  /\ sr_kmax r == Qsum (map (fun o => inject_Z (Z.of_N (to_kmax o))) os) / d
  /\ sr_optimal_gft r == Qsum (map to_opt os) / d
  /\ sr_auction_count r == Qsum (map (fun o => Qn (to_deals o)) os) / d
  /\ sr_count_ratio r == Qsum (map outcome_count_ratio os) / d
  /\ sr_gft r == Qsum (map to_gft os) / d
  /\ sr_gft_ratio r == Qsum (map outcome_gft_ratio os) / d.

(** [ms] are the markets for [n] of the runs (one run per stock and iteration) that use [n]. *)
Inductive used_markets (nums : list nat) (counts : list Q) (n : nat) : list (list (list Q)) -> list market -> Prop :=
| um_nil : used_markets nums counts n [] []
| um_used : forall cats m runs ms, used nums cats n -> stock_market counts n cats m -> used_markets nums counts n runs ms ->
    used_markets nums counts n (cats :: runs) (m :: ms)
| um_skip : forall cats runs ms, ~ used nums cats n -> used_markets nums counts n runs ms ->
    used_markets nums counts n (cats :: runs) ms.

Definition stock_bounds (r : stock_result) : Prop :=
  0 <= sr_auction_count r <= sr_count r /\ 0 <= sr_gft r <= sr_optimal_gft r
  /\ 0 <= sr_count_ratio r <= 100 /\ 0 <= sr_gft_ratio r <= 100.

(** Prices of one stock and iteration on which the tree auction runs, for all numbers of agents that are used (see C36-C41). *)
Definition run_ok (M : Q) (p0 : market -> list Q) (fuel : nat) (struct : pystruct) (counts : list Q) (nums : list nat) (cats : list (list Q)) : Prop :=
  cats <> [] /\ (length cats <= length counts)%nat
  /\ forall n, used nums cats n -> exists m r, stock_market counts n cats m /\ tree_input M p0 struct m
       /\ tree_auction M (p0 m) fuel m struct = Ok r.

(** The column "numpossibletrades" is that of the first run that uses [n]. *)
Inductive first_possible (nums : list nat) (n : nat) : list (list (list Q)) -> nat -> Prop :=
| fp_here : forall cats runs, used nums cats n -> first_possible nums n (cats :: runs) (Nat.min n (available cats))
| fp_later : forall cats runs p, ~ used nums cats n -> first_possible nums n runs p -> first_possible nums n (cats :: runs) p.

(** The column "gftformula". *)
Definition formula_of (kmin : Q) : Q := if Qle_bool kmin 1 then 0 else (1 - 1 / kmin) * 100.

