(** * Specification: the prices that the tree program takes from a stock file (C103) *)

From Coq Require Import String List Arith ZArith QArith Permutation.
From Verif Require Import Base Model_Agents Model_Trade Model_Market Model_RecipeTree Model_TreeAuction Model_StockData Model_StockExperiment
  Spec_Experiment Spec_StockExperiment Spec_StockData Spec_Drivers.
Import ListNotations.
Open Scope Q_scope.

(** [cats] are prices of the file in thousandths, no price used twice: two fifths of them doubled for the buyers; a fifth of them negated and
    doubled for the first sellers; a fifth of them negated for each of the two other categories. *)
Definition tree_prices_of (f : stock_file) (cats : list (list Q)) : Prop :=
  exists zs p0 p1 p2 p3 rest, in_thousandths (high f ++ close f ++ open_ f ++ low f) zs
    /\ Permutation (p0 ++ p1 ++ p2 ++ p3 ++ rest) zs
    /\ length p0 = Nat.div (2 * length zs) 5 /\ length p1 = Nat.div (length zs) 5 /\ length p2 = Nat.div (length zs) 5
    /\ length p3 = Nat.div (length zs) 5
    /\ cats = [map (fun z => inject_Z (2 * z)) p0; map (fun z => inject_Z (- (2 * z))) p1; map (fun z => inject_Z (- z)) p2;
               map (fun z => inject_Z (- z)) p3].

(** What a row tells about the runs of all stocks, see C69. *)
Definition tree_stock_row_facts (auction : market -> result tree_trade) (struct : pystruct) (counts : list Q) (nums : list nat)
  (runs : list (list (list (list Q)))) (its n : nat) (row : option stock_result * Q) : Prop :=
  exists ms os, used_markets nums counts n (concat runs) ms
    /\ Forall2 (tree_outcome_of auction struct) ms os
    /\ (os = [] -> row = (None, 0))
    /\ (os <> [] -> exists r, row = (Some r, formula_of (sr_kmin r)) /\ stock_columns (Qn (length runs * its)) os r
          /\ first_possible nums n (concat runs) (sr_possible r) /\ stock_bounds r /\ 0 <= formula_of (sr_kmin r) < 100).
