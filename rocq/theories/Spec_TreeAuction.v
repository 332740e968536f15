(** * Specification notions for the multi-recipe prices and the tree auction (C34 - C41) *)

From Coq Require Import String List Arith QArith Permutation Sorted.
From Verif Require Import Base Model_Agents Model_Prices Model_Market Model_RecipeTree Model_TreeAuction.
Import ListNotations.
Open Scope Q_scope.

(** A recipe of [n] zeros and ones. *)
Definition binary_recipe (n : nat) (recipe : list nat) : Prop :=
  length recipe = n /\ Forall (fun r => r = 0%nat \/ r = 1%nat) recipe.

(** How many of the given categories a recipe contains. *)
Definition categories_in (recipe : list nat) (indices : list nat) : nat :=
  length (filter (fun i => nth i recipe 0 =? 1)%nat indices).

(** All recipes have the price sum [S]. *)
Definition equal_sums (recipes : list (list nat)) (prices : list Q) (S : Q) : Prop :=
  forall r, In r recipes -> dot prices r == S.

(** The documented contract of prices.calculate_initial_prices: a price for each of [n] categories, each
    at most [bound], with the same sum in all recipes. *)
Definition initial_prices_ok (n : nat) (recipes : list (list nat)) (bound : Q) (prices : list Q) : Prop :=
  length prices = n /\ Forall (fun p => p <= bound) prices /\ exists S, equal_sums recipes prices S.

(** The linear program it solves: among the prices that meet the contract, the sum is maximal. *)
Definition initial_prices_optimal (n : nat) (recipes : list (list nat)) (bound : Q) (prices : list Q) : Prop :=
  initial_prices_ok n recipes bound prices
  /\ forall prices' S S', initial_prices_ok n recipes bound prices' ->
       equal_sums recipes prices S -> equal_sums recipes prices' S' -> S' <= S.

(** Number of nodes on the longest root-to-leaf path. *)
Fixpoint height (t : rtree) : nat :=
  match t with Node _ ch => S (fold_right Nat.max 0%nat (map height ch)) end.

(** A path whose last inner node may have several leaves: only leaves have siblings. *)
Inductive broom : rtree -> Prop :=
| broom_leaves : forall i ch, Forall (fun c => tchildren c = []) ch -> broom (Node i ch)
| broom_handle : forall i c, broom c -> broom (Node i [c]).

(** All agents have values between - b and b. *)
Definition values_within (b : Q) (m : market) : Prop :=
  forall c v, In c m -> In v (cvalues c) -> - b <= v <= b.

(** One-sided versions. *)
Definition values_above (b : Q) (m : market) : Prop := forall c v, In c m -> In v (cvalues c) -> b <= v.
Definition values_below (b : Q) (m : market) : Prop := forall c v, In c m -> In v (cvalues c) -> v <= b.

(** No two agents of a category have the same value. *)
Definition no_ties (m : market) : Prop :=
  forall c l1 x l2 y l3, In c m -> cvalues c = l1 ++ x :: l2 ++ y :: l3 -> ~ x == y.

(** Total number of agents. *)
Definition agents_number (m : market) : nat := nsum (map csize m).

(** The states between the rounds of the loop. *)
Inductive tree_visited (M : Q) (t : rtree) (s0 : tree_state) : tree_state -> Prop :=
| tv_start : tree_visited M t s0 s0
| tv_next : forall s s', tree_visited M t s0 s -> tree_round M t s = Ok (false, s') -> tree_visited M t s0 s'.

(** Utility of the agent at position [pos] (from the highest value) of category [i], with true value [v], when the
    traders of a category are selected among its remaining agents at random: [select i sizes] is the
    probability that a given remaining agent of category i is selected, when [sizes] agents remain in the categories. *)
Definition tree_utility (select : nat -> list nat -> Q) (r : tree_trade) (i pos : nat) (v : Q) : Q :=
  match nth_error (tt_cats r) i with
  | Some c =>
      if (pos <? csize c)%nat
      then select i (map csize (tt_cats r)) * (v - nth i (tt_prices r) 0)
      else 0
  | None => 0
  end.
