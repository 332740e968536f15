(** * Specification notions for the integer versions (C42 - C47, C56 - C58) *)

From Coq Require Import String List Arith QArith Permutation Sorted.
From Verif Require Import Base Model_Agents Model_Prices Model_Market Model_RecipeTree Model_TreeAuction
  Model_IntPrices Model_IntTree Model_IntAuction Spec_Market Spec_RecipeTree.
Import ListNotations.
Open Scope Q_scope.

(** Every category of the tree has a positive agent count. *)
Definition positive_counts (counts : list nat) (t : rtree) : Prop :=
  forall i, In i (node_indices t) -> (0 < count_at counts i)%nat.

(** Every category of the tree has agent count 1 (in particular when no counts are given). *)
Definition unit_counts (counts : list nat) (t : rtree) : Prop :=
  forall i, In i (node_indices t) -> count_at counts i = 1%nat.

(** ** Trades *)

(** A deal: a path, and for each category of the path a group of agents. *)
Definition int_deal : Type := (list nat * list (list Q))%type.

(** It is a root-to-leaf path, and each category has as many agents as its count. *)
Definition int_deal_ok (counts : list nat) (t : rtree) (d : int_deal) : Prop :=
  is_path t (fst d) /\ Forall2 (fun i group => length group = count_at counts i) (fst d) (snd d).

Definition int_deal_gain (d : int_deal) : Q := Qsum (concat (snd d)).

(** The agents of category [i] that take part in a list of deals. *)
Definition int_used_in (i : nat) (D : list int_deal) : list Q :=
  concat (map (fun d => concat (map snd (filter (fun p => Nat.eqb (fst p) i) (combine (fst d) (snd d))))) D).

(** A list of deals that uses every agent at most once. *)
Definition int_feasible (cats : list category) (counts : list nat) (t : rtree) (D : list int_deal) : Prop :=
  Forall (int_deal_ok counts t) D
  /\ forall i, sub_bag (int_used_in i D) (cvalues (cat_at cats i)).

Definition int_gain (D : list int_deal) : Q := Qsum (map int_deal_gain D).

(** A feasible list of deals with the largest possible total gain. *)
Definition int_optimal (cats : list category) (counts : list nat) (t : rtree) (D : list int_deal) : Prop :=
  int_feasible cats counts t D
  /\ forall D', int_feasible cats counts t D' -> int_gain D' <= int_gain D.

(** The recipe of a path: the count of each category of the path, and 0 elsewhere. *)
Definition int_path_recipe (n : nat) (counts : list nat) (path recipe : list nat) : Prop :=
  length recipe = n
  /\ forall i, (i < n)%nat -> (In i path -> nth_error recipe i = Some (count_at counts i))
                         /\ (~ In i path -> nth_error recipe i = Some 0%nat).

(** ** Prices *)

(** [j] is the last category that the recipe uses. *)
Definition last_category (recipe : list nat) (j : nat) : Prop :=
  (0 < nth j recipe 0)%nat /\ forall k, (j < k)%nat -> nth k recipe 0%nat = 0%nat.

(** The last category of each recipe is used by no other recipe of the list. *)
Definition private_last (rs : list (list nat)) : Prop :=
  forall l1 r1 l2 r2 l3 j, rs = l1 ++ r1 :: l2 ++ r2 :: l3 ->
    (last_category r1 j -> nth j r2 0%nat = 0%nat) /\ (last_category r2 j -> nth j r1 0%nat = 0%nat).

(** The largest number of agents in a recipe. *)
Definition max_weight (rs : list (list nat)) : nat := fold_right Nat.max 0%nat (map nsum rs).

(** On every root-to-leaf path the leaf has the largest index. *)
Definition leaf_last (t : rtree) : Prop :=
  forall p i j, is_path t (p ++ [j]) -> In i p -> (i < j)%nat.

(** Every node has at most one child. *)
Inductive single_path : rtree -> Prop :=
| single_leaf : forall i, single_path (Node i [])
| single_node : forall i c, single_path c -> single_path (Node i [c]).

(** Two results with the same remaining agents, tree, prices, numbers of deals and gain; the numbers kmin are compared
    only when the binary one is positive (the integer version ignores recipes without deals). *)
Definition same_trade (r r' : tree_trade) : Prop :=
  tt_cats r = tt_cats r' /\ tt_tree r = tt_tree r' /\ tt_prices r = tt_prices r' /\ tt_deals r = tt_deals r'
  /\ tt_kmax r = tt_kmax r' /\ ((0 < tt_kmin r')%nat -> tt_kmin r = tt_kmin r') /\ tt_gft r == tt_gft r'.
