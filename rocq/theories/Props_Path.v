(** * Property C71: the tree auction on a tree with a single path against the single-recipe auction

    ascending_auction_recipetree_test.py:55-75 runs the tests of the single-recipe ascending auction on the tree
    auction, over the path built by [ps_recipe_to_recipe_struct]: "The results should be the same". *)

From Coq Require Import String List Arith Lia QArith Lqa Permutation.
From Verif Require Import Base Model_Agents Model_Trade Model_Prices Model_Market Model_RecipeTree Model_TreeAuction
  Model_Ascending Spec_Market Spec_RecipeTree Spec_TreeAuction Spec_Path
  Proof_TA8 Proof_Path4 Proof_Path5 Proof_Path6 Props_TreeAuction.
Import ListNotations.
Open Scope Q_scope.
Open Scope string_scope.

(** The number of deals: equal as soon as the leaf of the path is the first category that the recipe uses. *)
Theorem C71_same_deals : forall M p0 fuel fuel' m recipe i l r t, 0 < M ->
  Forall (fun x => x = 0%nat \/ x = 1%nat) recipe -> Permutation (i :: l) (used recipe) ->
  last (i :: l) 0%nat = hd 0%nat (used recipe) ->
  no_ties m -> values_over (- M) m -> initial_prices_optimal (length m) [recipe] (- M) p0 ->
  tree_auction M p0 fuel m (path_struct i l) = Ok r -> ascending_auction_M M fuel' m recipe = Ok t ->
  tt_deals r = num_of_deals t.
Proof. exact path_same_deals. Qed.
Print Assumptions C71_same_deals.

(** The whole outcome: equal when the path lists the used categories from the last one (root) to the first (leaf). *)
Theorem C71_same_outcome : forall M p0 fuel fuel' m recipe i l r t, 0 < M ->
  Forall (fun x => x = 0%nat \/ x = 1%nat) recipe -> rev (used recipe) = i :: l ->
  no_ties m -> values_over (- M) m -> initial_prices_optimal (length m) [recipe] (- M) p0 ->
  (forall j, In j (used recipe) -> (0 < csize (cat_at m j))%nat) ->
  (forall c v, In c m -> In v (cvalues c) -> v * Qn (length l) < M) ->
  tree_auction M p0 fuel m (path_struct i l) = Ok r -> ascending_auction_M M fuel' m recipe = Ok t ->
  tt_deals r = num_of_deals t /\ tt_cats r = tcats t
  /\ exists prices, tprices t = Some prices
     /\ forall j, In j (used recipe) ->
        exists p q, nth_error (tt_prices r) j = Some p /\ nth_error prices j = Some q /\ p == q.
Proof. exact path_same_outcome. Qed.
Print Assumptions C71_same_outcome.

(** Both auctions return (so the two theorems above are about every market with values below MAX_VALUE). *)
Theorem C71_both_return : forall M p0 fuel m recipe i j l,
  length recipe = length m -> Forall (fun x => x = 0%nat \/ x = 1%nat) recipe ->
  Permutation (i :: j :: l) (used recipe) ->
  initial_prices_ok (length m) [recipe] (- M) p0 -> values_below M m -> (agents_number m < fuel)%nat ->
  (exists r, tree_auction M p0 fuel m (path_struct i (j :: l)) = Ok r)
  /\ (exists t, ascending_auction_M M fuel m recipe = Ok t).
Proof. exact path_both_return. Qed.
Print Assumptions C71_both_return.

(** What the test's helper builds for a recipe that uses category 0: the other used categories in increasing order,
    then category 0 as the leaf. *)
Theorem C71_test_struct : forall c rest others, (0 < c)%nat -> used (c :: rest) = 0%nat :: others ->
  ps_recipe_to_recipe_struct (c :: rest)
  = match others with [] => path_struct 0 [] | i :: l => path_struct i (l ++ [0%nat]) end.
Proof. exact test_struct. Qed.
Print Assumptions C71_test_struct.

(** So the test's struct gives the same number of deals for every recipe that uses category 0 and another one. *)
Theorem C71_test_deals : forall M p0 fuel fuel' m rest r t, 0 < M ->
  Forall (fun x => x = 0%nat \/ x = 1%nat) rest -> (exists j, nth_error rest j = Some 1%nat) ->
  no_ties m -> values_over (- M) m -> initial_prices_optimal (length m) [1%nat :: rest] (- M) p0 ->
  tree_auction M p0 fuel m (ps_recipe_to_recipe_struct (1%nat :: rest)) = Ok r ->
  ascending_auction_M M fuel' m (1%nat :: rest) = Ok t ->
  tt_deals r = num_of_deals t.
Proof. exact test_deals. Qed.
Print Assumptions C71_test_deals.

(** The doctests of the helper (lines 34-43). *)
Example C71_test_struct_doctest :
  ps_recipe_to_recipe_struct [1]%nat = SList [SInt 0; SNone]
  /\ ps_recipe_to_recipe_struct [1; 1]%nat = SList [SInt 1; SList [SInt 0; SNone]]
  /\ ps_recipe_to_recipe_struct [1; 1; 1]%nat = SList [SInt 1; SList [SInt 2; SList [SInt 0; SNone]]]
  /\ ps_recipe_to_recipe_struct [1; 0; 1; 1]%nat = SList [SInt 2; SList [SInt 3; SList [SInt 0; SNone]]].
Proof. repeat split; reflexivity. Qed.

(** ** A market of four categories, of which the recipe [1,0,1,1] uses three *)
Definition path_market : market :=
  [mkCat "buyer" [19; 17; 15; 13]; mkCat "unused" [5; 2]; mkCat "mediator" [-(1); -(2); -(3)];
   mkCat "seller" [-(4); -(6); -(8); -(10)]].
Definition path_p0 : list Q := [- MAX_VALUE; - MAX_VALUE; - MAX_VALUE; - MAX_VALUE].

Example C71_witness : Forall (fun x => x = 0%nat \/ x = 1%nat) [1; 0; 1; 1]%nat
  /\ rev (used [1; 0; 1; 1]%nat) = [3; 2; 0]%nat /\ Permutation [2; 3; 0]%nat (used [1; 0; 1; 1]%nat)
  /\ no_ties path_market /\ values_over (- MAX_VALUE) path_market /\ values_below MAX_VALUE path_market
  /\ initial_prices_optimal 4 [[1; 0; 1; 1]%nat] (- MAX_VALUE) path_p0
  /\ (forall j, In j (used [1; 0; 1; 1]%nat) -> (0 < csize (cat_at path_market j))%nat)
  /\ (forall c v, In c path_market -> In v (cvalues c) -> v * Qn 2 < MAX_VALUE)
  /\ (exists t, ascending_auction_M MAX_VALUE 20 path_market [1; 0; 1; 1]%nat = Ok t /\ num_of_deals t = 2%nat)
  /\ (exists r, tree_auction MAX_VALUE path_p0 20 path_market (path_struct 3 [2; 0]%nat) = Ok r /\ tt_deals r = 2%nat)
  /\ (exists r, tree_auction MAX_VALUE path_p0 20 path_market (ps_recipe_to_recipe_struct [1; 0; 1; 1]%nat) = Ok r
        /\ tt_deals r = 2%nat).
Proof.
  split; [repeat (apply Forall_cons; [auto|]); constructor|]. split; [reflexivity|].
  split; [apply (Permutation_sym (Permutation_cons_append [2; 3]%nat 0%nat))|].
  split; [apply no_ties_intro; unfold path_market; repeat constructor; simpl; intros F; discriminate F|].
  split; [unfold values_over; apply in_values; repeat constructor|].
  split; [unfold values_below; apply in_values; repeat constructor; unfold Qle; simpl; lia|].
  split.
  { apply (optimal_intro _ _ (Node 3 [Node 2 [Node 0 []]])); [repeat constructor| |reflexivity| |].
    - unfold distinct_categories; simpl; repeat constructor; simpl; intuition discriminate.
    - split; [reflexivity|]. split; [repeat constructor; unfold Qle; simpl; lia|].
      exists (- (3) * MAX_VALUE). intros r [<-|[]]; reflexivity.
    - intros r [<-|[]]; reflexivity. }
  split; [intros j Hj; simpl in Hj; destruct Hj as [<-|[<-|[<-|[]]]]; vm_compute; lia|].
  split; [apply (in_values (fun v => v * Qn 2 < MAX_VALUE)); repeat constructor|].
  split; [|split]; (eexists; split; [vm_compute; reflexivity|reflexivity]).
Qed.

(** ** What fails outside these hypotheses

    On market [m], the single-recipe auction makes [n] deals at prices [ps], and the tree auction over the struct
    [st] makes [n'] deals at prices [ps']. *)
Definition outcomes (M : Q) (m : market) (recipe : list nat) (st : pystruct)
    (n : nat) (ps : list Q) (n' : nat) (ps' : list Q) : Prop :=
  (exists t prices, ascending_auction_M M 40 m recipe = Ok t
     /\ num_of_deals t = n /\ tprices t = Some prices /\ Forall2 Qeq prices ps)
  /\ exists r, tree_auction M (map (fun _ => - M) m) 40 m st = Ok r /\ tt_deals r = n' /\ Forall2 Qeq (tt_prices r) ps'.

Ltac run_both :=
  split; [eexists; eexists; split; [vm_compute; reflexivity|]; split; [reflexivity|]; split; [reflexivity|]
         |eexists; split; [vm_compute; reflexivity|]; split; [reflexivity|]]; repeat constructor.

(** The order of the test's helper ([[1, [2, [0, None]]]]) does not give the same prices for three categories. *)
Theorem C71_test_prices_refuted :
  outcomes MAX_VALUE [mkCat "a" [9; 8]; mkCat "b" [-(1); -(2)]; mkCat "c" [-(3); -(4)]]
    [1; 1; 1]%nat (ps_recipe_to_recipe_struct [1; 1; 1]%nat) 1 [8; -(2); -(6)] 1 [8; -(4); -(4)].
Proof. run_both. Qed.
Print Assumptions C71_test_prices_refuted.

(** For a recipe that does not use category 0, the helper puts the last used category at the leaf, and not even the
    number of deals is the same. *)
Theorem C71_leaf_order_refuted :
  outcomes MAX_VALUE [mkCat "a" [0]; mkCat "b" [1; 0]; mkCat "c" [0]]
    [0; 1; 1]%nat (ps_recipe_to_recipe_struct [0; 1; 1]%nat) 0 [- MAX_VALUE; 1; -(1)] 1 [- MAX_VALUE; 0; 0].
Proof. run_both. Qed.
Print Assumptions C71_leaf_order_refuted.

(** With ties inside a category, the number of deals may differ, for the order of C71_same_outcome too. *)
Theorem C71_ties_refuted :
  outcomes MAX_VALUE [mkCat "a" [0]; mkCat "b" [1; 1]; mkCat "c" [1; 1]]
    [1; 1; 1]%nat (path_struct 2 [1; 0]%nat) 1 [-(2); 1; 1] 0 [- MAX_VALUE; 1; 1].
Proof. run_both. Qed.
Print Assumptions C71_ties_refuted.

(** With an empty category, the prices may differ. *)
Theorem C71_empty_category_refuted :
  outcomes MAX_VALUE [mkCat "a" [31; 23; 8; -(12)]; mkCat "b" []]
    [1; 1]%nat (path_struct 1 [0]%nat) 0 [31; - MAX_VALUE] 0 [- MAX_VALUE; - MAX_VALUE].
Proof. run_both. Qed.
Print Assumptions C71_empty_category_refuted.

(** With values above MAX_VALUE / 2, the prices may differ. *)
Theorem C71_large_values_refuted :
  outcomes 10 [mkCat "a" [9; 8]; mkCat "b" [0]; mkCat "c" [4; 3]]
    [1; 1; 1]%nat (path_struct 2 [1; 0]%nat) 1 [8; -(10); 2] 1 [7; -(10); 3].
Proof. run_both. Qed.
Print Assumptions C71_large_values_refuted.
