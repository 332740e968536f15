(** * C111: the outcome of the tree auction does not depend on the solution of the linear program

    The linear program of prices.calculate_initial_prices need not have a unique solution: on a branch that is shorter than
    others the solver may put the slack on any category.  Which solution it returns is up to the solver. *)

From Coq Require Import String List Arith Lia QArith Lqa Permutation Sorted.
From Verif Require Import Base Model_Agents Model_Trade Model_Prices Model_Market Model_RecipeTree Model_TreeAuction
  Spec_Market Spec_RecipeTree Spec_TreeAuction Spec_Reorder Spec_Renumber
  Proof_TA7 Proof_TA8 Proof_TA9 Proof_Initial Proof_Initial2 Props_TreeAuction Props_Renumber.
Import ListNotations.
Open Scope Q_scope.
Open Scope string_scope.
Open Scope list_scope.

(** Without ties and empty categories, and with values that are moderate compared with MAX_VALUE: whatever initial prices meet the
    documented contract (each at most - MAX_VALUE, the same sum in all recipes; they need not even be optimal), the auction
    ends with the same agents, the same numbers of deals, the same gain and the same price of every category of the tree. *)
Theorem C111_same_outcome : forall M B p p' fuel fuel' m st r r' rs, 0 < M ->
  tree_auction M p fuel m st = Ok r -> tree_auction M p' fuel' m st = Ok r' -> recipes (length m) (tt_tree r) = Ok rs ->
  distinct_categories (tt_tree r) -> initial_prices_ok (length m) rs (- M) p -> initial_prices_ok (length m) rs (- M) p' ->
  values_within B m -> 2 * B * Qn (height (tt_tree r)) <= M -> no_ties m ->
  (forall i, In i (node_indices (tt_tree r)) -> (0 < csize (cat_at m i))%nat) ->
  tt_tree r' = tt_tree r /\ tt_cats r' = tt_cats r /\ tt_deals r' = tt_deals r /\ tt_kmin r' = tt_kmin r /\ tt_kmax r' = tt_kmax r
  /\ tt_gft r' = tt_gft r /\ forall i, In i (node_indices (tt_tree r)) -> nth i (tt_prices r') 0 == nth i (tt_prices r) 0.
Proof. exact initial_prices_free. Qed.
Print Assumptions C111_same_outcome.

(** Together with C110: the outcome depends on the market and the tree only, not on the order in which the categories
    and the children are listed, nor on what the solver does with either listing. *)
Theorem C111_any_listing : forall M B p p' fuel fuel' m o st st' r r' rs rs', 0 < M -> is_order (length m) o ->
  tree_auction M p fuel m st = Ok r -> tree_auction M p' fuel' (reorder no_category o m) st' = Ok r' -> renumbered o (tt_tree r) (tt_tree r') ->
  recipes (length m) (tt_tree r) = Ok rs -> recipes (length m) (tt_tree r') = Ok rs' ->
  distinct_categories (tt_tree r) -> initial_prices_ok (length m) rs (- M) p -> initial_prices_ok (length m) rs' (- M) p' ->
  values_within B m -> 2 * B * Qn (height (tt_tree r)) <= M -> no_ties m ->
  (forall i, In i (node_indices (tt_tree r)) -> (0 < csize (cat_at m i))%nat) ->
  tt_cats r' = reorder no_category o (tt_cats r) /\ tt_deals r' = tt_deals r /\ tt_kmin r' = tt_kmin r /\ tt_kmax r' = tt_kmax r
  /\ tt_gft r' == tt_gft r
  /\ forall i, In i (node_indices (tt_tree r')) -> nth i (tt_prices r') 0 == nth (nth i o 0%nat) (tt_prices r) 0.
Proof. exact listing_free. Qed.
Print Assumptions C111_any_listing.

(** ** A tree with a long and a short branch, and two different solutions of its linear program *)
Definition two_struct : pystruct :=
  SList [SInt 0; SList [SInt 1; SList [SInt 2; SList [SInt 3; SNone]]; SInt 4; SList [SInt 5; SNone]]].
Definition two_tree : rtree := Node 0 [Node 1 [Node 2 [Node 3 []]]; Node 4 [Node 5 []]].
Definition two_recipes : list (list nat) := [[1; 1; 1; 1; 0; 0]; [1; 0; 0; 0; 1; 1]]%nat.
Definition two_p : list Q := [- MAX_VALUE; - MAX_VALUE; - MAX_VALUE; - MAX_VALUE; - (2) * MAX_VALUE; - MAX_VALUE].
Definition two_p' : list Q := [- MAX_VALUE; - MAX_VALUE; - MAX_VALUE; - MAX_VALUE; - (3 # 2) * MAX_VALUE; - (3 # 2) * MAX_VALUE].

Example two_distinct : distinct_categories two_tree.
Proof. unfold distinct_categories; simpl. repeat constructor; simpl; intuition discriminate. Qed.
Example two_optimal : initial_prices_optimal 6 two_recipes (- MAX_VALUE) two_p /\ initial_prices_optimal 6 two_recipes (- MAX_VALUE) two_p'.
Proof.
  split; (apply (optimal_intro _ _ two_tree); [unfold indices_in_range; repeat constructor|exact two_distinct|reflexivity| |
    intros r [<-|[<-|[]]]; reflexivity]);
  (split; [reflexivity|]; split; [repeat constructor; unfold Qle; simpl; lia|]; exists (- (4) * MAX_VALUE); intros r [<-|[<-|[]]]; reflexivity).
Qed.

Definition two_market : market :=
  [mkCat "a" [20; 18; 16; 2]; mkCat "b" [-(1); -(2); -(3)]; mkCat "c" [-(1); -(2)]; mkCat "d" [-(1); -(3)];
   mkCat "e" [-(4); -(5)]; mkCat "f" [-(1); -(2); -(6)]].

Example C111_witness : no_ties two_market /\ values_within 20 two_market /\ 2 * 20 * Qn (height two_tree) <= MAX_VALUE
  /\ (forall i, In i (node_indices two_tree) -> (0 < csize (cat_at two_market i))%nat)
  /\ exists r r', tree_auction MAX_VALUE two_p 30 two_market two_struct = Ok r /\ tree_auction MAX_VALUE two_p' 30 two_market two_struct = Ok r'
     /\ tt_tree r = two_tree /\ recipes 6 (tt_tree r) = Ok two_recipes /\ tt_deals r = 2%nat
     /\ Forall2 Qeq (tt_prices r) [7; -(2); -(2); -(3); -(5); -(2)]
     /\ map cvalues (tt_cats r) = [[20; 18; 16]; [-(1)]; [-(1)]; [-(1)]; [-(4)]; [-(1)]].
Proof.
  split; [|split; [|split; [|split]]].
  - apply no_ties_intro. unfold two_market. repeat constructor; simpl; intros F; discriminate F.
  - unfold values_within. apply in_values. repeat constructor; unfold Qle; simpl; lia.
  - unfold Qle; simpl; lia.
  - intros i Hi. cbn in Hi. repeat destruct Hi as [<-|Hi]; try (vm_compute; lia); destruct Hi.
  - eexists. eexists. split; [vm_compute; reflexivity|]. split; [vm_compute; reflexivity|]. split; [reflexivity|]. split; [reflexivity|].
    split; [reflexivity|]. split; [repeat constructor|reflexivity].
Qed.

(** With ties inside a category the outcome does depend on the solver: no deal, or one. *)
Definition tie_market : market :=
  [mkCat "a" [4; 4]; mkCat "b" [0]; mkCat "c" [1; 1; -(2)]; mkCat "d" [-(2)]; mkCat "e" [1; 0]; mkCat "f" [-(1)]].
Theorem C111_ties_refuted : initial_prices_optimal 6 two_recipes (- MAX_VALUE) two_p /\ initial_prices_optimal 6 two_recipes (- MAX_VALUE) two_p'
  /\ values_within 4 tie_market /\ (forall i, In i (node_indices two_tree) -> (0 < csize (cat_at tie_market i))%nat)
  /\ exists r r', tree_auction MAX_VALUE two_p 30 tie_market two_struct = Ok r /\ tree_auction MAX_VALUE two_p' 30 tie_market two_struct = Ok r'
     /\ tt_tree r = two_tree /\ recipes 6 (tt_tree r) = Ok two_recipes
     /\ tt_deals r = 0%nat /\ tt_deals r' = 1%nat /\ nth 0 (tt_prices r) 0 == 1 /\ nth 0 (tt_prices r') 0 == 4.
Proof.
  split; [apply two_optimal|]. split; [apply two_optimal|]. split.
  { unfold values_within. apply in_values. repeat constructor; unfold Qle; simpl; lia. }
  split; [intros i Hi; cbn in Hi; repeat destruct Hi as [<-|Hi]; try (vm_compute; lia); destruct Hi|].
  eexists. eexists. split; [vm_compute; reflexivity|]. split; [vm_compute; reflexivity|]. split; [reflexivity|]. split; [reflexivity|].
  split; [reflexivity|]. split; [reflexivity|]. split; reflexivity.
Qed.
Print Assumptions C111_ties_refuted.

(** So it does with empty categories. *)
Definition void_struct : pystruct :=
  SList [SInt 0; SList [SInt 1; SList [SInt 2; SNone]; SInt 3; SList [SInt 4; SList [SInt 5; SNone]]]].
Definition void_tree : rtree := Node 0 [Node 1 [Node 2 []]; Node 3 [Node 4 [Node 5 []]]].
Definition void_recipes : list (list nat) := [[1; 1; 1; 0; 0; 0]; [1; 0; 0; 1; 1; 1]]%nat.
Definition void_p : list Q := [- MAX_VALUE; - MAX_VALUE; - (2) * MAX_VALUE; - MAX_VALUE; - MAX_VALUE; - MAX_VALUE].
Definition void_p' : list Q := [- MAX_VALUE; - (2) * MAX_VALUE; - MAX_VALUE; - MAX_VALUE; - MAX_VALUE; - MAX_VALUE].
Definition void_market : market := [mkCat "a" [2]; mkCat "b" []; mkCat "c" [-(2)]; mkCat "d" [-(3)]; mkCat "e" [-(2)]; mkCat "f" []].
Theorem C111_empty_refuted : initial_prices_optimal 6 void_recipes (- MAX_VALUE) void_p /\ initial_prices_optimal 6 void_recipes (- MAX_VALUE) void_p'
  /\ values_within 3 void_market /\ no_ties void_market
  /\ exists r r', tree_auction MAX_VALUE void_p 30 void_market void_struct = Ok r /\ tree_auction MAX_VALUE void_p' 30 void_market void_struct = Ok r'
     /\ tt_tree r = void_tree /\ recipes 6 (tt_tree r) = Ok void_recipes
     /\ map csize (tt_cats r) = [0; 0; 1; 0; 0; 0]%nat /\ map csize (tt_cats r') = [0; 0; 0; 0; 0; 0]%nat
     /\ nth 2 (tt_prices r) 0 == -(5) /\ nth 2 (tt_prices r') 0 == -(2).
Proof.
  assert (D : distinct_categories void_tree) by (unfold distinct_categories; simpl; repeat constructor; simpl; intuition discriminate).
  split; [|split; [|split; [|split]]].
  1, 2: apply (optimal_intro _ _ void_tree); [unfold indices_in_range; repeat constructor|exact D|reflexivity| |
    intros r [<-|[<-|[]]]; reflexivity]; (split; [reflexivity|]; split; [repeat constructor; unfold Qle; simpl; lia|];
    exists (- (4) * MAX_VALUE); intros r [<-|[<-|[]]]; reflexivity).
  - unfold values_within. apply in_values. repeat constructor; unfold Qle; simpl; lia.
  - apply no_ties_intro. unfold void_market. repeat constructor; simpl; intros F; discriminate F.
  - eexists. eexists. split; [vm_compute; reflexivity|]. split; [vm_compute; reflexivity|]. split; [reflexivity|]. split; [reflexivity|].
    split; [reflexivity|]. split; [reflexivity|]. split; reflexivity.
Qed.
Print Assumptions C111_empty_refuted.
