(** * Property C72: what the tree auction does not depend on; equivalent categories

    ascending_auction_recipetree_test.py:93-98: with the recipes [1,1,0] and [1,0,1], "the two latter categories are
    equivalent, so we expect the results to be identical to a single recipe [1,1]". *)

From Coq Require Import String List Arith Lia QArith Lqa Permutation.
From Verif Require Import Base Model_Agents Model_Trade Model_Prices Model_Market Model_RecipeTree Model_TreeAuction
  Model_Ascending Spec_Market Spec_RecipeTree Spec_TreeAuction Spec_Regroup
  Proof_TA7 Proof_TA8 Proof_Rg3 Proof_Rg4 Props_TreeAuction.
Import ListNotations.
Open Scope Q_scope.
Open Scope string_scope.

(** Renaming the categories, changing the order of siblings, and merging sibling leaves (whose agents all have
    different values) change neither the number of deals nor any price nor the remaining agents, nor the exception,
    nor the number of rounds. *)
Theorem C72_regrouped : forall M fuel m m' st st' t t' rs rs' p0 p0' G, 0 < M ->
  new_tree (clone_market m) st = Ok t -> new_tree (clone_market m') st' = Ok t' ->
  distinct_categories t -> distinct_categories t' -> regrouped t t' G ->
  recipes (length m) t = Ok rs -> recipes (length m') t' = Ok rs' ->
  initial_prices_ok (length m) rs (- M) p0 -> initial_prices_ok (length m') rs' (- M) p0' ->
  (forall J j' i, In (J, j') G -> In i J -> nth i p0 0 == nth j' p0' 0) ->
  (forall J j', In (J, j') G -> same_agents M m m' J j') ->
  match tree_auction M p0 fuel m st, tree_auction M p0' fuel m' st' with
  | Ok r, Ok r' => tt_deals r = tt_deals r'
      /\ forall J j', In (J, j') G ->
           (forall i, In i J -> exists p p', nth_error (tt_prices r) i = Some p /\ nth_error (tt_prices r') j' = Some p' /\ p == p')
           /\ Permutation (agents_of (tt_cats r) J) (cvalues (cat_at (tt_cats r') j'))
  | Raise e, Raise e' => e = e'
  | Timeout, Timeout => True
  | _, _ => False
  end.
Proof. exact regrouped_same. Qed.
Print Assumptions C72_regrouped.

(** A root with leaves [J]: the single-recipe auction with the recipe [1,1] on the market of all leaves' agents (first) and
    the root's agents. *)
Theorem C72_equivalent_leaves : forall M p0 fuel fuel' m i J name rs r t, 0 < M -> J <> [] -> NoDup (i :: J) ->
  all_different (agents_of m J) -> all_different (cvalues (cat_at m i)) ->
  (forall v, In v (agents_of m (i :: J)) -> - M < v /\ v <= M) ->
  tree_auction M p0 fuel m (star_struct i J) = Ok r -> recipes (length m) (tt_tree r) = Ok rs ->
  initial_prices_optimal (length m) rs (- M) p0 ->
  ascending_auction_M M fuel' [mkCat name (agents_of m J); cat_at m i] [1; 1]%nat = Ok t ->
  tt_deals r = num_of_deals t
  /\ ((forall v, In v (agents_of m (i :: J)) -> v < M) -> agents_of m J <> [] -> cvalues (cat_at m i) <> [] ->
      exists ps pb, tprices t = Some [ps; pb]
        /\ (exists p, nth_error (tt_prices r) i = Some p /\ p == pb)
        /\ (forall j, In j J -> exists p, nth_error (tt_prices r) j = Some p /\ p == ps)
        /\ Permutation (cvalues (cat_at (tt_cats r) i)) (cvalues (cat_at (tcats t) 1))
        /\ Permutation (agents_of (tt_cats r) J) (cvalues (cat_at (tcats t) 0))).
Proof. exact star_same. Qed.
Print Assumptions C72_equivalent_leaves.

Lemma all_different_intro : forall l, ForallOrdPairs (fun x y => ~ x == y) l -> all_different l.
Proof.
  intros l H l1 x l2 y l3 E. rewrite E in H. clear E. induction l1 as [|a l1 IH]; simpl in H.
  - inversion H as [|? ? F _]; subst. rewrite Forall_forall in F. apply F, in_or_app. right. left. reflexivity.
  - inversion H; subst. auto.
Qed.

(** ** The markets of test_market_110_101: buyers, and sellers in two categories *)
Definition sellers_market : market :=
  [mkCat "buyer" [19; 17; 15; 13; 11; 9]; mkCat "sellerA" [-(10); -(4)]; mkCat "sellerB" [-(12); -(8); -(6); -(2)]].
Definition sellers_p0 : list Q := [- MAX_VALUE; - MAX_VALUE; - MAX_VALUE].

Example C72_leaves_witness :
  all_different (agents_of sellers_market [1; 2]%nat) /\ all_different (cvalues (cat_at sellers_market 0))
  /\ (forall v, In v (agents_of sellers_market [0; 1; 2]%nat) -> - MAX_VALUE < v /\ v < MAX_VALUE)
  /\ initial_prices_optimal 3 [[1; 1; 0]; [1; 0; 1]]%nat (- MAX_VALUE) sellers_p0
  /\ (exists r, tree_auction MAX_VALUE sellers_p0 20 sellers_market (star_struct 0 [1; 2]%nat) = Ok r
        /\ recipes 3 (tt_tree r) = Ok [[1; 1; 0]; [1; 0; 1]]%nat
        /\ tt_deals r = 4%nat /\ Forall2 Qeq (tt_prices r) [10; -(10); -(10)])
  /\ (exists t, ascending_auction_M MAX_VALUE 20
          [mkCat "seller" (agents_of sellers_market [1; 2]%nat); cat_at sellers_market 0] [1; 1]%nat = Ok t
        /\ num_of_deals t = 4%nat).
Proof.
  split; [apply all_different_intro; unfold agents_of; simpl; repeat constructor; intros F; discriminate F|].
  split; [apply all_different_intro; simpl; repeat constructor; intros F; discriminate F|].
  split.
  { intros v Hv. assert (F : Forall (fun v => - MAX_VALUE < v /\ v < MAX_VALUE) (agents_of sellers_market [0; 1; 2]%nat))
      by (unfold agents_of; simpl; repeat constructor). rewrite Forall_forall in F. exact (F v Hv). }
  split.
  { apply (optimal_intro _ _ (Node 0 [Node 1 []; Node 2 []])); [repeat constructor| |reflexivity| |].
    - unfold distinct_categories; simpl; repeat constructor; simpl; intuition discriminate.
    - split; [reflexivity|]. split; [repeat constructor; unfold Qle; simpl; lia|].
      exists (- (2) * MAX_VALUE). intros r [<-|[<-|[]]]; reflexivity.
    - intros r [<-|[<-|[]]]; reflexivity. }
  split.
  - eexists. split; [vm_compute; reflexivity|]. split; [reflexivity|]. split; [reflexivity|]. repeat constructor.
  - eexists. split; [vm_compute; reflexivity|]. reflexivity.
Qed.

(** The tree of the module's doctest (buyer, then seller or producers A and B), and the same with other names, the other
    order of the recipes and the sellers split in two categories. *)
Definition split_market : market :=
  [mkCat "producerB" [-(1); -(2); -(8)]; mkCat "seller1" [-(4); -(11)]; mkCat "buyer" [27; 21; 17; 11; 3];
   mkCat "producerA" [-(2); -(3); -(11)]; mkCat "seller2" [-(5)]].
Definition split_struct : pystruct := SList [SInt 2; SList [SInt 3; SList [SInt 0; SNone]; SInt 4; SNone; SInt 1; SNone]].
Definition split_tree : rtree := Node 2 [Node 3 [Node 0 []]; Node 4 []; Node 1 []].
Definition split_groups : list (list nat * nat) := [([2], 0); ([4; 1], 1); ([3], 2); ([0], 3)]%nat.
Definition split_p0 : list Q := [- MAX_VALUE; - (2) * MAX_VALUE; - MAX_VALUE; - MAX_VALUE; - (2) * MAX_VALUE].
Definition split_recipes : list (list nat) := [[1; 0; 1; 1; 0]; [0; 0; 1; 0; 1]; [0; 1; 1; 0; 0]]%nat.

Example C72_regrouped_witness :
  regrouped split_tree ex_tree split_groups
  /\ new_tree (clone_market split_market) split_struct = Ok split_tree /\ distinct_categories split_tree
  /\ recipes 5 split_tree = Ok split_recipes /\ initial_prices_ok 5 split_recipes (- MAX_VALUE) split_p0
  /\ (forall J j' i, In (J, j') split_groups -> In i J -> nth i split_p0 0 == nth j' ex_p0 0)
  /\ (forall J j', In (J, j') split_groups -> same_agents MAX_VALUE split_market ex_market J j')
  /\ (exists r, tree_auction MAX_VALUE split_p0 20 split_market split_struct = Ok r /\ tt_deals r = 2%nat
        /\ Forall2 Qeq (tt_prices r) [-(2); -(5); 5; -(3); -(5)]).
Proof.
  split.
  { unfold split_tree, ex_tree, split_groups. apply rg_node.
    apply rg_order with (ch2 := (map (fun j => Node j []) [4; 1]%nat ++ [Node 3 [Node 0 []]])%list).
    - cbn [map app]. apply (Permutation_cons_append [Node 4 []; Node 1 []] (Node 3 [Node 0 []])).
    - apply rg_leaves; [discriminate|]. apply (rg_tree (Node 3 [Node 0 []]) (Node 2 [Node 3 []]) [] [] [([3], 2); ([0], 3)]%nat []).
      + apply rg_node. apply (rg_leaves [0]%nat 3%nat [] [] []); [discriminate|constructor].
      + constructor. }
  split; [reflexivity|].
  split; [unfold distinct_categories; simpl; repeat constructor; simpl; intuition discriminate|].
  split; [reflexivity|].
  split.
  { split; [reflexivity|]. split; [repeat constructor; unfold Qle; simpl; lia|].
    exists (- (3) * MAX_VALUE). intros r [<-|[<-|[<-|[]]]]; reflexivity. }
  split.
  { intros J j' i [E|[E|[E|[E|[]]]]] Hi; injection E; intros <- <-; simpl in Hi;
      repeat (destruct Hi as [<-|Hi]; [reflexivity|]); destruct Hi. }
  split.
  { intros J j' [E|[E|[E|[E|[]]]]]; injection E; intros <- <-.
    - left. exists 2%nat. split; reflexivity.
    - right. unfold agents_of. cbn. split; [|split].
      + apply perm_swap.
      + apply all_different_intro. repeat constructor; intros F; discriminate F.
      + intros v [<-|[<-|[<-|[]]]]; split; unfold Qlt, Qle; simpl; lia.
    - left. exists 3%nat. split; reflexivity.
    - left. exists 0%nat. split; reflexivity. }
  eexists. split; [vm_compute; reflexivity|]. split; [reflexivity|]. repeat constructor.
Qed.

(** ** What fails

    The two auctions on buyers [b] and sellers [s1], [s2]: the tree auction of the test, and the single-recipe auction
    with the categories in the given order. *)
Definition star_outcome (b s1 s2 : list Q) (n : nat) (prices : list Q) : Prop :=
  exists r, tree_auction MAX_VALUE sellers_p0 20 [mkCat "buyer" b; mkCat "sellerA" s1; mkCat "sellerB" s2]
       (star_struct 0 [1; 2]%nat) = Ok r /\ tt_deals r = n /\ Forall2 Qeq (tt_prices r) prices.
Definition single_outcome (c1 c2 : list Q) (n : nat) (prices : list Q) : Prop :=
  exists t ps, ascending_auction_M MAX_VALUE 20 [mkCat "first" c1; mkCat "second" c2] [1; 1]%nat = Ok t
    /\ num_of_deals t = n /\ tprices t = Some ps /\ Forall2 Qeq ps prices.

(** With the buyers before the sellers, as in the test, neither the prices nor the number of deals are those of the single
    recipe [1,1]. *)
Theorem C72_buyers_first_prices_refuted :
  star_outcome [19; 17; 15; 13; 11; 9] [-(10); -(4)] [-(12); -(8); -(6); -(2)] 4 [10; -(10); -(10)]
  /\ single_outcome [19; 17; 15; 13; 11; 9] [-(10); -(4); -(12); -(8); -(6); -(2)] 4 [11; -(11)].
Proof.
  split; [eexists; split; [vm_compute; reflexivity|]; split; [reflexivity|]
         |eexists; eexists; split; [vm_compute; reflexivity|]; split; [reflexivity|]; split; [reflexivity|]]; repeat constructor.
Qed.
Print Assumptions C72_buyers_first_prices_refuted.

Theorem C72_buyers_first_deals_refuted :
  star_outcome [2] [-(2)] [-(1)] 0 [1; -(1); -(1)] /\ single_outcome [2] [-(2); -(1)] 1 [2; -(2)].
Proof.
  split; [eexists; split; [vm_compute; reflexivity|]; split; [reflexivity|]
         |eexists; eexists; split; [vm_compute; reflexivity|]; split; [reflexivity|]; split; [reflexivity|]]; repeat constructor.
Qed.
Print Assumptions C72_buyers_first_deals_refuted.

(** A tie between sellers of different categories changes the number of deals. *)
Theorem C72_ties_refuted :
  star_outcome [1; 1] [-(1)] [-(1)] 0 [1; -(1); -(1)] /\ single_outcome [-(1); -(1)] [1; 1] 1 [-(1); 1].
Proof.
  split; [eexists; split; [vm_compute; reflexivity|]; split; [reflexivity|]
         |eexists; eexists; split; [vm_compute; reflexivity|]; split; [reflexivity|]; split; [reflexivity|]]; repeat constructor.
Qed.
Print Assumptions C72_ties_refuted.
