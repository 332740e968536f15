(** * Properties C28 - C33: recipe trees

    [cats] is the list of categories of the market and [t] a recipe tree over it. *)

From Coq Require Import String List Arith Lia QArith Lqa Permutation Sorted.
From Verif Require Import Base Model_Agents Model_Trade Model_RecipeTree Spec_Market Spec_RecipeTree
  Proof_Tree Proof_Tree2 Proof_Tree3 Proof_TA6.
Import ListNotations.
Open Scope Q_scope.
Open Scope string_scope.

(** ** The example of the README: buyers, sellers A, and then either sellers B or producers C with D *)
Definition ex_cats : list category :=
  [mkCat "buyer" [17; 14; 13; 9; 6]; mkCat "seller" [-(1); -(3); -(4)]; mkCat "producerA" [-(1); -(2)];
   mkCat "producerB" [-(1); -(3)]].
Definition ex_struct : pystruct := SList [SInt 0; SList [SInt 1; SNone; SInt 2; SList [SInt 3; SNone]]].
Definition ex_tree : rtree := Node 0 [Node 1 []; Node 2 [Node 3 []]].

Example ex_built : new_tree ex_cats ex_struct = Ok ex_tree.
Proof. vm_compute. reflexivity. Qed.
Example ex_distinct : distinct_categories ex_tree.
Proof. unfold distinct_categories; simpl. repeat constructor; simpl; intuition discriminate. Qed.
Example ex_sorted : sorted_cats ex_cats.
Proof. unfold sorted_cats, ex_cats. repeat (constructor; simpl); unfold Qle; simpl; lia. Qed.
Example ex_range : indices_in_range (length ex_cats) ex_tree.
Proof. unfold indices_in_range. repeat constructor. Qed.

(** ** C28 *)

(** paths_to_leaf (by index, and by name) is the list of all root-to-leaf paths from left to right. *)
Theorem C28_paths : forall cats t,
  (forall p, In p (paths_to_leaf t) <-> is_path t p)
  /\ paths_to_leaf t = root_leaf_paths t
  /\ paths_to_leaf_names cats t = map (map (fun i => cname (cat_at cats i))) (paths_to_leaf t)
  /\ paths_to_leaf t <> [].
Proof.
  intros cats t. rewrite paths_to_leaf_spec. split; [intros; apply root_leaf_paths_In|].
  split; [reflexivity|]. split; [apply paths_names_spec|apply paths_nonempty].
Qed.
Print Assumptions C28_paths.

(** No path is listed twice. *)
Theorem C28_no_repetition : forall t, distinct_categories t -> NoDup (paths_to_leaf t).
Proof. intros t H. rewrite paths_to_leaf_spec. apply paths_distinct. exact H. Qed.
Print Assumptions C28_no_repetition.

(** recipes() never raises on a constructed tree, and has the recipe of every path, in order. *)
Theorem C28_recipes : forall cats s t, new_tree cats s = Ok t ->
  exists rs, recipes (length cats) t = Ok rs /\ Forall2 (path_recipe (length cats)) (paths_to_leaf t) rs.
Proof.
  intros cats s t H. rewrite paths_to_leaf_spec. apply recipes_spec. eapply new_tree_indices. exact H.
Qed.
Print Assumptions C28_recipes.

Example C28_witness : paths_to_leaf ex_tree = [[0; 1]; [0; 2; 3]]%nat
  /\ recipes 4 ex_tree = Ok [[1; 1; 0; 0]; [1; 0; 1; 1]]%nat.
Proof. split; reflexivity. Qed.

(** ** C29 *)
Theorem C29_construction : forall cats s t, new_tree cats s = Ok t <->
  exists i ch rest, s = SList (i :: ch :: rest) /\ Nat.Even (length (i :: ch :: rest))
    /\ struct_typed i ch /\ struct_in_range (length cats) i ch /\ struct_even i ch /\ describes i ch t.
Proof. exact new_tree_ok. Qed.
Print Assumptions C29_construction.

(** Every struct of the right shape is accepted; elements after the first two are ignored. *)
Theorem C29_accepts : forall cats i ch rest, Nat.Even (length rest) ->
  struct_typed i ch -> struct_in_range (length cats) i ch -> struct_even i ch ->
  exists t, new_tree cats (SList (i :: ch :: rest)) = Ok t /\ new_tree cats (SList [i; ch]) = Ok t.
Proof.
  intros cats i ch rest HE H1 H2 H3.
  destruct (new_tree_total cats i ch []) as [t Ht]; [exists 1%nat; reflexivity|assumption..|].
  exists t. split; [|exact Ht].
  apply new_tree_ok in Ht. apply new_tree_ok. destruct Ht as (i' & ch' & rest' & E & _ & Ht).
  injection E; intros <- <- <-. exists i, ch, rest. split; [reflexivity|]. split; [|exact Ht].
  destruct HE as [k Hk]. exists (S k). simpl. lia.
Qed.
Print Assumptions C29_accepts.

(** Which exception is raised tells what is wrong. *)
Theorem C29_errors : forall cats s e, new_tree cats s = Raise e ->
  (e = TypeError /\ forall l, s <> SList l)
  \/ (e = ValueError /\ exists l, s = SList l /\ ~ Nat.Even (length l))
  \/ (e = IndexError /\ s = SList [])
  \/ exists i ch rest, s = SList (i :: ch :: rest) /\
      ((e = ValueError /\ ~ struct_even i ch) \/ (e = IndexError /\ ~ struct_in_range (length cats) i ch)
       \/ (e = TypeError /\ ~ struct_typed i ch)).
Proof. exact new_tree_raise. Qed.
Print Assumptions C29_errors.

Theorem C29_total : forall cats s, new_tree cats s <> Timeout.
Proof. exact new_tree_no_timeout. Qed.
Print Assumptions C29_total.

Example C29_witness :
  new_tree ex_cats (SList [SInt 0; SList [SInt 1; SNone]; SInt 9; SNone]) = Ok (Node 0 [Node 1 []])
  /\ new_tree ex_cats (SList [SInt 0]) = Raise ValueError
  /\ new_tree ex_cats (SList [SInt 0; SList [SInt 1]]) = Raise ValueError
  /\ new_tree ex_cats (SList [SInt 0; SList [SInt 4; SNone]]) = Raise IndexError
  /\ new_tree ex_cats (SList [SInt 0; SInt 1]) = Raise TypeError.
Proof. repeat split. Qed.

(** ** C30 *)

(** The categories returned by largest_categories are a cut of the tree; when categories are distinct, every
    root-to-leaf path contains exactly one of them. *)
Theorem C30_cut : forall cats t, cut t (snd (largest_categories cats t)).
Proof. exact largest_cut. Qed.
Print Assumptions C30_cut.

Theorem C30_one_per_path : forall cats t, distinct_categories t ->
  NoDup (snd (largest_categories cats t))
  /\ forall p, In p (paths_to_leaf t) ->
       exists x, In x (snd (largest_categories cats t)) /\ In x p
         /\ forall y, In y (snd (largest_categories cats t)) -> In y p -> y = x.
Proof.
  intros cats t HD. destruct (cut_distinct t _ HD (largest_cut cats t)) as [A B]. split; [exact A|].
  intros p Hp. apply B. rewrite paths_to_leaf_spec in Hp. apply root_leaf_paths_In. exact Hp.
Qed.
Print Assumptions C30_one_per_path.

(** The first number returned is the size of the largest of these categories, the second the size of the root. *)
Theorem C30_sizes : forall cats t,
  (exists i, In i (snd (largest_categories cats t)) /\ csize (cat_at cats i) = fst (fst (largest_categories cats t)))
  /\ (forall i, In i (snd (largest_categories cats t)) -> (csize (cat_at cats i) <= fst (fst (largest_categories cats t)))%nat)
  /\ snd (fst (largest_categories cats t)) = csize (cat_at cats (tindex t)).
Proof.
  intros cats t. destruct (largest_size cats t) as [A B]. split; [exact A|]. split; [exact B|apply largest_combined].
Qed.
Print Assumptions C30_sizes.

(** Which categories are returned: a returned category is larger than its children together (or they are all
    empty), and a category above a returned one is not (so the rule determines the answer). *)
Theorem C30_choice : forall cats t i ch, distinct_categories t -> subtree t (Node i ch) ->
  (In i (snd (largest_categories cats t)) ->
     (children_size cats ch < csize (cat_at cats i) \/ children_size cats ch = 0)%nat)
  /\ (forall c j, In c ch -> In j (node_indices c) -> In j (snd (largest_categories cats t)) ->
     (csize (cat_at cats i) <= children_size cats ch /\ 0 < children_size cats ch)%nat).
Proof.
  intros cats t i ch HD HS. split.
  - intros H. apply (chosen_node _ _ _ _ HD HS H).
  - intros c j Hc Hj H. destruct (chosen_below _ _ _ _ _ _ HD HS Hc Hj H) as [[A B] _]. lia.
Qed.
Print Assumptions C30_choice.

Example C30_choice_witness : subtree ex_tree (Node 2 [Node 3 []]) /\ distinct_categories ex_tree.
Proof.
  split; [eapply (st_down _ 0); [apply st_here|right; left; reflexivity]|].
  unfold distinct_categories; simpl. repeat constructor; simpl; intuition discriminate.
Qed.

Example C30_witness :
  largest_categories ex_cats ex_tree = (3, 5, [1; 3])%nat.
Proof. vm_compute. reflexivity. Qed.

(** ** C31 *)
Theorem C31_num_of_deals : forall cats t,
  (forall D, tree_feasible cats t D -> (length D <= tree_num_of_deals cats t)%nat)
  /\ (distinct_categories t -> exists D, tree_feasible cats t D /\ length D = tree_num_of_deals cats t).
Proof. exact num_of_deals_max. Qed.
Print Assumptions C31_num_of_deals.

(** num_of_deals_explained never raises when there is a price for every category, reports the same number of
    deals, and its last two numbers are the smallest and the largest size of a leaf category. *)
Theorem C31_explained : forall cats prices t, indices_in_range (length prices) t ->
  exists kmin kmax, deals_explained cats prices t = Ok (tree_num_of_deals cats t, kmin, kmax)
    /\ (exists i, In i (leaf_indices t) /\ csize (cat_at cats i) = kmin)
    /\ (exists i, In i (leaf_indices t) /\ csize (cat_at cats i) = kmax)
    /\ (forall i, In i (leaf_indices t) -> (kmin <= csize (cat_at cats i) <= kmax)%nat).
Proof. exact deals_explained_range. Qed.
Print Assumptions C31_explained.

(** Repeating a category makes num_of_deals too large: two leaves with the same one-seller category. *)
Theorem C31_repeated_refuted : exists cats t, indices_in_range (length cats) t /\
  forall D, tree_feasible cats t D -> (length D < tree_num_of_deals cats t)%nat.
Proof.
  exists [mkCat "b" [5; 4]; mkCat "s" [-(1)]], (Node 0 [Node 1 []; Node 1 []]).
  split; [repeat constructor|]. intros D [H1 H2].
  assert (L : (length D <= length (used_in 1 D))%nat).
  { clear H2. induction H1 as [|d D [Hp Hl] HD IH]; [simpl; lia|].
    change (used_in 1 (d :: D)) with (map snd (filter (fun p => Nat.eqb (fst p) 1) (combine (fst d) (snd d))) ++ used_in 1 D)%list.
    rewrite app_length. inversion Hp as [|i ch c p Hc Hp' E1 E2]; subst.
    assert (X : p = [1]%nat) by (destruct Hc as [<-|[<-|[]]]; inversion Hp' as [|? ? ? ? F]; subst; [reflexivity|destruct F|reflexivity|destruct F]).
    subst p. rewrite <- E2 in *. destruct (snd d) as [|a [|b [|]]]; try discriminate Hl. simpl. lia. }
  specialize (H2 1%nat). apply sub_bag_length in H2. change (length (cvalues _)) with 1%nat in H2.
  change (tree_num_of_deals _ _) with 2%nat. lia.
Qed.
Print Assumptions C31_repeated_refuted.

Example C31_witness : tree_num_of_deals ex_cats ex_tree = 5%nat
  /\ deals_explained ex_cats [0; 0; 0; 0] ex_tree = Ok (5, 2, 3)%nat.
Proof. split; reflexivity. Qed.

(** ** C32 *)
Theorem C32_optimal_gain : forall cats t, sorted_cats cats -> distinct_categories t ->
  exists D, tree_optimal cats t D /\ tree_gain D == optimal_trade_GFT cats t.
Proof. exact gft_optimal. Qed.
Print Assumptions C32_optimal_gain.

(** No feasible list of deals does better, even if categories are repeated in the tree. *)
Theorem C32_upper_bound : forall cats t D, sorted_cats cats -> tree_feasible cats t D ->
  tree_gain D <= optimal_trade_GFT cats t.
Proof. exact gft_upper. Qed.
Print Assumptions C32_upper_bound.

Example C32_witness : optimal_trade_GFT ex_cats ex_tree == 44.
Proof. vm_compute. reflexivity. Qed.

(** ** C33 *)

(** The deals of optimal_trade are an optimal list of deals, with as many deals as possible among the optimal
    lists; optimal_trade_with_counters reports the same deals by their gains, the same number and gain, and
    its counters kmin and kmax are the smallest and largest number of deals on one path that is used. *)
Theorem C33_agree : forall cats t opt n g opt' count gft kmin kmax,
  sorted_cats cats -> distinct_categories t ->
  tree_optimal_trade cats t = Ok (opt, n, g) ->
  optimal_trade_with_counters cats t = (opt', (count, gft, kmin, kmax)) ->
  exists D, tree_optimal cats t D
    /\ (forall D', tree_optimal cats t D' -> (length D' <= length D)%nat)
    /\ opt = map snd D /\ n = length D /\ g == tree_gain D /\ g == optimal_trade_GFT cats t
    /\ Forall2 (fun v d => fst v == tree_deal_gain d) opt' D
    /\ count = N.of_nat n /\ gft == g
    /\ (D = [] -> kmin = 99999%N /\ kmax = 0%N)
    /\ (D <> [] -> (exists d, In d D /\ kmin = N.of_nat (deals_on (fst d) D))
                  /\ (exists d, In d D /\ kmax = N.of_nat (deals_on (fst d) D))
                  /\ forall d, In d D -> (kmin <= N.of_nat (deals_on (fst d) D) <= kmax)%N).
Proof.
  intros cats t opt n g opt' count gft kmin kmax HS HD H1 H2.
  destruct (tree_optimal_trade_spec _ _ _ _ _ H1) as (A & B & C).
  destruct (with_counters_spec _ _ _ _ _ _ _ HS HD H2) as (E & F & G & K1 & K2).
  exists (map to_deal (opt_master cats t)).
  split. { split; [apply opt_feasible; exact HD|]. intros D' HD'. rewrite <- gft_master. apply gft_upper; assumption. }
  split. { intros D' HD'. rewrite map_length. apply optimal_count_max; assumption. }
  split; [exact A|]. split; [rewrite map_length; exact B|]. split; [rewrite C; apply gft_master|].
  split; [exact C|]. split; [exact E|]. split; [rewrite F, map_length, B; reflexivity|].
  split; [rewrite G, C; reflexivity|]. split; [exact K1|exact K2].
Qed.
Print Assumptions C33_agree.

(** optimal_trade raises TypeError exactly when the tree is a single node whose category is not empty. *)
Theorem C33_single_node : forall cats t,
  (tree_optimal_trade cats t = Raise TypeError <-> tchildren t = [] /\ (0 < csize (cat_at cats (tindex t)))%nat)
  /\ ((exists r, tree_optimal_trade cats t = Ok r) <-> ~ (tchildren t = [] /\ (0 < csize (cat_at cats (tindex t)))%nat)).
Proof.
  intros cats t. destruct (tree_optimal_trade_errors cats t) as [[r [H N]]|[H N]]; rewrite H; split; split.
  - discriminate.
  - intros X. contradiction.
  - intros _. exact N.
  - intros _. eauto.
  - intros _. exact N.
  - reflexivity.
  - intros [r X]. discriminate.
  - intros X. contradiction.
Qed.
Print Assumptions C33_single_node.

Example C33_witness :
  tree_optimal_trade ex_cats ex_tree = Ok ([[17; -(1)]; [14; -(1); -(1)]; [13; -(3)]; [9; -(4)]; [6; -(2); -(3)]], 5%nat, 44)
  /\ snd (optimal_trade_with_counters ex_cats ex_tree) = (5%N, 44, 2%N, 3%N).
Proof. split; vm_compute; reflexivity. Qed.
