(** * C94: the earlier version of the recipe tree, recipetree.old.py *)

From Coq Require Import String List Arith Lia ZArith QArith DecimalString.
From Verif Require Import Base Model_Agents Model_Trade Model_RecipeTree Model_Report Model_OldTree
  Spec_Market Spec_RecipeTree Spec_Report Spec_OldTree Proof_Tree Proof_Tree3 Proof_OldTree.
Import ListNotations.
Open Scope Q_scope.

(** C94.  recipes() of a constructed tree: the recipe of every path, in order. *)
Theorem C94_recipes : forall cats s t, new_tree cats s = Ok t ->
  exists rs, old_recipes (length cats) t = Ok rs /\ Forall2 (path_recipe (length cats)) (paths_to_leaf t) rs.
Proof.
  intros cats s t H. rewrite old_recipes_new, paths_to_leaf_spec. apply recipes_spec. eapply new_tree_indices. exact H.
Qed.
Print Assumptions C94_recipes.

(** C94.  largest_categories: a cut of the tree. *)
Theorem C94_cut : forall cats t, cut t (snd (old_largest_categories cats t)).
Proof. exact old_cut. Qed.
Print Assumptions C94_cut.

Theorem C94_one_per_path : forall cats t, distinct_categories t ->
  NoDup (snd (old_largest_categories cats t))
  /\ forall p, In p (paths_to_leaf t) ->
       exists x, In x (snd (old_largest_categories cats t)) /\ In x p
         /\ forall y, In y (snd (old_largest_categories cats t)) -> In y p -> y = x.
Proof.
  intros cats t HD. destruct (cut_distinct t _ HD (old_cut cats t)) as [A B]. split; [exact A|].
  intros p Hp. apply B. rewrite paths_to_leaf_spec in Hp. apply root_leaf_paths_In. exact Hp.
Qed.
Print Assumptions C94_one_per_path.

(** C94.  The first number is the size of the largest of these categories; the second, the combined size, is the largest number of
    deals (this is where the version differs from recipetree.py, where it is the size of the root); the categories together have at
    least as many traders as the root. *)
Theorem C94_sizes : forall cats t, distinct_categories t ->
  (exists i, In i (snd (old_largest_categories cats t))
     /\ length (cvalues (cat_at cats i)) = fst (fst (old_largest_categories cats t)))
  /\ (forall i, In i (snd (old_largest_categories cats t)) ->
        (length (cvalues (cat_at cats i)) <= fst (fst (old_largest_categories cats t)))%nat)
  /\ most_deals cats t (snd (fst (old_largest_categories cats t)))
  /\ (traders cats [tindex t] <= traders cats (snd (old_largest_categories cats t)))%nat.
Proof.
  intros cats t HD. destruct (old_size cats t) as [A B]. split; [exact A|]. split; [exact B|]. split.
  - rewrite old_combined. split; [apply num_of_deals_max; exact HD|apply num_of_deals_max].
  - rewrite traders_one. apply old_total.
Qed.
Print Assumptions C94_sizes.

(** C94.  Which categories: an inner category is returned only if it has more traders than there are deals in the trees of its
    children, and passed over for categories below it only if it has not. *)
Theorem C94_choice : forall cats t i ch ds, distinct_categories t -> subtree t (Node i ch) -> ch <> [] -> Forall2 (most_deals cats) ch ds ->
  (In i (snd (old_largest_categories cats t)) -> (nsum ds < length (cvalues (cat_at cats i)))%nat)
  /\ (forall c j, In c ch -> In j (node_indices c) -> In j (snd (old_largest_categories cats t)) ->
        (length (cvalues (cat_at cats i)) <= nsum ds)%nat).
Proof.
  intros cats t i ch ds HD HS Hne HF.
  assert (E : ds = map (tree_num_of_deals cats) ch).
  { assert (HDx := distinct_sub _ _ HS HD).
    assert (HDc : forall c, In c ch -> distinct_categories c) by (intros c Hc; eapply Proof_Report2.distinct_child; eassumption).
    clear -HF HDc. induction HF as [|c d ch ds Hc HF IH]; [reflexivity|]. cbn [map]. f_equal.
    - destruct Hc as [(D & F & L) M]. destruct (num_of_deals_max cats c) as [U W]. destruct (W (HDc c (or_introl eq_refl))) as (D' & F' & L').
      assert (X := U D F). assert (Y := M D' F'). lia.
    - apply IH. intros c' Hc'. apply HDc. right. exact Hc'. }
  subst ds. exact (old_choice cats t i ch HD HS Hne).
Qed.
Print Assumptions C94_choice.

(** C94.  The docstring's "the categories with the largest number of traders" is not the largest total over cuts: in the docstring's
    own example [6, [3, None, 4, [2, None]]] the answer is the root with 6 traders although its children have 3 + 4. *)
Theorem C94_largest_total_refuted : exists cats t l, distinct_categories t /\ cut t l
  /\ (traders cats (snd (old_largest_categories cats t)) < traders cats l)%nat.
Proof.
  exists (map (fun n => mkCat "" (repeat 1 n)) (seq 0 10)), (Node 6 [Node 3 []; Node 4 [Node 2 []]]), [3; 4]%nat. split; [|split].
  - unfold distinct_categories. cbn. repeat constructor; cbn; intuition discriminate.
  - apply (cut_children 6 [Node 3 []; Node 4 [Node 2 []]] [[3]; [4]]%nat); [discriminate|]. repeat constructor.
  - vm_compute. repeat constructor.
Qed.
Print Assumptions C94_largest_total_refuted.

(** C94.  optimal_trade: an optimal list of deals, all of positive gain, with as few deals as possible (in recipetree.py: as many as
    possible, C33); the gain is the same as in recipetree.py. *)
Theorem C94_optimal : forall cats t opt n g, sorted_cats cats -> distinct_categories t -> old_optimal_trade cats t = Ok (opt, n, g) ->
  exists D, tree_optimal cats t D /\ (forall D', tree_optimal cats t D' -> (length D <= length D')%nat)
    /\ Forall (fun d => 0 < tree_deal_gain d) D
    /\ opt = map snd D /\ n = length D /\ g == tree_gain D
    /\ old_optimal_trade_GFT cats t == tree_gain D /\ optimal_trade_GFT cats t == tree_gain D.
Proof. exact old_optimal. Qed.
Print Assumptions C94_optimal.

(** C94.  The two versions have the same optimal gain, whether or not the categories are distinct and sorted, and raise in the same
    cases. *)
Theorem C94_same_gain : forall cats t, old_optimal_trade_GFT cats t == optimal_trade_GFT cats t
  /\ (old_optimal_trade cats t = Raise TypeError <-> tree_optimal_trade cats t = Raise TypeError).
Proof. intros cats t. split; [apply old_gft_same|apply old_optimal_errors]. Qed.
Print Assumptions C94_same_gain.

(** C94.  num_of_deals_explained: the largest number of deals, and the report of the tree with a line for the number of deals at
    every node. *)
Theorem C94_explained : forall show cats prices t, indices_in_range (length prices) t -> distinct_categories t ->
  exists d ls, old_explained show cats prices t = Ok (d, full_lines ls) /\ most_deals cats t d /\ old_report show cats prices t ls.
Proof. exact old_text. Qed.
Print Assumptions C94_explained.

(** ** Cases *)
Open Scope string_scope.
Definition show_int (q : Q) : string := NilZero.string_of_int (Z.to_int (Qnum q)).
Definition sizes : list category := map (fun n => mkCat (decimal n) (repeat 1 n)) (seq 0 10).

(** Docstring examples of largest_categories. *)
Example C94_doctests :
  old_largest_categories sizes (Node 6 []) = (6, 6, [6])%nat
  /\ old_largest_categories sizes (Node 6 [Node 0 []; Node 6 []]) = (6, 6, [0; 6])%nat
  /\ snd (old_largest_categories sizes (Node 6 [Node 3 []; Node 7 [Node 5 []]])) = [3; 7]%nat
  /\ snd (old_largest_categories sizes (Node 6 [Node 3 []; Node 4 [Node 2 []]])) = [6]%nat
  /\ snd (old_largest_categories sizes (Node 9 [Node 6 [Node 4 []]; Node 4 [Node 6 []]])) = [9]%nat
  /\ snd (old_largest_categories sizes (Node 7 [Node 8 [Node 5 [Node 6 []]]])) = [7]%nat
  /\ snd (largest_categories sizes (Node 6 [Node 3 []; Node 4 [Node 2 []]])) = [3; 4]%nat.
Proof. vm_compute. repeat split. Qed.

Definition doc_cats : list category :=
  [new_category "buyer" [60; 40; 20; -(30)]; new_category "seller" [-(10); -(30); -(50)];
   new_category "producerA" [-(1); -(3); -(5)]; new_category "producerB" [-(2); -(4); -(6); -(8)]].
Definition doc_tree : rtree := Node 0 [Node 1 []; Node 2 [Node 3 []]].

Example C94_case : sorted_cats doc_cats /\ distinct_categories doc_tree /\ indices_in_range 4 doc_tree
  /\ old_recipes 4 doc_tree = Ok [[1; 1; 0; 0]; [1; 0; 1; 1]]%nat
  /\ old_largest_categories doc_cats doc_tree = (4, 4, [1; 3])%nat
  /\ old_optimal_trade doc_cats doc_tree = Ok ([[60; -(1); -(2)]; [40; -(3); -(4)]; [20; -(10)]], 3%nat, 100)
  /\ old_optimal_trade_GFT doc_cats doc_tree == 100.
Proof.
  split; [|split; [|split; [|split; [|split; [|split]]]]]; try (vm_compute; reflexivity).
  - unfold sorted_cats, doc_cats. repeat (constructor; [vm_compute; repeat (constructor; try (intros F; discriminate F))|]). constructor.
  - unfold distinct_categories. cbn. repeat constructor; cbn; intuition discriminate.
  - unfold indices_in_range. repeat constructor.
Qed.

(** The fewest and the most deals differ when a deal has gain 0. *)
Example C94_zero_deal : let cats := [mkCat "buyer" [3; 2]; mkCat "seller" [-(1); -(2)]] in
  old_optimal_trade cats (Node 0 [Node 1 []]) = Ok ([[3; -(1)]], 1%nat, 2)
  /\ tree_optimal_trade cats (Node 0 [Node 1 []]) = Ok ([[3; -(1)]; [2; -(2)]], 2%nat, 2).
Proof. split; vm_compute; reflexivity. Qed.

(** What is printed for the docstring's third tree; the docstring (lines 91-96) has the text without the lines "... deals overall", so
    this example in the docstring is wrong. *)
Example C94_text : old_explained show_int doc_cats [1; 2; 3; 4] (Node 0 [Node 2 []; Node 3 []]) = Ok (4%nat, full_lines
  ["producerA: 3 potential deals, price=3"; "3 deals overall"; "producerB: 4 potential deals, price=4"; "4 deals overall";
   "buyer: all 4 traders selected, price=1"; "producerA + producerB: 4 out of 7 traders selected"; "4 deals overall"]).
Proof. vm_compute. reflexivity. Qed.

Theorem C94_docstring_refuted :
  old_explained show_int doc_cats [1; 2; 3; 4] (Node 0 [Node 2 []; Node 3 []]) <> Ok (4%nat, full_lines
  ["producerA: 3 potential deals, price=3"; "producerB: 4 potential deals, price=4";
   "buyer: all 4 traders selected, price=1"; "producerA + producerB: 4 out of 7 traders selected"]).
Proof. rewrite C94_text. vm_compute. intros F. injection F. intros. discriminate. Qed.
Print Assumptions C94_docstring_refuted.
