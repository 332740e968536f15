(** * Property C61: largest_categories of the integer tree *)

From Coq Require Import String List Arith QArith.
From Verif Require Import Base Model_Agents Model_Prices Model_Market Model_RecipeTree Model_IntPrices Model_IntTree
  Spec_RecipeTree Spec_Int Spec_Int2 Proof_Tree Proof_Tree2 Proof_Tree3 Proof_Int6 Proof_Int8 Props_Int.
Import ListNotations.
Open Scope Q_scope.

(** With positive counts it does not fail. *)
Theorem C61_defined : forall cats counts t, positive_counts counts t -> exists a b l, int_largest_categories cats counts t = Ok (a, b, l).
Proof. intros cats counts t H. destruct (int_largest_ok cats counts t H) as (a & l & E). eauto. Qed.
Print Assumptions C61_defined.

(** The categories it returns are a cut of the tree; with distinct categories every path has exactly one of them. *)
Theorem C61_one_per_path : forall cats counts t a b l, int_largest_categories cats counts t = Ok (a, b, l) ->
  cut t l
  /\ (distinct_categories t -> NoDup l /\ forall p, is_path t p -> exists x, In x l /\ In x p /\ forall y, In y l -> In y p -> y = x).
Proof.
  intros cats counts t a b l H. assert (C := int_largest_cut _ _ _ _ _ _ H). split; [exact C|]. intros HD. exact (cut_distinct t l HD C).
Qed.
Print Assumptions C61_one_per_path.

(** The two numbers: the largest relative size (agents divided by count) of a returned category, and that of the root. *)
Theorem C61_sizes : forall cats counts t a b l, positive_counts counts t -> int_largest_categories cats counts t = Ok (a, b, l) ->
  b = Qn (csize (cat_at cats (tindex t))) / Qn (count_at counts (tindex t))
  /\ (exists i, In i l /\ a == Qn (csize (cat_at cats i)) / Qn (count_at counts i))
  /\ (forall i, In i l -> Qn (csize (cat_at cats i)) / Qn (count_at counts i) <= a).
Proof. exact int_sizes. Qed.
Print Assumptions C61_sizes.

(** Which categories are returned.  Let [n] be the number of deals needed to use all the agents of the children of a category.  A
    returned category has agents for more than [n] deals (or [n] is 0), and a category above a returned one does not. *)
Theorem C61_choice : forall cats counts t a b l i ch n, positive_counts counts t -> distinct_categories t ->
  int_largest_categories cats counts t = Ok (a, b, l) -> subtree t (Node i ch) -> children_deals cats counts ch n ->
  (In i l -> (n * count_at counts i < csize (cat_at cats i) \/ n = 0)%nat)
  /\ (forall c j, In c ch -> In j (node_indices c) -> In j l -> (csize (cat_at cats i) <= n * count_at counts i /\ 0 < n)%nat).
Proof. exact int_choice. Qed.
Print Assumptions C61_choice.

(** The doctest of lines 590-609: ten categories of size 2 on a path, counts [1,2,1,2,1,...]. *)
Example C61_witness :
  let cats sizes := map (fun k => mkCat "x"%string (repeat 1 k)) sizes in
  let t := Node 0 [Node 1 [Node 2 [Node 3 [Node 4 []]]]] in
  let counts := [1; 2; 1; 2; 1; 1; 1; 1; 1; 1]%nat in
  let chosen sizes := match int_largest_categories (cats sizes) counts t with Ok (_, _, l) => l | _ => [] end in
  chosen [2; 2; 2; 2; 2]%nat = [0%nat] /\ chosen [1; 2; 2; 2; 2]%nat = [2%nat] /\ chosen [1; 2; 1; 2; 2]%nat = [4%nat]
  /\ chosen [1; 2; 1; 2; 1]%nat = [4%nat] /\ chosen [1; 2; 1; 2; 0]%nat = [3%nat] /\ chosen [1; 2; 1; 1; 0]%nat = [3%nat].
Proof. vm_compute. repeat split. Qed.

(** Rounding up matters: a child category with 3 agents and count 2 needs 2 deals. *)
Example C61_witness_ceil :
  let cats := [mkCat "buyer"%string [1; 1]; mkCat "seller"%string [-1; -1; -1]] in
  int_largest_categories cats [1; 2]%nat (Node 0 [Node 1 []]) = Ok (3 # 2, 2 # 1, [1%nat])
  /\ children_deals cats [1; 2]%nat [Node 1 []] 2.
Proof.
  split; [vm_compute; reflexivity|]. exists [2%nat]. split; [|reflexivity]. repeat constructor.
  intros [|[|k]] H; simpl in H; [inversion H|repeat (apply le_S_n in H); inversion H|repeat apply le_n_S; apply Nat.le_0_l].
Qed.
