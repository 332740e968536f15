(** * Specification notions for recipe trees (C28 - C33) *)

From Coq Require Import String List Arith QArith Permutation.
From Verif Require Import Base Model_Agents Model_RecipeTree Spec_Market.
Import ListNotations.
Open Scope Q_scope.

(** ** Structs *)

(** The consecutive pairs (index, children) of a list; a last odd element is not part of any pair. *)
Fixpoint pairs (l : list pystruct) : list (pystruct * pystruct) :=
  match l with
  | a :: b :: l' => (a, b) :: pairs l'
  | _ => []
  end.

(** [struct_node i ch a b]: the pair (a, b) occurs as a node in the struct of the pair (i, ch). *)
Inductive struct_node : pystruct -> pystruct -> pystruct -> pystruct -> Prop :=
| sn_here : forall i ch, struct_node i ch i ch
| sn_below : forall i l a b a' b', In (a, b) (pairs l) -> struct_node a b a' b' -> struct_node i (SList l) a' b'.

(** Every node has an int as index, and None or a list as children. *)
Definition struct_typed (i ch : pystruct) : Prop :=
  forall a b, struct_node i ch a b -> (exists k, a = SInt k) /\ (b = SNone \/ exists l, b = SList l).

(** Every index is smaller than [n]. *)
Definition struct_in_range (n : nat) (i ch : pystruct) : Prop :=
  forall k b, struct_node i ch (SInt k) b -> (k < n)%nat.

(** Every list of children has even length. *)
Definition struct_even (i ch : pystruct) : Prop :=
  forall a l, struct_node i ch a (SList l) -> Nat.Even (length l).

(** The tree that a struct describes. *)
Inductive describes : pystruct -> pystruct -> rtree -> Prop :=
| desc_leaf : forall k, describes (SInt k) SNone (Node k [])
| desc_node : forall k l ts, Forall2 (fun ab t => describes (fst ab) (snd ab) t) (pairs l) ts ->
    describes (SInt k) (SList l) (Node k ts).

(** ** Paths *)

(** [is_path t p]: p is the list of the indices on the way from the root of [t] to one of its leaves. *)
Inductive is_path : rtree -> list nat -> Prop :=
| path_leaf : forall i, is_path (Node i []) [i]
| path_down : forall i ch c p, In c ch -> is_path c p -> is_path (Node i ch) (i :: p).

(** All root-to-leaf paths, from left to right. *)
Fixpoint root_leaf_paths (t : rtree) : list (list nat) :=
  match t with
  | Node i [] => [[i]]
  | Node i ch => map (cons i) (concat (map root_leaf_paths ch))
  end.

(** The indices of all nodes. *)
Fixpoint node_indices (t : rtree) : list nat :=
  match t with Node i ch => i :: concat (map node_indices ch) end.

(** No category occurs twice in the tree. *)
Definition distinct_categories (t : rtree) : Prop := NoDup (node_indices t).

(** All indices are indices of categories. *)
Definition indices_in_range (n : nat) (t : rtree) : Prop := Forall (fun i => (i < n)%nat) (node_indices t).

(** A selection of nodes that meets every root-to-leaf path exactly once. *)
Inductive cut : rtree -> list nat -> Prop :=
| cut_root : forall i ch, cut (Node i ch) [i]
| cut_children : forall i ch cuts, ch <> [] -> Forall2 cut ch cuts -> cut (Node i ch) (concat cuts).

(** The subtrees of a tree. *)
Inductive subtree (t : rtree) : rtree -> Prop :=
| st_here : subtree t t
| st_down : forall i ch c, subtree t (Node i ch) -> In c ch -> subtree t c.

(** Total size of the categories at the roots of some trees. *)
Definition children_size (cats : list category) (ch : list rtree) : nat :=
  nsum (map (fun c => csize (cat_at cats (tindex c))) ch).

(** ** Trades *)

(** A deal of a recipe tree: a path, and the value of one agent of each category of the path. *)
Definition tree_deal : Type := (list nat * list Q)%type.

Definition tree_deal_ok (t : rtree) (d : tree_deal) : Prop :=
  is_path t (fst d) /\ length (snd d) = length (fst d).

Definition tree_deal_gain (d : tree_deal) : Q := Qsum (snd d).

(** The agents of category [i] that take part in a list of deals. *)
Definition used_in (i : nat) (D : list tree_deal) : list Q :=
  concat (map (fun d => map snd (filter (fun p => Nat.eqb (fst p) i) (combine (fst d) (snd d)))) D).

(** A list of deals that uses every agent at most once. *)
Definition tree_feasible (cats : list category) (t : rtree) (D : list tree_deal) : Prop :=
  Forall (tree_deal_ok t) D
  /\ forall i, sub_bag (used_in i D) (cvalues (cat_at cats i)).

Definition tree_gain (D : list tree_deal) : Q := Qsum (map tree_deal_gain D).

(** A feasible list of deals with the largest possible total gain. *)
Definition tree_optimal (cats : list category) (t : rtree) (D : list tree_deal) : Prop :=
  tree_feasible cats t D
  /\ forall D', tree_feasible cats t D' -> tree_gain D' <= tree_gain D.

(** The recipe of a path: a list of [n] numbers, 1 at the categories of the path and 0 elsewhere. *)
Definition path_recipe (n : nat) (path recipe : list nat) : Prop :=
  length recipe = n
  /\ forall i, (i < n)%nat -> (In i path -> nth_error recipe i = Some 1%nat)
                         /\ (~ In i path -> nth_error recipe i = Some 0%nat).

(** The indices of the leaves. *)
Fixpoint leaf_indices (t : rtree) : list nat :=
  match t with
  | Node i [] => [i]
  | Node i ch => concat (map leaf_indices ch)
  end.

(** AgentCategory keeps the values of every category in descending order (property C01). *)
Definition sorted_cats (cats : list category) : Prop := Forall (fun c => desc (cvalues c)) cats.

(** Number of deals that use a given path. *)
Definition deals_on (p : list nat) (D : list tree_deal) : nat :=
  length (filter (fun d => if list_eq_dec Nat.eq_dec (fst d) p then true else false) D).
