(** * Specification notions for C72: trees that differ by names, order of siblings and merging of sibling leaves *)

From Coq Require Import String List Arith QArith Permutation.
From Verif Require Import Base Model_Agents Model_Market Model_RecipeTree.
Import ListNotations.
Open Scope Q_scope.

(** [regrouped t t' G]: the tree [t'] is the tree [t] with some groups of sibling leaves replaced by a single leaf, the
    order of siblings changed, and all categories renamed; [G] lists the pairs (categories of [t], the category of [t']
    that stands for them). *)
Inductive regrouped : rtree -> rtree -> list (list nat * nat) -> Prop :=
| rg_node : forall i i' ch ch' G, regrouped_list ch ch' G -> regrouped (Node i ch) (Node i' ch') (([i], i') :: G)
with regrouped_list : list rtree -> list rtree -> list (list nat * nat) -> Prop :=
| rg_nil : regrouped_list [] [] []
| rg_tree : forall c c' ch ch' G G', regrouped c c' G -> regrouped_list ch ch' G' ->
    regrouped_list (c :: ch) (c' :: ch') (G ++ G')
| rg_leaves : forall J j' ch ch' G, J <> [] -> regrouped_list ch ch' G ->
    regrouped_list (map (fun j => Node j []) J ++ ch) (Node j' [] :: ch') ((J, j') :: G)
| rg_order : forall ch1 ch2 ch' G, Permutation ch1 ch2 -> regrouped_list ch2 ch' G -> regrouped_list ch1 ch' G.

(** All agents of the given categories. *)
Definition agents_of (m : list category) (J : list nat) : list Q := concat (map (fun i => cvalues (cat_at m i)) J).

(** No two values are equal. *)
Definition all_different (l : list Q) : Prop := forall l1 x l2 y l3, l = l1 ++ x :: l2 ++ y :: l3 -> ~ x == y.

(** The market [m'] has, in the category [j'], the agents that [m] has in the categories [J]: either there is nothing
    to merge, or the values are all different and between - M and M. *)
Definition same_agents (M : Q) (m m' : market) (J : list nat) (j' : nat) : Prop :=
  (exists i, J = [i] /\ cvalues (cat_at m' j') = cvalues (cat_at m i))
  \/ (Permutation (cvalues (cat_at m' j')) (agents_of m J) /\ all_different (agents_of m J)
      /\ forall v, In v (agents_of m J) -> - M < v /\ v <= M).

(** The struct of a tree whose root [i] has the leaves [J]: for instance [[0, [1, None, 2, None]]]. *)
Definition star_struct (i : nat) (J : list nat) : pystruct :=
  SList [SInt i; SList (concat (map (fun j => [SInt j; SNone]) J))].
