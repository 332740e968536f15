(** * Specification notions for the comparison of the tree auction with the single-recipe auction (C71) *)

From Coq Require Import String List Arith QArith.
From Verif Require Import Base Model_Agents Model_Market Model_RecipeTree.
Import ListNotations.
Open Scope Q_scope.

(** The struct of a tree with a single path, [i] being the root and [l] the rest of the way down to the leaf:
    for instance [[2, [1, [0, None]]]] for i = 2 and l = [1; 0]. *)
Fixpoint path_struct (i : nat) (l : list nat) : pystruct :=
  SList [SInt i; match l with [] => SNone | j :: l' => path_struct j l' end].

(** The categories that a recipe uses, in increasing order. *)
Definition used (recipe : list nat) : list nat :=
  filter (fun i => negb (nth i recipe 0 =? 0)%nat) (seq 0 (length recipe)).

(** Every agent's value is larger than [b]. *)
Definition values_over (b : Q) (m : market) : Prop := forall c v, In c m -> In v (cvalues c) -> b < v.

(** ascending_auction_recipetree_test.py:29-52 [ps_recipe_to_recipe_struct]: the struct built by the test suite out of
    a single recipe: the loop takes category 0 first and the others from the last to the first, and puts each one
    whose count is positive on top of the struct built so far. *)
Definition ps_recipe_to_recipe_struct (ps_recipe : list nat) : pystruct :=
  let enum := combine (seq 0 (length ps_recipe)) ps_recipe in
  let order := match enum with [] => [] | first :: others => first :: rev others end in
  fold_left (fun result ic => if (0 <? snd ic)%nat then SList [SInt (fst ic); result] else result) order SNone.
