(** * Specification: the money of one deal, in exact numbers (C104) *)

From Coq Require Import List Arith ZArith QArith.
From Verif Require Import Base Model_Float Spec_Float Spec_FloatMcAfee.
Import ListNotations.
Open Scope Q_scope.

(** What the traders of one deal pay together: [recipe] says how many traders of each category there are, and each one pays
    the price of its category.  The prices are doubles; the sum is not rounded. *)
Fixpoint paid (prices : list double) (recipe : list nat) : Q :=
  match prices, recipe with
  | p :: prices', r :: recipe' => inject_Z (Z.of_nat r) * dval p + paid prices' recipe'
  | _, _ => 0
  end.

(** The number of traders of a deal. *)
Definition traders (recipe : list nat) : Z := Z.of_nat (nsum recipe).
