(** * Specification for C76: tied price-vectors with one list of prices *)

From Coq Require Import List Arith QArith.
Import ListNotations.
Open Scope Q_scope.

(** The price of one unit of a recipe: the sum over the categories of (number in the recipe) * price. *)
Fixpoint recipe_price (recipe : list nat) (prices : list Q) : Q :=
  match recipe, prices with
  | r :: recipe', p :: prices' => inject_Z (Z.of_nat r) * p + recipe_price recipe' prices'
  | _, _ => 0
  end.

(** The recipes are lists of numbers for the same categories as the prices. *)
Definition well_formed (recipes : list (list nat)) (prices : list Q) : Prop :=
  recipes <> [] /\ forall r, In r recipes -> length r = length prices.

(** "All price-vectors retain the same sum": every recipe costs [s]. *)
Definition common_sum (recipes : list (list nat)) (prices : list Q) (s : Q) : Prop :=
  forall r, In r recipes -> recipe_price r prices == s.

(** The price list after one price is replaced. *)
Definition replaced (prices : list Q) (c : nat) (x : Q) (prices' : list Q) : Prop :=
  length prices' = length prices /\ nth_error prices' c = Some x
  /\ forall j, j <> c -> nth_error prices' j = nth_error prices j.

(** The increases [incs] (a category and a target price for each recipe) are compatible: each recipe contains its own category
    and, if it also contains the category of another recipe, it is the same category, with the same number of units. *)
Definition compatible (recipes : list (list nat)) (incs : list (nat * Q)) : Prop :=
  forall k r c p, nth_error recipes k = Some r -> nth_error incs k = Some (c, p) ->
    (0 < nth c r 0)%nat
    /\ forall k' r' c' p', nth_error recipes k' = Some r' -> nth_error incs k' = Some (c', p') ->
         (0 < nth c' r 0)%nat -> c' = c /\ nth c' r' 0%nat = nth c' r 0%nat.

(** [m] is the smallest of 0 and of the sums that the recipes would have if only their own increase were made. *)
Definition lowest_sum (recipes : list (list nat)) (prices : list Q) (incs : list (nat * Q)) (m : Q) : Prop :=
  m <= 0
  /\ (forall k r c p prices', nth_error recipes k = Some r -> nth_error incs k = Some (c, p) -> replaced prices c p prices' ->
        m <= recipe_price r prices')
  /\ (m == 0 \/ exists k r c p prices', nth_error recipes k = Some r /\ nth_error incs k = Some (c, p) /\ replaced prices c p prices'
        /\ recipe_price r prices' == m).

(** The tolerance of the code: 1e-11. *)
Definition tolerance : Q := 1 # 100000000000.

(** The increases are increases: every target is at least the current price of its category. *)
Definition raises (prices : list Q) (incs : list (nat * Q)) : Prop :=
  forall c p, In (c, p) incs -> nth c prices 0 <= p.
