(** * Specification notions for changes of the unit of money (C93) *)

From Coq Require Import List Arith QArith.
From Verif Require Import Base Model_Agents Model_Trade Model_Market Model_RecipeTree Model_TreeAuction.
Import ListNotations.
Open Scope Q_scope.

(** The amount [v] is [v'] in another unit, of which [c] are worth one of the old. *)
Definition conv (c v v' : Q) : Prop := v' == c * v.
Definition conv_list (c : Q) : list Q -> list Q -> Prop := Forall2 (conv c).

Definition conv_category (c : Q) (a a' : category) : Prop := cname a' = cname a /\ conv_list c (cvalues a) (cvalues a').
Definition conv_market (c : Q) : market -> market -> Prop := Forall2 (conv_category c).

(** Two calls end alike: both return, and the results correspond, or both raise the same exception. *)
Definition alike {A B} (R : A -> B -> Prop) (r : result A) (r' : result B) : Prop :=
  match r, r' with
  | Ok a, Ok b => R a b
  | Raise e, Raise e' => e = e'
  | Timeout, Timeout => True
  | _, _ => False
  end.

(** The optimal trade: the same deals, of the same agents, in the same order, and the same agents left over. *)
Definition conv_optimal (c : Q) (o o' : material_trade * market) : Prop :=
  Forall2 (conv_list c) (fst o) (fst o') /\ conv_market c (snd o) (snd o').

(** Trades: the same agents trade, equally many deals, and all prices are converted. *)
Definition conv_prices (c : Q) (p p' : option (list Q)) : Prop :=
  match p, p' with Some l, Some l' => conv_list c l l' | None, None => True | _, _ => False end.
Definition conv_trade (c : Q) (t t' : trade) : Prop :=
  conv_market c (tcats t) (tcats t') /\ trecipe t' = trecipe t /\ num_of_deals t' = num_of_deals t
  /\ conv_prices c (tprices t) (tprices t').
Definition conv_tree_trade (c : Q) (t t' : tree_trade) : Prop :=
  conv_market c (tt_cats t) (tt_cats t') /\ tt_tree t' = tt_tree t /\ conv_list c (tt_prices t) (tt_prices t')
  /\ tt_deals t' = tt_deals t /\ tt_kmin t' = tt_kmin t /\ tt_kmax t' = tt_kmax t /\ conv c (tt_gft t) (tt_gft t').

(** As [conv_trade], for the prices of the categories that the recipe uses. *)
Definition conv_used (c : Q) (recipe : list nat) (t t' : trade) : Prop :=
  conv_market c (tcats t) (tcats t') /\ num_of_deals t' = num_of_deals t
  /\ match tprices t, tprices t' with
     | Some p, Some p' => length p' = length p
         /\ forall i r q q', nth_error recipe i = Some r -> (0 < r)%nat -> nth_error p i = Some q -> nth_error p' i = Some q' -> conv c q q'
     | None, None => True
     | _, _ => False
     end.
