(** * Model of prices.py *)

From Coq Require Import List Arith QArith.
From Verif Require Import Base.
Import ListNotations.
Open Scope Q_scope.

(** prices.py:18-24 [dot], with the second list made of ints. *)
Fixpoint dot (xx : list Q) (yy : list nat) : Q :=
  match xx, yy with
  | x :: xx', y :: yy' => x * Qn y + dot xx' yy'
  | _, _ => 0
  end.

(** prices.py:26-29 [PriceStatus]. *)
Inductive price_status : Type := STOPPED_AT_AGENT_VALUE | STOPPED_AT_ZERO_SUM.

(** prices.py:32-41: an [AscendingPriceVector] (its fields recipe, prices, status). *)
Record price_vector : Type := mkPV {
  pv_recipe : list nat;
  pv_prices : list Q;
  pv_status : option price_status
}.

(** prices.py:37-41 [__init__] with a number as [initial_price]. *)
Definition new_price_vector (recipe : list nat) (initial_price : Q) : price_vector :=
  mkPV recipe (repeat initial_price (length recipe)) None.

(** prices.py:37-41 [__init__] with a list as [initial_price]. *)
Definition new_price_vector_list (recipe : list nat) (initial_prices : list Q) : price_vector :=
  mkPV recipe initial_prices None.

(** prices.py:49-50 [price_sum]. *)
Definition price_sum (pv : price_vector) : Q := dot (pv_prices pv) (pv_recipe pv).

(** prices.py:52-53 [price_sum_without_category]. *)
Definition price_sum_without_category (pv : price_vector) (i : nat) : result Q :=
  r <- get (pv_recipe pv) i ;;
  p <- get (pv_prices pv) i ;;
  Ok (price_sum pv - Qn r * p).

(** prices.py:55-65 [price_sum_after_increase]. *)
Definition price_sum_after_increase (pv : price_vector) (i : nat) (new_price : Q) : result Q :=
  w <- price_sum_without_category pv i ;;
  r <- get (pv_recipe pv) i ;;
  Ok (w + Qn r * new_price).

(** prices.py:67-119 [increase_price_up_to_balance] (logging and the description omitted). *)
Definition increase_price_up_to_balance (pv : price_vector) (i : nat) (new_price bound : Q)
  : result price_vector :=
  r <- get (pv_recipe pv) i ;;
  w <- price_sum_without_category pv i ;;
  let new_sum := w + Qn r * new_price in
  if Qle_bool bound new_sum then
    if (r =? 0)%nat then Raise ZeroDivisionError
    else Ok (mkPV (pv_recipe pv) (set_nth i ((bound - w) / Qn r) (pv_prices pv))
                  (Some STOPPED_AT_ZERO_SUM))
  else Ok (mkPV (pv_recipe pv) (set_nth i new_price (pv_prices pv))
                (Some STOPPED_AT_AGENT_VALUE)).
