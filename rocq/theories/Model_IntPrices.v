(** * Model of prices_integer.py *)

From Coq Require Import List Arith QArith.
From Verif Require Import Base Model_Trade Model_Prices Model_RecipeTree Model_TreeAuction.
Import ListNotations.
Open Scope Q_scope.

(** prices_integer.py:18-25 [dot] with three lists (the last two made of ints). *)
Fixpoint dot3 (xx : list Q) (yy zz : list nat) : Q :=
  match xx, yy, zz with
  | x :: xx', y :: yy', z :: zz' => x * Qn y * Qn z + dot3 xx' yy' zz'
  | _, _, _ => 0
  end.

(** prices_integer.py:33-43: an [AscendingPriceVector]: recipe, agent counts, prices, status. *)
Record int_vector : Type := mkIV {
  iv_recipe : list nat;
  iv_counts : list nat;
  iv_prices : list Q;
  iv_status : option price_status
}.

(** [agent_counts if agent_counts else [1]*n] (prices_integer.py:41 and 151, recipetree_integer.py:292); None and the
    empty list are both [[]] here. *)
Definition default_counts (counts : list nat) (n : nat) : list nat :=
  match counts with [] => repeat 1%nat n | _ => counts end.

(** prices_integer.py:38-43 [__init__] with a list as [initial_price]. *)
Definition new_int_vector_list (recipe : list nat) (initial_prices : list Q) (counts : list nat) : int_vector :=
  mkIV recipe (default_counts counts (length recipe)) initial_prices None.

(** prices_integer.py:38-43 [__init__] with a number as [initial_price]. *)
Definition new_int_vector (recipe : list nat) (initial_price : Q) (counts : list nat) : int_vector :=
  new_int_vector_list recipe (repeat initial_price (length recipe)) counts.

(** prices_integer.py:51-52 [price_sum]. *)
Definition int_price_sum (iv : int_vector) : Q := dot3 (iv_prices iv) (iv_recipe iv) (iv_counts iv).

(** prices_integer.py:54-55 [price_sum_without_category]. *)
Definition int_price_sum_without (iv : int_vector) (i : nat) : result Q :=
  r <- get (iv_recipe iv) i ;;
  p <- get (iv_prices iv) i ;;
  c <- get (iv_counts iv) i ;;
  Ok (int_price_sum iv - Qn r * p * Qn c).

(** prices_integer.py:57-73 [price_sum_after_increase]. *)
Definition int_price_sum_after (iv : int_vector) (i : nat) (new_price : Q) : result Q :=
  w <- int_price_sum_without iv i ;;
  r <- get (iv_recipe iv) i ;;
  c <- get (iv_counts iv) i ;;
  Ok (w + Qn r * new_price * Qn c).

(** prices_integer.py:75-127 [increase_price_up_to_balance] (logging and the description omitted).  Lines 116-120
    do not use the agent count of the category, unlike [price_sum]. *)
Definition int_increase_up_to_balance (iv : int_vector) (i : nat) (new_price bound : Q) : result int_vector :=
  r <- get (iv_recipe iv) i ;;
  w <- int_price_sum_without iv i ;;
  let new_sum := w + Qn r * new_price in
  if Qle_bool bound new_sum then
    if (r =? 0)%nat then Raise ZeroDivisionError
    else Ok (mkIV (iv_recipe iv) (iv_counts iv) (set_nth i ((bound - w) / Qn r) (iv_prices iv)) (Some STOPPED_AT_ZERO_SUM))
  else Ok (mkIV (iv_recipe iv) (iv_counts iv) (set_nth i new_price (iv_prices iv)) (Some STOPPED_AT_AGENT_VALUE)).

(** prices_integer.py:282-287: the largest index below [j] with a positive entry ([for j in range(n-1, -1, -1)]). *)
Fixpoint last_used (recipe : list nat) (j : nat) : result (option nat) :=
  match j with
  | O => Ok None
  | S j' =>
      r <- get recipe j' ;;
      if (0 <? r)%nat then Ok (Some j') else last_used recipe j'
  end.

(** prices_integer.py:280-287: the loop over the recipes. *)
Fixpoint initial_loop (bound : Q) (num_categories max_depth : nat) (rs : list (list nat)) (prices : list Q)
  : result (list Q) :=
  match rs with
  | [] => Ok prices
  | recipe :: rs' =>
      o <- last_used recipe num_categories ;;
      match o with
      | None => initial_loop bound num_categories max_depth rs' prices
      | Some j =>
          r <- get recipe j ;;
          p <- get prices j ;;
          if Qeq_bool p bound
          then initial_loop bound num_categories max_depth rs'
                 (set_nth j (bound * Qn (max_depth - nsum recipe + r) / Qn r) prices)
          else Raise ValueError
      end
  end.

(** prices_integer.py:250-288 [calculate_initial_prices]. *)
Definition int_initial_prices (rs : list (list nat)) (bound : Q) : result (list Q) :=
  match rs with
  | [] => Raise IndexError
  | r0 :: _ =>
      let num_categories := length r0 in
      let max_depth := fold_right Nat.max 0%nat (map nsum rs) in
      initial_loop bound num_categories max_depth rs (repeat bound num_categories)
  end.

(** prices_integer.py:133-162: a [SimultaneousAscendingPriceVectors] object. *)
Record int_sim_prices : Type := mkISP {
  isp_recipes : list (list nat);
  isp_counts : list nat;
  isp_vector : int_vector;
  isp_status : option price_status
}.

(** prices_integer.py:142-162 [__init__]. *)
Definition new_int_sim_prices (rs : list (list nat)) (bound : Q) (counts : list nat) : result int_sim_prices :=
  match rs with
  | [] => Raise ValueError
  | r0 :: _ =>
      if forallb (fun r => length r =? length r0)%nat rs then
        let counts' := default_counts counts (length r0) in
        p0 <- int_initial_prices rs bound ;;
        Ok (mkISP rs counts' (new_int_vector_list r0 p0 counts') None)
      else Raise ValueError
  end.

(** prices_integer.py:212-217: the loop that counts the increases of one recipe, for the log only; it may raise. *)
Fixpoint int_count_increases (counts recipe : list nat) (increases : list (nat * Q)) : result unit :=
  match increases with
  | [] => Ok tt
  | (i, _) :: increases' =>
      r <- get recipe i ;;
      if (0 <? r)%nat then
        c <- get counts i ;;
        if (c =? 0)%nat then Raise ZeroDivisionError else int_count_increases counts recipe increases'
      else int_count_increases counts recipe increases'
  end.

(** prices_integer.py:229-232 and 236-242: [vector[i] = vector[i] + min_increase * agent_counts[i]]. *)
Fixpoint int_raise_prices (counts : list nat) (d : Q) (increases : list (nat * Q)) (prices : list Q) : result (list Q) :=
  match increases with
  | [] => Ok prices
  | (i, _) :: increases' =>
      p <- get prices i ;;
      c <- get counts i ;;
      int_raise_prices counts d increases' (set_nth i (p + d * Qn c) prices)
  end.

(** prices_integer.py:184-242 [increase_prices] (the description of an increase is omitted). *)
Definition int_increase_prices (sp : int_sim_prices) (increases : list (nat * Q)) (sum_upper_bound : Q)
  : result int_sim_prices :=
  _ <- map_result (fun recipe => int_count_increases (isp_counts sp) recipe increases) (isp_recipes sp) ;;
  let iv := isp_vector sp in
  let increase_to_upper_bound := sum_upper_bound - int_price_sum iv in
  diffs <- map_result (fun inc => p <- get (iv_prices iv) (fst inc) ;; Ok (snd inc - p)) increases ;;
  min_increase_to_new_price <- qmin diffs ;;
  let min_increase := if Qlt_bool increase_to_upper_bound min_increase_to_new_price
                      then increase_to_upper_bound else min_increase_to_new_price in
  let status := if Qeq_bool min_increase increase_to_upper_bound
                then STOPPED_AT_ZERO_SUM else STOPPED_AT_AGENT_VALUE in
  prices' <- int_raise_prices (isp_counts sp) min_increase increases (iv_prices iv) ;;
  Ok (mkISP (isp_recipes sp) (isp_counts sp) (mkIV (iv_recipe iv) (iv_counts iv) prices' (iv_status iv)) (Some status)).
