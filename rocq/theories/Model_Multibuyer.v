(** * Model of old/ascending_auction_multibuyer_protocol.py (with the current prices.py, which it imports) *)

From Coq Require Import List Arith QArith.
From Verif Require Import Base Model_Agents Model_Trade Model_Market Model_Prices Model_RecipeTree Model_Ascending.
Import ListNotations.
Open Scope Q_scope.

(** old/ascending_auction_multibuyer_protocol.py:230-241: the loop over the buyer counts of one recipe, from index [i] on. *)
Fixpoint convert_recipe (i : nat) (nonzero_element_found : bool) (recipe_buyers : list nat) (recipe_sellers : nat)
    (counts : list nat) : result (list nat) :=
  match recipe_buyers with
  | [] => Ok counts
  | x :: l =>
      if (x =? 0)%nat then convert_recipe (S i) nonzero_element_found l recipe_sellers counts
      else if nonzero_element_found then Raise ValueError
      else if negb (x =? 1)%nat then Raise ValueError
      else
        c <- get counts i ;;
        if negb (c =? 0)%nat then Raise ValueError
        else convert_recipe (S i) true l recipe_sellers (set_nth i recipe_sellers counts)
  end.

(** Lines 220-241: the loop over the recipes. *)
Fixpoint convert_recipes (num_categories : nat) (ps_recipes : list (list nat)) (counts : list nat) : result (list nat) :=
  match ps_recipes with
  | [] => Ok counts
  | r :: rs =>
      if negb (length r =? num_categories)%nat then Raise ValueError
      else
        match r with
        | [] => Raise IndexError  (* [ps_recipe[-1]] *)
        | _ =>
            counts' <- convert_recipe 0 false (removelast r) (last r 0%nat) counts ;;
            convert_recipes num_categories rs counts'
        end
  end.

(** Lines 211-242 [_convert_recipes_to_seller_counts]; the recipes are lists of non-negative ints. *)
Definition convert_recipes_to_seller_counts (ps_recipes : list (list nat)) (num_categories : nat) : result (list nat) :=
  convert_recipes num_categories ps_recipes (repeat 0%nat (num_categories - 1)).

(** Lines 158, 168: [num_units_demanded]; there is one count for each buyer category. *)
Definition units_demanded (buyers : list category) (counts : list nat) : nat :=
  nsum (map (fun p => csize (fst p) * snd p)%nat (combine buyers counts)).

(** Line 175: [value / count]. *)
Definition value_per_unit (p : Q * nat) : result Q :=
  if (snd p =? 0)%nat then Raise ZeroDivisionError else Ok (fst p / Qn (snd p)).

(** Lines 167-182: the loop over the buyers, with fuel.  The flag tells whether it is left by EmptyCategoryException.
    [min(range, key)] is the first index with the largest opposite key. *)
Fixpoint buyers_loop (fuel target : nat) (counts : list nat) (buyers : list category) (prices : price_vector)
  : result (bool * (list category * price_vector)) :=
  match fuel with
  | O => Timeout
  | S fuel' =>
      let demanded := units_demanded buyers counts in
      if (demanded =? 0)%nat then Ok (true, (buyers, prices))
      else if (demanded <=? target)%nat then Ok (false, (buyers, prices))
      else
        lows <- map_result lowest_agent_value buyers ;;
        per_unit <- map_result value_per_unit (combine lows counts) ;;
        i <- argmax (fun i => - nth i per_unit 0) (seq 0 (length buyers)) ;;
        v <- get per_unit i ;;
        prices' <- increase_price_up_to_balance prices 0 v 0 ;;
        c <- get buyers i ;;
        c' <- remove_lowest_agent c ;;
        buyers_loop fuel' target counts (set_nth i c' buyers) prices'
  end.

(** Lines 184-192: the loop over the sellers, with fuel. *)
Fixpoint sellers_loop (fuel target : nat) (seller : category) (prices : price_vector)
  : result (bool * (category * price_vector)) :=
  match fuel with
  | O => Timeout
  | S fuel' =>
      let offered := csize seller in
      if (offered =? 0)%nat then Ok (true, (seller, prices))
      else if (offered <=? target)%nat then Ok (false, (seller, prices))
      else
        v <- lowest_agent_value seller ;;
        prices' <- increase_price_up_to_balance prices 1 v 0 ;;
        seller' <- remove_lowest_agent seller ;;
        sellers_loop fuel' target seller' prices'
  end.

(** Lines 163-194: the outer loop, with fuel, until EmptyCategoryException.  ([target_unit_count -= 1] is not reached with 0:
    then the loop over the buyers is not left by [break].) *)
Fixpoint multibuyer_loop (fuel inner target : nat) (counts : list nat) (buyers : list category) (seller : category)
    (prices : price_vector) : result (list category * category * price_vector) :=
  match fuel with
  | O => Timeout
  | S fuel' =>
      b <- buyers_loop inner target counts buyers prices ;;
      let '(empty, (buyers', prices')) := b in
      if empty then Ok (buyers', seller, prices')
      else
        s <- sellers_loop inner target seller prices' ;;
        let '(empty', (seller', prices'')) := s in
        if empty' then Ok (buyers', seller', prices'')
        else multibuyer_loop fuel' inner (target - 1) counts buyers' seller' prices''
  end.

(** Lines 31-48: a [TradeWithMultipleRecipes] object. *)
Record mb_trade : Type := mkMB {
  mb_cats : list category;
  mb_prices : list Q;
  mb_offered : nat;
  mb_demanded : nat;
  mb_deals : nat
}.

(** Lines 36-45 [__init__]. *)
Definition new_mb_trade (buyers : list category) (seller : category) (counts : list nat) (prices : list Q) : mb_trade :=
  mkMB (buyers ++ [seller]) prices (csize seller) (units_demanded buyers counts)
    (Nat.min (csize seller) (units_demanded buyers counts)).

(** Lines 50-60 [gain_from_trade]: only the trade without deals has one. *)
Definition mb_gain_from_trade (t : mb_trade) : option Q := if (mb_deals t =? 0)%nat then Some 0 else None.

(** Lines 62-81 [__repr__]: None when it raises ValueError, else whether it is "No trade". *)
Definition mb_repr (t : mb_trade) : option bool :=
  if (mb_deals t =? 0)%nat then Some true
  else if (mb_demanded t <=? mb_offered t)%nat then Some false else None.

(** Lines 84-207 [budget_balanced_ascending_auction]; [M] is MAX_VALUE, [fuel] is given to every loop. *)
Definition multibuyer_auction (M : Q) (fuel : nat) (m : market) (ps_recipes : list (list nat)) : result mb_trade :=
  counts <- convert_recipes_to_seller_counts ps_recipes (length m) ;;
  match clone_market m with
  | [] => Raise IndexError  (* [remaining_market.categories[-1]] *)
  | c0 :: _ =>
      let buyers := removelast (clone_market m) in
      let seller := last (clone_market m) c0 in
      let target := Nat.min (units_demanded buyers counts) (csize seller) in
      r <- multibuyer_loop fuel fuel target counts buyers seller (new_price_vector [1; 1]%nat (- M)) ;;
      let '(buyers', seller', prices) := r in
      b <- get (pv_prices prices) 0 ;;
      s <- get (pv_prices prices) 1 ;;
      Ok (new_mb_trade buyers' seller' counts (map (fun k => b * Qn k) counts ++ [s]))
  end.
