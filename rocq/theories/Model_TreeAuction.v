(** * Model of the multi-recipe part of prices.py and of ascending_auction_recipetree_protocol.py *)

From Coq Require Import List Arith NArith QArith.
From Verif Require Import Base Model_Agents Model_Trade Model_Prices Model_Market Model_RecipeTree.
Import ListNotations.
Open Scope Q_scope.

(** prices.py:125-152: a [SimultaneousAscendingPriceVectors] object: the recipes, the price vector (whose own
    recipe is the first of them) and the status of the latest increase. *)
Record sim_prices : Type := mkSP {
  sp_recipes : list (list nat);
  sp_vector : price_vector;
  sp_status : option price_status
}.

(** prices.py:133-152 [__init__].  The call of [calculate_initial_prices] (linear programming by scipy) is not
    modelled: its result [initial_prices] is an argument, and theorems assume only its documented contract. *)
Definition new_sim_prices (ps_recipes : list (list nat)) (initial_prices : list Q) : result sim_prices :=
  match ps_recipes with
  | [] => Raise ValueError
  | r0 :: _ =>
      if forallb (fun r => length r =? length r0)%nat ps_recipes
      then Ok (mkSP ps_recipes (new_price_vector_list r0 initial_prices) None)
      else Raise ValueError
  end.

(** prices.py:157-169 [map_category_index_to_price]. *)
Definition map_category_index_to_price (sp : sim_prices) : list Q := pv_prices (sp_vector sp).

(** prices.py:203-207: the number of increases of one recipe. *)
Fixpoint increases_in (recipe : list nat) (increases : list (nat * Q)) : result nat :=
  match increases with
  | [] => Ok 0%nat
  | (i, _) :: increases' =>
      r <- get recipe i ;;
      n <- increases_in recipe increases' ;;
      Ok (if (r =? 1)%nat then S n else n)
  end.

(** Python's [min] of a list of numbers. *)
Fixpoint qmin_from (m : Q) (l : list Q) : Q :=
  match l with
  | [] => m
  | x :: l' => qmin_from (if Qlt_bool x m then x else m) l'
  end.
Definition qmin (l : list Q) : result Q :=
  match l with [] => Raise ValueError | x :: l' => Ok (qmin_from x l') end.

(** prices.py:217-221 and 226-232: [vector[i] = vector[i] + min_increase] for every increase, one after another. *)
Fixpoint raise_prices (d : Q) (increases : list (nat * Q)) (prices : list Q) : result (list Q) :=
  match increases with
  | [] => Ok prices
  | (i, _) :: increases' =>
      p <- get prices i ;;
      raise_prices d increases' (set_nth i (p + d) prices)
  end.

(** prices.py:174-232 [increase_prices] (the description of an increase, used for the log, is omitted). *)
Definition increase_prices (sp : sim_prices) (increases : list (nat * Q)) (sum_upper_bound : Q)
  : result sim_prices :=
  counts <- map_result (fun recipe => increases_in recipe increases) (sp_recipes sp) ;;
  if existsb (fun n => negb (n =? 1)%nat) counts then Raise ValueError
  else
    let pv := sp_vector sp in
    let increase_to_upper_bound := sum_upper_bound - price_sum pv in
    diffs <- map_result (fun inc => p <- get (pv_prices pv) (fst inc) ;; Ok (snd inc - p)) increases ;;
    min_increase_to_new_price <- qmin diffs ;;
    let min_increase := if Qlt_bool increase_to_upper_bound min_increase_to_new_price
                        then increase_to_upper_bound else min_increase_to_new_price in
    let status := if Qeq_bool min_increase increase_to_upper_bound
                  then STOPPED_AT_ZERO_SUM else STOPPED_AT_AGENT_VALUE in
    prices' <- raise_prices min_increase increases (pv_prices pv) ;;
    Ok (mkSP (sp_recipes sp) (mkPV (pv_recipe pv) prices' (pv_status pv)) (Some status)).

(** ascending_auction_recipetree_protocol.py:39-64: a [TradeWithMultipleRecipes] object. *)
Record tree_trade : Type := mkTT {
  tt_cats : list category;
  tt_tree : rtree;
  tt_prices : list Q;
  tt_deals : nat;
  tt_kmin : nat;
  tt_kmax : nat;
  tt_gft : Q
}.

(** ascending_auction_recipetree_protocol.py:44-50 [__init__]. *)
Definition new_tree_trade (cats : list category) (t : rtree) (prices : list Q) : result tree_trade :=
  r <- deals_explained cats prices t ;;
  Ok (mkTT cats t prices (fst (fst r)) (snd (fst r)) (snd r) (optimal_trade_GFT cats t)).

(** The variables changed by the loop: the remaining categories and the prices. *)
Definition tree_state : Type := (list category * sim_prices)%type.

(** ascending_auction_recipetree_protocol.py:169-173: the planned increases of the chosen categories. *)
Definition planned_increases (M : Q) (cats : list category) (indices : list nat) : result (list (nat * Q)) :=
  map_result (fun i =>
    c <- get cats i ;;
    if (0 <? csize c)%nat then low <- lowest_agent_value c ;; Ok (i, low) else Ok (i, M)) indices.

(** ascending_auction_recipetree_protocol.py:185-191: the loop over all categories that removes one agent from
    every category whose lowest value is at most its price. *)
Fixpoint remove_beaten (cats : list category) (prices : list Q) : result (list category) :=
  match cats with
  | [] => Ok []
  | c :: cats' =>
      match prices with
      | [] => Raise IndexError
      | p :: prices' =>
          c' <- (if (0 <? csize c)%nat then
                   low <- lowest_agent_value c ;;
                   if Qle_bool low p then remove_lowest_agent c else Ok c
                 else Ok c) ;;
          cats'' <- remove_beaten cats' prices' ;;
          Ok (c' :: cats'')
      end
  end.

(** ascending_auction_recipetree_protocol.py:158-191: one round of the [while True] loop; the boolean tells
    whether the auction ends. *)
Definition tree_round (M : Q) (t : rtree) (s : tree_state) : result (bool * tree_state) :=
  let (cats, sp) := s in
  match largest_categories cats t with
  | (_, combined_category_size, indices) =>
      if (combined_category_size =? 0)%nat then Ok (true, s)
      else
        increases <- planned_increases M cats indices ;;
        sp' <- increase_prices sp increases 0 ;;
        match sp_status sp' with
        | Some STOPPED_AT_ZERO_SUM => Ok (true, (cats, sp'))
        | _ => cats' <- remove_beaten cats (map_category_index_to_price sp') ;; Ok (false, (cats', sp'))
        end
  end.

(** ascending_auction_recipetree_protocol.py:157-191: the loop, with fuel. *)
Fixpoint tree_loop (M : Q) (fuel : nat) (t : rtree) (s : tree_state) : result tree_state :=
  match fuel with
  | O => Timeout
  | S fuel' =>
      r <- tree_round M t s ;;
      if fst r then Ok (snd r) else tree_loop M fuel' t (snd r)
  end.

(** ascending_auction_recipetree_protocol.py:73-191 [budget_balanced_ascending_auction], with the constant
    MAX_VALUE as a parameter [M], the result [p0] of the linear program as an argument and fuel for the loop.
    Line 150 computes the optimal trade only for the log, but may raise TypeError. *)
Definition tree_auction (M : Q) (p0 : list Q) (fuel : nat) (m : market) (struct : pystruct) : result tree_trade :=
  let cats := clone_market m in
  t <- new_tree cats struct ;;
  rs <- recipes (length cats) t ;;
  _ <- tree_optimal_trade cats t ;;
  sp <- new_sim_prices rs p0 ;;
  r <- tree_loop M fuel t (cats, sp) ;;
  new_tree_trade (fst r) t (map_category_index_to_price (snd r)).
