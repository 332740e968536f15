(** * Model of ascending_auction_recipetree_integer_protocol.py *)

From Coq Require Import List Arith QArith.
From Verif Require Import Base Model_Agents Model_Trade Model_Prices Model_Market Model_RecipeTree Model_TreeAuction
  Model_IntPrices Model_IntTree.
Import ListNotations.
Open Scope Q_scope.

(** ascending_auction_recipetree_integer_protocol.py:45-52 [TradeWithMultipleRecipes.__init__]; the fields are those of
    [tree_trade] (the field agent_counts of the trade, which the auction leaves at its default, is omitted). *)
Definition new_int_trade (cats : list category) (counts : list nat) (t : rtree) (prices : list Q) : result tree_trade :=
  r <- int_deals_explained cats counts prices t ;;
  Ok (mkTT cats t prices (fst (fst r)) (snd (fst r)) (snd r) (int_optimal_trade_GFT cats counts t)).

(** The variables changed by the loop. *)
Definition int_state : Type := (list category * int_sim_prices)%type.

(** ascending_auction_recipetree_integer_protocol.py:161-195: one round of the loop.  Lines 173-177 (the planned
    increases) and 189-195 (the removal of agents) are the same as in ascending_auction_recipetree_protocol.py. *)
Definition int_round (M : Q) (counts : list nat) (t : rtree) (s : int_state) : result (bool * int_state) :=
  let (cats, sp) := s in
  l <- int_largest_categories cats counts t ;;
  let combined_category_size := snd (fst l) in
  let indices := snd l in
  if Qeq_bool combined_category_size 0 then Ok (true, s)
  else
    increases <- planned_increases M cats indices ;;
    sp' <- int_increase_prices sp increases 0 ;;
    match isp_status sp' with
    | Some STOPPED_AT_ZERO_SUM => Ok (true, (cats, sp'))
    | _ => cats' <- remove_beaten cats (iv_prices (isp_vector sp')) ;; Ok (false, (cats', sp'))
    end.

(** ascending_auction_recipetree_integer_protocol.py:161-195: the loop, with fuel. *)
Fixpoint int_loop (M : Q) (counts : list nat) (fuel : nat) (t : rtree) (s : int_state) : result int_state :=
  match fuel with
  | O => Timeout
  | S fuel' =>
      r <- int_round M counts t s ;;
      if fst r then Ok (snd r) else int_loop M counts fuel' t (snd r)
  end.

(** ascending_auction_recipetree_integer_protocol.py:75-195 [budget_balanced_ascending_auction], with the constant
    MAX_VALUE as a parameter [M] and fuel for the loop.  Line 154 computes the optimal trade for the log, and cannot
    raise.  Line 160 does not pass the agent counts to the price vectors. *)
Definition int_auction (M : Q) (fuel : nat) (m : market) (struct : pystruct) (counts : list nat) : result tree_trade :=
  let cats := clone_market m in
  t <- new_int_tree cats counts struct ;;
  rs <- int_recipes (length cats) counts t ;;
  sp <- new_int_sim_prices rs (- M) [] ;;
  r <- int_loop M counts fuel t (cats, sp) ;;
  new_int_trade (fst r) counts t (iv_prices (isp_vector (snd r))).
