(** * Model of ascending_auction_protocol.py *)

From Coq Require Import List Arith QArith.
From Verif Require Import Base Model_Agents Model_Trade Model_Market Model_Prices.
Import ListNotations.
Open Scope Q_scope.

(** ascending_auction_protocol.py:99 [relevant_category_indices]. *)
Definition relevant_indices (recipe : list nat) : list nat :=
  filter (fun i => Nat.ltb 0 (nth i recipe 0%nat)) (seq 0 (length recipe)).

(** ascending_auction_protocol.py:112 [fractional_potential_ps]: size / recipe count.  The float
    division is an exact rational here; it is only applied to indices with count > 0. *)
Definition fractional_potential_ps (cats : list category) (recipe : list nat) (i : nat) : Q :=
  Qn (nth i (map csize cats) 0%nat) / Qn (nth i recipe 0%nat).

(** Python's [max(l, key=key)]: the first element with maximal key; ValueError on an empty list. *)
Fixpoint argmax_from (key : nat -> Q) (best : nat) (l : list nat) : nat :=
  match l with
  | [] => best
  | x :: l' => if Qlt_bool (key best) (key x) then argmax_from key x l' else argmax_from key best l'
  end.

Definition argmax (key : nat -> Q) (l : list nat) : result nat :=
  match l with [] => Raise ValueError | x :: l' => Ok (argmax_from key x l') end.

(** The variables changed by the loop: the remaining categories and the price vector. *)
Definition asc_state : Type := (list category * price_vector)%type.

(** ascending_auction_protocol.py:115-133: one round of the [while True] loop; the boolean tells
    whether the loop is left ([break]). *)
Definition ascending_round (recipe : list nat) (s : asc_state) : result (bool * asc_state) :=
  let (cats, pv) := s in
  main <- argmax (fractional_potential_ps cats recipe) (relevant_indices recipe) ;;
  c <- get cats main ;;
  if (csize c =? 0)%nat then Ok (true, (cats, pv))
  else
    low <- lowest_agent_value c ;;
    pv' <- increase_price_up_to_balance pv main low 0 ;;
    match pv_status pv' with
    | Some STOPPED_AT_ZERO_SUM => Ok (true, (cats, pv'))
    | _ =>
        c' <- remove_lowest_agent c ;;
        Ok (false, (set_nth main c' cats, pv'))
    end.

(** ascending_auction_protocol.py:115-133: the [while True] loop, with fuel. *)
Fixpoint ascending_loop (fuel : nat) (recipe : list nat) (s : asc_state) : result asc_state :=
  match fuel with
  | O => Timeout
  | S fuel' =>
      r <- ascending_round recipe s ;;
      if fst r then Ok (snd r) else ascending_loop fuel' recipe (snd r)
  end.

(** ascending_auction_protocol.py:97-100: the state before the first round. *)
Definition ascending_start (M : Q) (m : market) (recipe : list nat) : asc_state :=
  (clone_market m, new_price_vector recipe (- M)).

(** ascending_auction_protocol.py:24-136 [budget_balanced_ascending_auction], with the constant
    MAX_VALUE as a parameter [M] and fuel for the loop.  Line 105 computes the optimal trade only
    for the log; its single possible exception is the length check already done at line 94. *)
Definition ascending_auction_M (M : Q) (fuel : nat) (m : market) (recipe : list nat)
  : result trade :=
  if (length recipe =? length m)%nat then
    r <- ascending_loop fuel recipe (ascending_start M m recipe) ;;
    new_trade (fst r) recipe (Some (pv_prices (snd r)))
  else Raise ValueError.

(** Number of agents in a market: the loop needs at most one round per agent, plus one. *)
Definition total_agents (m : market) : nat := nsum (map csize m).

(** ascending_auction_protocol.py:24-136.  The Python loop has no bound; the fuel used here is
    [total_agents m + 1], and theorem [ascending_terminates] shows that it is never exhausted. *)
Definition ascending_auction (m : market) (recipe : list nat) : result trade :=
  ascending_auction_M MAX_VALUE (total_agents m + 1) m recipe.
