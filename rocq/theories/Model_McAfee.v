(** * Model of mcafee_protocol.py *)

From Coq Require Import List Arith QArith Qabs.
From Verif Require Import Base Model_Agents Model_Trade Model_Prices Model_Market Model_TradeReduction.
Import ListNotations.
Open Scope Q_scope.

(** mcafee_protocol.py:24-40 [is_price_good_for_ps]. *)
Definition is_price_good_for_ps (price : Q) (ps : list Q) : bool :=
  forallb (fun x =>
    negb ((Qle_bool 0 x && Qlt_bool x price) || (Qle_bool x 0 && Qlt_bool x (- price)))) ps.

(** mcafee_protocol.py:141: [sum([abs(x) for x in ps]) / len(ps)]. *)
Definition price_candidate (ps : list Q) : result Q :=
  if (length ps =? 0)%nat then Raise ZeroDivisionError
  else Ok (Qsum (map Qabs ps) / Qn (length ps)).

(** mcafee_protocol.py:158-161, inner loop: append the i-th value of the deal to category i, for
    i in range(num_categories) ([ps[i] is not None] always holds). *)
Fixpoint mcafee_add_ps (i : nat) (n : nat) (ps : list Q) (traders : list category)
  : result (list category) :=
  match n with
  | O => Ok traders
  | S n' =>
      v <- get ps i ;;
      t' <- append_trader traders i v ;;
      mcafee_add_ps (S i) n' ps t'
  end.

(** mcafee_protocol.py:44-185 [mcafee_trade_reduction]. *)
Definition mcafee_M (M : Q) (iterations : nat) (m : market) (recipe : list nat) (heuristic : bool)
  : result trade :=
  if negb (length recipe =? length m)%nat then Raise ValueError
  else if negb (forallb (fun r => r =? 1)%nat recipe) then Raise ValueError
  else
    ot <- optimal_trade iterations m recipe true ;;
    let (deals, rem0) := ot in
    let remaining := add_dummies M rem0 in
    h <- get_highest_agents remaining recipe ;;
    cand <- (if heuristic then
               match h with
               | None => Raise TypeError          (* iterating over None *)
               | Some ps => c <- price_candidate ps ;; Ok (Some c)
               end
             else Ok None) ;;
    match deals with
    | [] => new_trade (empty_agent_categories m) recipe (Some (repeat 0 (length m)))
    | last_positive :: others =>
        let accepted := match cand with
                        | Some c => is_price_good_for_ps c last_positive
                        | None => false
                        end in
        prices <- (if accepted then
                     match cand with
                     | Some c => Ok (map (fun x => if Qlt_bool x 0 then c * (-1) else c * 1)
                                         (firstn (length m) last_positive))
                     | None => Raise TypeError
                     end
                   else Ok last_positive) ;;
        traders <- fold_result (fun t ps => mcafee_add_ps 0 (length m) ps t)
                     (if accepted then deals else others) (empty_agent_categories m) ;;
        new_trade traders recipe (Some prices)
    end.

Definition mcafee (m : market) (recipe : list nat) (heuristic : bool) : result trade :=
  mcafee_M MAX_VALUE default_max_iterations m recipe heuristic.
