(** * Model of the programs in stock/ that search for special inputs *)

From Coq Require Import String List Arith ZArith QArith.
From Verif Require Import Base Model_Agents Model_Trade Model_Prices Model_Market Model_Ascending Model_TradeReduction Model_Report.
Import ListNotations.
Open Scope Q_scope.

(** stock/finding_bad_input_for_ascending_auction.py:19-24 and stock/trade_reduction_demo_difference_gft0.py:22-27,
    trade_reduction_demo_difference_gft0_simple.py:22-27 [removeSeconds], from position [i] on; [i % 0] raises. *)
Fixpoint remove_seconds_from (i : nat) (prices : list Q) (reduce_number : nat) : result (list Q) :=
  match prices with
  | [] => Ok []
  | p :: prices' =>
      if (reduce_number =? 0)%nat then Raise ZeroDivisionError
      else
        rest <- remove_seconds_from (S i) prices' reduce_number ;;
        Ok (if (i mod reduce_number =? 0)%nat then rest else p :: rest)
  end.

Definition remove_seconds (prices : list Q) (reduce_number : nat) : result (list Q) := remove_seconds_from 0 prices reduce_number.

(** ** stock/finding_bad_input_for_ascending_auction.py *)

(** Lines 43-57, one round after the shuffles: the reduced lists and the two numbers of deals ([market] is made from the lists as
    they are, AgentCategory sorts copies of them). *)
Definition bad_round (recipe : list nat) (reduce_number : nat) (buyers sellers : list Q)
  : result (list Q * list Q * nat * nat) :=
  b <- remove_seconds buyers reduce_number ;;
  s <- remove_seconds sellers reduce_number ;;
  m <- new_market [new_category "buyer" b; new_category "seller" s] ;;
  auction_trade <- ascending_auction m recipe ;;
  optimal <- optimal_trade default_max_iterations m recipe true ;;
  Ok (b, s, num_of_deals auction_trade, mt_num_of_deals (fst optimal)).

(** Lines 33-59: the while loop.  [shuffle n] gives the shuffled lists of the round with reduce_number [n].  The bound of the loop is
    [10 - reduce_number] rounds, so fuel 10 is never exhausted.  The result: the last [reduce_number], [buyers] and [sellers] (printed
    at lines 64-65) and the pairs of numbers printed in each round. *)
Fixpoint bad_loop (fuel : nat) (recipe : list nat) (shuffle : nat -> list Q * list Q) (auction optimal reduce_number : nat)
    (buyers sellers : list Q) (printed : list (nat * nat * nat)) : result (nat * list Q * list Q * list (nat * nat * nat)) :=
  match fuel with
  | O => Timeout
  | S fuel' =>
      if (auction <=? optimal)%nat && (reduce_number <? 10)%nat then
        let n := S reduce_number in
        r <- bad_round recipe n (fst (shuffle n)) (snd (shuffle n)) ;;
        let '(b, s, a, o) := r in
        bad_loop fuel' recipe shuffle a o n b s (printed ++ [(n, a, o)])%list
      else Ok (reduce_number, buyers, sellers, printed)
  end.

(** Lines 30-32: the start.  (The names [buyers] and [sellers] are unbound there; the first round always happens.) *)
Definition bad_search (recipe : list nat) (shuffle : nat -> list Q * list Q)
  : result (nat * list Q * list Q * list (nat * nat * nat)) :=
  bad_loop 10 recipe shuffle 1 2 1 [] [] [].

(** Lines 34-35: the two lists. *)
Definition bad_buyers : list Q := [5272 # 100; 448 # 10; 33375 # 1000].
Definition bad_sellers : list Q :=
  [-(1523 # 10000); -(1445 # 10000); -(112 # 10); -(112 # 10); -(31406 # 10000); -(112 # 10); -(112 # 10); -(26875 # 10000); -(112 # 10)].

(** ** stock/trade_reduction_demo_difference_gft0_simple.py *)

(** Lines 58-70, one round: the two numbers of deals and the two gains.  Lines 64-65 print the two trades ([show] renders a number). *)
Definition gft0_round (show : Q -> string) (recipe : list nat) (buyers sellers : list Q) : result (nat * nat * Q * Q) :=
  m <- new_market [new_category "buyer" buyers; new_category "seller" sellers] ;;
  without <- trade_reduction m recipe false ;;
  with0 <- trade_reduction m recipe true ;;
  _ <- trade_text show without ;;
  _ <- trade_text show with0 ;;
  without_gft <- gain_from_trade without true ;;
  with_gft <- gain_from_trade with0 true ;;
  Ok (num_of_deals without, num_of_deals with0, without_gft, with_gft).

(** Lines 43-76: the for loop over the given values of [reduce_number]; [draw n] gives the two random lists of the round (lines 45-46).
    The result: the lists printed at the end (lines 77-78; [None] if there was no round), whether the loop was left by [break], and
    the numbers printed in each round. *)
Fixpoint gft0_loop (show : Q -> string) (recipe : list nat) (draw : nat -> list Q * list Q) (rounds : list nat) (last : option (list Q * list Q))
    (printed : list (nat * nat * Q * Q)) : result (option (list Q * list Q) * bool * list (nat * nat * Q * Q)) :=
  match rounds with
  | [] => Ok (last, false, printed)
  | n :: rounds' =>
      r <- gft0_round show recipe (fst (draw n)) (snd (draw n)) ;;
      let '(wo, wi, gwo, gwi) := r in
      if negb (wo =? wi)%nat && negb (Qeq_bool gwi gwo) then Ok (Some (draw n), true, (printed ++ [r])%list)
      else gft0_loop show recipe draw rounds' (Some (draw n)) (printed ++ [r])%list
  end.

(** Lines 37, 43: recipe [1, 2], [for reduce_number in range(2, 10000)]. *)
Definition gft0_search (show : Q -> string) (draw : nat -> list Q * list Q) : result (option (list Q * list Q) * bool * list (nat * nat * Q * Q)) :=
  gft0_loop show [1; 2]%nat draw (seq 2 (N.to_nat 9998)) None [].
