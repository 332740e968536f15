(** * The trade-reduction protocol with IEEE-754 doubles

    The same code as in Model_TradeReduction.v, with doubles instead of exact numbers; see Model_Float.v for the conventions.  Simplification: the
    recipe consists of ones, so that the pivot indexes are the category indexes 0, 1, ... (lines 227-235) and [convert_category_index] is the identity. *)

From Coq Require Import List Arith ZArith.
From Coq Require Import SpecFloat.
From Verif Require Import Base Model_Float Model_FloatMcAfee.
Import ListNotations.

(** agents.py:71-75 [highest_agent_value]. *)
Definition f_highest (c : list double) : result double := match c with [] => Raise IndexError | x :: _ => Ok x end.

(** markets.py:194-200: the loop filling [best_PS], from category number [i] on. *)
Fixpoint f_best_from (i : nat) (cats : list (list double)) (category_index : nat) (value : double) : result (list double) :=
  match cats with
  | [] => Ok []
  | c :: cats' =>
      v <- (if (i =? category_index)%nat then Ok value else f_highest c) ;;
      rest <- f_best_from (S i) cats' category_index value ;;
      Ok (v :: rest)
  end.

(** agents.py:53-64, markets.py:38-44 [append_trader]. *)
Definition f_append (cats : list (list double)) (i : nat) (v : double) : result (list (list double)) :=
  c <- get cats i ;; Ok (set_nth i (f_desc (c ++ [v])) cats).

(** markets.py:203-220 [calculate_prices_by_external_competition]: the pivot category pays (v*1 - sum) / 1. *)
Definition f_external_prices (pivot_index : nat) (pivot_value : double) (best : list double) : list double :=
  set_nth pivot_index
    (fdiv (fsub (fmul pivot_value (fint 1)) (f_dot best (repeat 1%nat (length best)))) (fint 1)) best.

(** trade_reduction_protocol.py:236-282: the variables of the main loop. *)
Record f_tr_state : Type := mkFTR {
  ftr_remaining : list (list double);
  ftr_traders : list (list double);
  ftr_prices : option (list double)
}.

(** trade_reduction_protocol.py:243-276, and 277-282 when the prices are known: one pivot. *)
Definition f_tr_pivot (including_gft_0 : bool) (ps : list double) (s : f_tr_state) (pivot_index : nat) : result f_tr_state :=
  v <- get ps pivot_index ;;
  match ftr_prices s with
  | Some _ => t' <- f_append (ftr_traders s) pivot_index v ;; Ok (mkFTR (ftr_remaining s) t' (ftr_prices s))
  | None =>
      best <- f_best_from 0 (ftr_remaining s) pivot_index v ;;
      let g := f_dot best (repeat 1%nat (length best)) in
      if (flt (fint 0) g || (including_gft_0 && SFeqb g (fint 0)))%bool then
        t' <- f_append (ftr_traders s) pivot_index v ;;
        Ok (mkFTR (ftr_remaining s) t' (Some (f_external_prices pivot_index v best)))
      else
        r' <- f_append (ftr_remaining s) pivot_index v ;;
        Ok (mkFTR r' (ftr_traders s) None)
  end.

(** A loop [for x in l: s = f(s, x)] whose body may raise. *)
Fixpoint f_fold {A S} (f : S -> A -> result S) (l : list A) (s : S) : result S :=
  match l with
  | [] => Ok s
  | x :: l' => s' <- f s x ;; f_fold f l' s'
  end.

(** trade_reduction_protocol.py:239-282: one procurement set. *)
Definition f_tr_ps (including_gft_0 : bool) (s : f_tr_state) (ps : list double) : result f_tr_state :=
  f_fold (f_tr_pivot including_gft_0 ps) (seq 0 (length ps)) s.

(** trade_reduction_protocol.py:204-285 [budget_balanced_trade_reduction] for a recipe of ones: the traders of each category and the prices
    ([None] when no external competition was found). *)
Definition f_trade_reduction (iterations : nat) (cats : list (list double)) (including_gft_0 : bool)
  : result (list (list double) * option (list double)) :=
  let o := f_optimal_loop iterations (map f_desc cats) in
  match f_by_gft (fst o) with
  | [] => Ok (map (fun _ => []) cats, Some (map (fun _ => fint 0) cats))
  | deals =>
      let lr := match f_heads (snd o) with
                | Some (x :: l) => ((x :: l) :: deals, map (@tl double) (snd o))
                | _ => (deals, snd o)
                end in
      let remaining := map (fun c => match c with [] => [fint (-100000000)] | _ => c end) (snd lr) in
      s <- f_fold (f_tr_ps including_gft_0) (fst lr) (mkFTR remaining (map (fun _ => []) cats) None) ;;
      Ok (ftr_traders s, ftr_prices s)
  end.
