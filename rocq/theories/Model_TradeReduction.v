(** * Model of trade_reduction_protocol.py *)

From Coq Require Import List Arith QArith.
From Verif Require Import Base Model_Agents Model_Trade Model_Prices Model_Market.
Import ListNotations.
Open Scope Q_scope.

(** trade_reduction_protocol.py:25-31 [convert_category_index]; [i] counts the recipe entries
    already passed and [n] is [len(ps_recipe)] (so the fall-through value is [n-1]). *)
Fixpoint convert_from (n i : nat) (recipe : list nat) (pivot_index : nat) : nat :=
  match recipe with
  | [] => (n - 1)%nat
  | r :: recipe' =>
      if (pivot_index <? r)%nat then i else convert_from n (S i) recipe' (pivot_index - r)
  end.

Definition convert_category_index (recipe : list nat) (pivot_index : nat) : nat :=
  convert_from (length recipe) 0 recipe pivot_index.

(** trade_reduction_protocol.py:227-235: [pivot_indexes]: for each recipe entry its positions in the
    procurement set, in decreasing order. *)
Fixpoint pivot_indexes_from (total : nat) (recipe : list nat) : list nat :=
  match recipe with
  | [] => []
  | r :: recipe' => map (fun i => (total + i)%nat) (rev (seq 0 r)) ++ pivot_indexes_from (total + r) recipe'
  end.

Definition pivot_indexes (recipe : list nat) : list nat := pivot_indexes_from 0 recipe.

(** trade_reduction_protocol.py:228-235: [pivot_index_to_category_index]. *)
Fixpoint pivot_categories_from (index : nat) (recipe : list nat) : list nat :=
  match recipe with
  | [] => []
  | r :: recipe' => repeat index r ++ pivot_categories_from (S index) recipe'
  end.

Definition pivot_categories (recipe : list nat) : list nat := pivot_categories_from 0 recipe.

(** The variables changed by the main loop (lines 236-282): the remaining market, the categories
    [actual_traders], and [latest_prices].  [found_external] is True exactly when [latest_prices]
    is not None (both are set together, lines 255 and 260), so it is not kept separately. *)
Record tr_state : Type := mkTR {
  tr_remaining : market;
  tr_traders : list category;
  tr_prices : option (list Q)
}.

(** Lines 246, 261, 282: [actual_traders[pivot_index_to_category_index[pivot_index]].append(v)]. *)
Definition tr_keep (recipe : list nat) (s : tr_state) (pivot_index : nat) (v : Q) : result tr_state :=
  ci <- get (pivot_categories recipe) pivot_index ;;
  t' <- append_trader (tr_traders s) ci v ;;
  Ok (mkTR (tr_remaining s) t' (tr_prices s)).

(** Lines 243-276: one pivot of a procurement set while looking for external competition.
    [ps[pivot_index] = None] (line 274) is never read again and is omitted. *)
Definition tr_pivot (recipe : list nat) (including_gft_0 : bool) (ps : list Q)
    (s : tr_state) (pivot_index : nat) : result tr_state :=
  v <- get ps pivot_index ;;
  match tr_prices s with
  | Some _ => tr_keep recipe s pivot_index v
  | None =>
      let ci := convert_category_index recipe pivot_index in
      best <- best_containing_PS (tr_remaining s) ci v ;;
      let g := dot best recipe in
      if Qlt_bool 0 g || (including_gft_0 && Qeq_bool g 0) then
        prices <- calculate_prices ci v best recipe ;;
        tr_keep recipe (mkTR (tr_remaining s) (tr_traders s) (Some prices)) pivot_index v
      else
        rem' <- append_trader (tr_remaining s) ci v ;;
        Ok (mkTR rem' (tr_traders s) (tr_prices s))
  end.

(** A loop [for x in l: s = f(s, x)] whose body may raise. *)
Fixpoint fold_result {A S} (f : S -> A -> result S) (l : list A) (s : S) : result S :=
  match l with
  | [] => Ok s
  | x :: l' => s' <- f s x ;; fold_result f l' s'
  end.

(** Lines 239-282: one procurement set.  When prices are already known (lines 277-282) every pivot
    is kept; [tr_pivot] does exactly that when [tr_prices s] is [Some _]. *)
Definition tr_ps (recipe : list nat) (including_gft_0 : bool) (s : tr_state) (ps : list Q)
  : result tr_state :=
  fold_result (tr_pivot recipe including_gft_0 ps) (pivot_indexes recipe) s.

(** Lines 218-220: an empty category of the remaining market gets a dummy trader of value -M. *)
Definition add_dummies (M : Q) (m : market) : market :=
  map (fun c => if (csize c =? 0)%nat then append c (- M) else c) m.

(** trade_reduction_protocol.py:34-286 [budget_balanced_trade_reduction]; [M] is MAX_VALUE,
    [iterations] the default of optimal_trade's max_iterations. *)
Definition trade_reduction_M (M : Q) (iterations : nat) (m : market) (recipe : list nat)
    (including_gft_0 : bool) : result trade :=
  if (length recipe =? length m)%nat then
    ot <- optimal_trade iterations m recipe true ;;
    let (deals, remaining) := ot in
    match deals with
    | [] => new_trade (empty_agent_categories m) recipe (Some (repeat 0 (length recipe)))
    | _ =>
        h <- get_highest_agents remaining recipe ;;
        lr <- (match h with
               | Some (x :: l) =>   (* line 214: a non-empty tuple is true *)
                   rem' <- market_remove_highest remaining recipe ;;
                   Ok ((x :: l) :: deals, rem')
               | _ => Ok (deals, remaining)
               end) ;;
        let (list_ps, rem') := lr in
        s <- fold_result (tr_ps recipe including_gft_0) list_ps
               (mkTR (add_dummies M rem') (empty_agent_categories m) None) ;;
        new_trade (tr_traders s) recipe (tr_prices s)
    end
  else Raise ValueError.

Definition trade_reduction (m : market) (recipe : list nat) (including_gft_0 : bool) : result trade :=
  trade_reduction_M MAX_VALUE default_max_iterations m recipe including_gft_0.
