(** * Model of old/SimultaneousAscendingPriceVector.py

    All the [AscendingPriceVector] objects of one collection are constructed with the same list object as initial prices
    (lines 51-54), and prices.py:40 keeps a list argument without copying it.  So the collection has one mutable list of
    prices, which is how it is modelled: [os_prices]. *)

From Coq Require Import List Arith QArith Bool.
From Verif Require Import Base Model_Prices.
Import ListNotations.
Open Scope Q_scope.

(** old/SimultaneousAscendingPriceVector.py:31-58: a collection of tied price-vectors.  [os_recipes] are the recipes of the
    vectors, [os_prices] is their common list of prices, [os_statuses] are their statuses; [os_status] is the field [status]. *)
Record old_vectors : Type := mkOS {
  os_recipes : list (list nat);
  os_prices : list Q;
  os_statuses : list (option price_status);
  os_status : option price_status
}.

(** old/SimultaneousAscendingPriceVector.py:41-58 [__init__].  [lp] stands for [calculate_initial_prices] (lines 128-161, a call
    of scipy's linprog): [None] when the solver does not find an optimum, which raises ValueError (line 161). *)
Definition old_new (lp : list (list nat) -> Q -> option (list Q)) (recipes : list (list nat)) (initial_price_sum : Q) : result old_vectors :=
  match recipes with
  | [] => Raise ValueError
  | r0 :: _ =>
      if forallb (fun r => (length r =? length r0)%nat) recipes then
        match lp recipes initial_price_sum with
        | Some prices => Ok (mkOS recipes prices (map (fun _ => None) recipes) None)
        | None => Raise ValueError
        end
      else Raise ValueError
  end.

(** One of the vectors of the collection, [self.vectors[k]]. *)
Definition old_vector (v : old_vectors) (recipe : list nat) : price_vector := mkPV recipe (os_prices v) None.

(** old/SimultaneousAscendingPriceVector.py:60-61 [price_sum]: that of the first vector. *)
Definition old_price_sum (v : old_vectors) : result Q :=
  r <- get (os_recipes v) 0 ;; Ok (price_sum (old_vector v r)).

(** old/SimultaneousAscendingPriceVector.py:76-84: the loops of [map_category_index_to_price], for one vector (over the
    categories, in the order of the list) ... *)
Fixpoint old_map_row (recipe : list nat) (prices : list Q) (acc : list (option Q)) : result (list (option Q)) :=
  match acc with
  | [] => Ok []
  | a :: acc' =>
      match recipe, prices with
      | r :: recipe', p :: prices' =>
          a' <- (if (0 <? r)%nat then
                   match a with
                   | None => Ok (Some p)
                   | Some q => if Qeq_bool q p then Ok a else Raise ValueError
                   end
                 else Ok a) ;;
          rest <- old_map_row recipe' prices' acc' ;;
          Ok (a' :: rest)
      | r :: recipe', [] => if (0 <? r)%nat then Raise IndexError else rest <- old_map_row recipe' [] acc' ;; Ok (a :: rest)
      | [], _ => Raise IndexError
      end
  end.

(** ... and over the vectors. *)
Fixpoint old_map_rows (recipes : list (list nat)) (prices : list Q) (acc : list (option Q)) : result (list (option Q)) :=
  match recipes with
  | [] => Ok acc
  | r :: recipes' => acc' <- old_map_row r prices acc ;; old_map_rows recipes' prices acc'
  end.

(** old/SimultaneousAscendingPriceVector.py:63-85 [map_category_index_to_price]. *)
Definition old_map (v : old_vectors) : result (list (option Q)) :=
  r0 <- get (os_recipes v) 0 ;;
  old_map_rows (os_recipes v) (os_prices v) (repeat None (length r0)).

(** An increase: (category_index, new_price); the description is omitted. *)
Notation increase := (nat * Q)%type.

(** old/SimultaneousAscendingPriceVector.py:109-112: the price-sums after the hypothetical increases. *)
Fixpoint old_new_sums (recipes : list (list nat)) (prices : list Q) (incs : list increase) : result (list Q) :=
  match recipes, incs with
  | r :: recipes', (c, p) :: incs' =>
      s <- price_sum_after_increase (mkPV r prices None) c p ;;
      rest <- old_new_sums recipes' prices incs' ;;
      Ok (s :: rest)
  | _, _ => Ok []
  end.

(** old/SimultaneousAscendingPriceVector.py:113 [min(0, min(new_sums))]. *)
Definition Qmin2 (a b : Q) : Q := if Qle_bool a b then a else b.
Definition old_min_sum (sums : list Q) : Q := fold_right Qmin2 0 sums.

(** The constant of line 114. *)
Definition snap_eps : Q := 1 # 100000000000.

(** old/SimultaneousAscendingPriceVector.py:114-115: the snapping to 0. *)
Definition old_snap (m : Q) : Q := if Qlt_bool (- snap_eps) m && Qlt_bool m snap_eps then 0 else m.

(** old/SimultaneousAscendingPriceVector.py:118-120: the vectors are increased one after the other, on the common list. *)
Fixpoint old_apply (recipes : list (list nat)) (prices : list Q) (incs : list increase) (bound : Q)
  : result (list Q * list (option price_status)) :=
  match recipes, incs with
  | r :: recipes', (c, p) :: incs' =>
      pv <- increase_price_up_to_balance (mkPV r prices None) c p bound ;;
      rest <- old_apply recipes' (pv_prices pv) incs' bound ;;
      Ok (fst rest, pv_status pv :: snd rest)
  | _, _ => Ok (prices, [])
  end.

(** old/SimultaneousAscendingPriceVector.py:90-122 [increase_prices].  The call of [map_category_index_to_price] that computes
    the argument of the log message of line 107 is kept, because it can raise. *)
Definition old_increase_prices (v : old_vectors) (incs : list increase) : result old_vectors :=
  if negb (length incs =? length (os_recipes v))%nat then Raise ValueError else
  _ <- old_map v ;;
  sums <- old_new_sums (os_recipes v) (os_prices v) incs ;;
  let m := old_snap (old_min_sum sums) in
  out <- old_apply (os_recipes v) (os_prices v) incs m ;;
  Ok (mkOS (os_recipes v) (fst out) (snd out)
           (Some (if Qeq_bool m 0 then STOPPED_AT_ZERO_SUM else STOPPED_AT_AGENT_VALUE))).

(** A history: several calls of [increase_prices], stopped by the first exception. *)
Fixpoint old_history (v : old_vectors) (calls : list (list increase)) : result old_vectors :=
  match calls with
  | [] => Ok v
  | incs :: calls' => v' <- old_increase_prices v incs ;; old_history v' calls'
  end.
