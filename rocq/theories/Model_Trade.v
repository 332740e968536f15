(** * Model of trade.py *)

From Coq Require Import List Arith QArith.
From Verif Require Import Base Model_Agents.
Import ListNotations.
Open Scope Q_scope.

(** trade.py:42-68 [TradeWithMaterialBalance]: its only state is the list of
    procurement sets (each one a tuple of values). *)
Definition material_trade : Type := list (list Q).

(** trade.py:60-61 [num_of_deals]. *)
Definition mt_num_of_deals (t : material_trade) : nat := length t.

(** trade.py:63-64 [gain_from_trade]. *)
Definition mt_gain_from_trade (t : material_trade) : Q := Qsum (map Qsum t).

(** trade.py:101-108: a [TradeWithSinglePrice] object.  [tprices] is [None] when
    the caller passed Python's [None] as price vector (trade reduction can do that). *)
Record trade : Type := mkTrade {
  tcats : list category;
  trecipe : list nat;
  tprices : option (list Q);
  tdeals : nat  (* num_of_deals_cache *)
}.

(** Python's [min] of a list of ints; [None] stands for the ValueError on an empty list. *)
Fixpoint min_list (l : list nat) : option nat :=
  match l with
  | [] => None
  | x :: l' => match min_list l' with None => Some x | Some m => Some (Nat.min x m) end
  end.

(** trade.py:106-108: floor(size/count) for the zipped pairs with count > 0. *)
Definition potential_deals (cats : list category) (recipe : list nat) : list nat :=
  map (fun p => (csize (fst p) / snd p)%nat)
      (filter (fun p => Nat.ltb 0 (snd p)) (combine cats recipe)).

(** trade.py:101-108 [TradeWithSinglePrice.__init__]: [min] of an empty list raises ValueError. *)
Definition new_trade (cats : list category) (recipe : list nat) (prices : option (list Q))
  : result trade :=
  match min_list (potential_deals cats recipe) with
  | None => Raise ValueError
  | Some d => Ok (mkTrade cats recipe prices d)
  end.

(** trade.py:110-111 [num_of_deals]. *)
Definition num_of_deals (t : trade) : nat := tdeals t.

(** [self.prices[i]] where prices may be [None] (subscripting [None] is a TypeError). *)
Definition price_at (t : trade) (i : nat) : result Q :=
  match tprices t with None => Raise TypeError | Some ps => get ps i end.

(** trade.py:124-132, the body of the loop for category number [i]: the amount added to [gft].
    The two Python divisions/multiplications are exact rational ones here. *)
Definition gain_of_category (t : trade) (including_auctioneer : bool) (i : nat) (c : category)
  : result Q :=
  r <- get (trecipe t) i ;;
  let participating := (r * tdeals t)%nat in
  if (csize c =? 0)%nat then Raise ZeroDivisionError
  else
    p <- price_at t i ;;
    let g := Qsum (cvalues c) * (Qn participating / Qn (csize c)) in
    Ok (if including_auctioneer then g else g - p * Qn participating).

(** trade.py:124-133: the loop over the categories, starting at index [i]. *)
Fixpoint gain_loop (t : trade) (including_auctioneer : bool) (i : nat) (cats : list category)
  : result Q :=
  match cats with
  | [] => Ok 0
  | c :: cs =>
      g <- gain_of_category t including_auctioneer i c ;;
      rest <- gain_loop t including_auctioneer (S i) cs ;;
      Ok (g + rest)
  end.

(** trade.py:113-133 [gain_from_trade]. *)
Definition gain_from_trade (t : trade) (including_auctioneer : bool) : result Q :=
  if (tdeals t =? 0)%nat then Ok 0
  else gain_loop t including_auctioneer 0 (tcats t).
