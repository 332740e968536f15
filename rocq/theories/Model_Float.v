(** * The ascending auction with IEEE-754 doubles

    The other models use exact rational numbers.  Python floats are IEEE-754 binary64 numbers, rounded to nearest-even after
    every operation; here they are the [spec_float] of the standard library (no axioms).  An int that meets a float is
    converted to the nearest double, which is exact for the ints below (all smaller than 2^53).
    [sum] adds from left to right (from Python 3.12 on it compensates; for two summands the result is the same). *)

From Coq Require Import String List Arith ZArith.
From Coq Require Import SpecFloat.
From Verif Require Import Base.
Import ListNotations.

Definition double : Type := spec_float.
Definition fadd : double -> double -> double := SFadd 53 1024.
Definition fsub : double -> double -> double := SFsub 53 1024.
Definition fmul : double -> double -> double := SFmul 53 1024.
Definition fdiv : double -> double -> double := SFdiv 53 1024.
Definition fle : double -> double -> bool := SFleb.
Definition flt : double -> double -> bool := SFltb.
(** An int as a double. *)
Definition fint (z : Z) : double := binary_normalize 53 1024 z 0 false.
(** The literal n/10^k, e.g. [lit 21 10] is 2.1: the quotient of two exact ints, correctly rounded. *)
Definition lit (n d : Z) : double := fdiv (fint n) (fint d).

(** agents.py:40-43 (the constructor sorts the values in decreasing order). *)
Fixpoint f_insert (x : double) (l : list double) : list double :=
  match l with
  | [] => [x]
  | y :: l' => if fle x y then y :: f_insert x l' else x :: l
  end.
Definition f_sort (l : list double) : list double := fold_left (fun acc x => f_insert x acc) l [].

(** prices.py:18-24 [dot]. *)
Fixpoint f_dot_from (acc : double) (xx : list double) (yy : list nat) : double :=
  match xx, yy with
  | x :: xx', y :: yy' => f_dot_from (fadd acc (fmul x (fint (Z.of_nat y)))) xx' yy'
  | _, _ => acc
  end.
Definition f_dot (xx : list double) (yy : list nat) : double := f_dot_from (fint 0) xx yy.

(** prices.py:52-53 [price_sum_without_category]. *)
Definition f_sum_without (recipe : list nat) (prices : list double) (i : nat) : result double :=
  r <- get recipe i ;;
  p <- get prices i ;;
  Ok (fsub (f_dot prices recipe) (fmul (fint (Z.of_nat r)) p)).

(** prices.py:67-119 [increase_price_up_to_balance] with bound 0: the new prices, and whether the price-sum crossed zero. *)
Definition f_increase (recipe : list nat) (prices : list double) (i : nat) (new_price : double) : result (bool * list double) :=
  r <- get recipe i ;;
  w <- f_sum_without recipe prices i ;;
  let new_sum := fadd w (fmul (fint (Z.of_nat r)) new_price) in
  if fle (fint 0) new_sum then
    if (r =? 0)%nat then Raise ZeroDivisionError
    else Ok (true, set_nth i (fdiv (fsub (fint 0) w) (fint (Z.of_nat r))) prices)
  else Ok (false, set_nth i new_price prices).

(** ascending_auction_protocol.py:112 [fractional_potential_ps]. *)
Definition f_potential (cats : list (list double)) (recipe : list nat) (i : nat) : double :=
  fdiv (fint (Z.of_nat (length (nth i cats [])))) (fint (Z.of_nat (nth i recipe 0%nat))).

(** [max(relevant_category_indices, key=fractional_potential_ps)]. *)
Fixpoint f_argmax_from (key : nat -> double) (best : nat) (l : list nat) : nat :=
  match l with
  | [] => best
  | x :: l' => if flt (key best) (key x) then f_argmax_from key x l' else f_argmax_from key best l'
  end.

(** ascending_auction_protocol.py:115-133: the loop.  A category is the list of its values. *)
Fixpoint f_loop (fuel : nat) (recipe : list nat) (cats : list (list double)) (prices : list double)
  : result (list (list double) * list double) :=
  match fuel with
  | O => Timeout
  | S fuel' =>
      match filter (fun i => Nat.ltb 0 (nth i recipe 0%nat)) (seq 0 (length recipe)) with
      | [] => Raise ValueError
      | x :: l =>
          let main := f_argmax_from (f_potential cats recipe) x l in
          c <- get cats main ;;
          match rev c with
          | [] => Ok (cats, prices)
          | low :: _ =>
              r <- f_increase recipe prices main low ;;
              if fst r then Ok (cats, snd r) else f_loop fuel' recipe (set_nth main (removelast c) cats) (snd r)
          end
      end
  end.

(** ascending_auction_protocol.py:24-136, with agents.py:14 [MAX_VALUE] = 100000000: the categories and prices of the trade. *)
Definition f_auction (cats : list (list double)) (recipe : list nat) : result (list (list double) * list double) :=
  if (length recipe =? length cats)%nat then
    f_loop (S (nsum (map (@length double) cats))) recipe (map f_sort cats) (repeat (fint (-100000000)) (length recipe))
  else Raise ValueError.

(** trade.py:101-111: the number of deals; each deal has [recipe] agents. *)
Fixpoint f_deals (cats : list (list double)) (recipe : list nat) : list nat :=
  match cats, recipe with
  | c :: cats', S r :: recipe' => (length c / S r)%nat :: f_deals cats' recipe'
  | _ :: cats', O :: recipe' => f_deals cats' recipe'
  | _, _ => []
  end.
