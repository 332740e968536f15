(** * McAfee's protocol with IEEE-754 doubles

    The same code as in Model_McAfee.v, with doubles instead of exact numbers; see Model_Float.v for the conventions.  The recipe of ones is
    implicit (the protocol accepts no other).  Values that are Python ints are covered as long as they are exact doubles (below 2^53). *)

From Coq Require Import List Arith ZArith.
From Coq Require Import SpecFloat.
From Verif Require Import Base Model_Float.
Import ListNotations.

(** agents.py:40-43, 60-64: the values are kept sorted in decreasing order. *)
Definition f_desc (l : list double) : list double := isort (fun x y => fle y x) l.

(** markets.py:77-85 [get_highest_agents] for a recipe of ones: the best agent of each category, or None. *)
Fixpoint f_heads (cats : list (list double)) : option (list double) :=
  match cats with
  | [] => Some []
  | [] :: _ => None
  | (x :: _) :: cats' => match f_heads cats' with None => None | Some ps => Some (x :: ps) end
  end.

(** markets.py:169 [sum(ps)]. *)
Definition f_gft (ps : list double) : double := fold_left fadd ps (fint 0).

(** markets.py:165-174: the loop of [optimal_trade]: the deals in the order in which they are found, and the remaining agents. *)
Fixpoint f_optimal_loop (iterations : nat) (cats : list (list double)) : list (list double) * list (list double) :=
  match iterations with
  | O => ([], cats)
  | S it =>
      match f_heads cats with
      | None => ([], cats)
      | Some ps =>
          if flt (f_gft ps) (fint 0) then ([], cats)
          else let r := f_optimal_loop it (map (@tl double) cats) in (ps :: fst r, snd r)
      end
  end.

(** markets.py:175 [trade.sort(key=lambda ps: sum(ps))]: a stable sort. *)
Definition f_by_gft (deals : list (list double)) : list (list double) := isort (fun a b => fle (f_gft a) (f_gft b)) deals.

(** mcafee_protocol.py:24-40 [is_price_good_for_ps]. *)
Definition f_good_price (price : double) (ps : list double) : bool :=
  forallb (fun x => negb ((fle (fint 0) x && flt x price) || (fle x (fint 0) && flt x (SFopp price)))) ps.

(** mcafee_protocol.py:141: [sum([abs(x) for x in ps]) / len(ps)]. *)
Definition f_candidate (ps : list double) : result double :=
  if (length ps =? 0)%nat then Raise ZeroDivisionError
  else Ok (fdiv (fold_left fadd (map SFabs ps) (fint 0)) (fint (Z.of_nat (length ps)))).

(** mcafee_protocol.py:159-161: append each value of the deal to its category. *)
Fixpoint f_add_ps (ps : list double) (traders : list (list double)) : list (list double) :=
  match ps, traders with
  | v :: ps', c :: traders' => f_desc (c ++ [v]) :: f_add_ps ps' traders'
  | _, _ => traders
  end.

(** mcafee_protocol.py:134-165 [mcafee_trade_reduction], after the checks of the recipe: the traders of each category and the prices. *)
Definition f_mcafee (iterations : nat) (cats : list (list double)) (heuristic : bool) : result (list (list double) * list double) :=
  let o := f_optimal_loop iterations (map f_desc cats) in
  let remaining := map (fun c => match c with [] => [fint (-100000000)] | _ => c end) (snd o) in
  cand <- (if heuristic then
             match f_heads remaining with
             | None => Raise TypeError
             | Some ps => c <- f_candidate ps ;; Ok (Some c)
             end
           else Ok None) ;;
  match f_by_gft (fst o) with
  | [] => Ok (map (fun _ => []) cats, map (fun _ => fint 0) cats)
  | last_positive :: others =>
      match cand with
      | Some c =>
          if f_good_price c last_positive
          then Ok (fold_left (fun t ps => f_add_ps ps t) (last_positive :: others) (map (fun _ => []) cats),
                   map (fun x => if flt x (fint 0) then fmul c (fint (-1)) else fmul c (fint 1)) last_positive)
          else Ok (fold_left (fun t ps => f_add_ps ps t) others (map (fun _ => []) cats), last_positive)
      | None => Ok (fold_left (fun t ps => f_add_ps ps t) others (map (fun _ => []) cats), last_positive)
      end
  end.
