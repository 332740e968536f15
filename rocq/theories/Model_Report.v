(** * Model of the texts of trades: the methods __repr__ and num_of_deals_explained

    [show] is Python's rendering of a number (repr/str of an int or a float); it is a parameter.  Characters are those of
    Coq's strings.  Ints are rendered in decimal notation. *)

From Coq Require Import String Ascii List Arith NArith ZArith QArith DecimalString.
From Verif Require Import Base Model_Agents Model_Trade Model_RecipeTree Model_TreeAuction Model_IntTree.
Import ListNotations.
Open Scope string_scope.

(** [str(n)] for a natural number. *)
Definition decimal (n : nat) : string := NilZero.string_of_uint (Nat.to_uint n).

(** The line break. *)
Definition nl : string := String (ascii_of_nat 10) "".

(** Python's [str.isspace] for characters below 128. *)
Definition is_space (c : ascii) : bool :=
  let n := nat_of_ascii c in (((9 <=? n) && (n <=? 13)) || ((28 <=? n) && (n <=? 32)))%nat.

(** [s.rstrip()]. *)
Fixpoint rstrip (s : string) : string :=
  match s with
  | EmptyString => EmptyString
  | String c s' => match rstrip s' with
                   | EmptyString => if is_space c then EmptyString else String c EmptyString
                   | s'' => String c s''
                   end
  end.

(** agents.py:51-52 [AgentCategory.__str__], with Python's rendering of a list. *)
Definition category_text (show : Q -> string) (c : category) : string :=
  cname c ++ ": [" ++ String.concat ", " (map show (cvalues c)) ++ "]".

(** trade.py:66-67 [TradeWithMaterialBalance.__repr__]: the sets are tuples; a tuple of one element has a comma. *)
Definition tuple_text (show : Q -> string) (ps : list Q) : string :=
  match ps with
  | [v] => "(" ++ show v ++ ",)"
  | _ => "(" ++ String.concat ", " (map show ps) ++ ")"
  end.
Definition material_text (show : Q -> string) (t : material_trade) : string :=
  decimal (mt_num_of_deals t) ++ " deals: [" ++ String.concat ", " (map (tuple_text show) t) ++ "]".

(** trade.py:139-149: the loop over the categories, from index [i] on. *)
Fixpoint repr_loop (show : Q -> string) (t : trade) (i : nat) (cats : list category) : result string :=
  match cats with
  | [] => Ok ""
  | c :: cats' =>
      r <- get (trecipe t) i ;;
      line <- (if (0 <? r)%nat then
                 p <- price_at t i ;;
                 let required := (r * tdeals t)%nat in
                 let existing := csize c in
                 Ok (if (existing =? required)%nat
                     then category_text show c ++ ": all " ++ decimal existing ++ " agents trade and pay " ++ show p ++ nl
                     else category_text show c ++ ": random " ++ decimal required ++ " out of " ++ decimal existing
                          ++ " agents trade and pay " ++ show p ++ nl)
               else Ok "") ;;
      rest <- repr_loop show t (S i) cats' ;;
      Ok (line ++ rest)
  end.

(** trade.py:135-150 [TradeWithSinglePrice.__repr__]. *)
Definition trade_text (show : Q -> string) (t : trade) : result string :=
  if (tdeals t =? 0)%nat then Ok "No trade"
  else s <- repr_loop show t 0 (tcats t) ;; Ok (rstrip s).

(** recipetree.py:442-482 [num_of_deals_explained]: (number of deals, text, kmin, kmax). *)
Fixpoint explained (show : Q -> string) (cats : list category) (prices : list Q) (overall : bool) (t : rtree)
  : result (nat * string * nat * nat) :=
  match t with
  | Node i ch =>
      let self := csize (cat_at cats i) in
      let name := cname (cat_at cats i) in
      p <- get prices i ;;
      r <- match ch with
           | [] => Ok (self, name ++ ": " ++ decimal self ++ " potential deals, price=" ++ show p ++ nl, self, self)
           | _ =>
               rs <- map_result (explained show cats prices false) ch ;;
               let total := nsum (map (fun r => fst (fst (fst r))) rs) in
               match min_list (map (fun r => snd (fst r)) rs), max_list (map snd rs) with
               | Some kmin, Some kmax =>
                   let names := String.concat " + " (map (fun c => cname (cat_at cats (tindex c))) ch) in
                   let d := Nat.min total self in
                   Ok (d,
                       String.concat "" (map (fun r => snd (fst (fst r))) rs)
                       ++ (if (d =? self)%nat
                           then name ++ ": all " ++ decimal self ++ " traders selected, price=" ++ show p ++ nl
                           else name ++ ": " ++ decimal d ++ " out of " ++ decimal self ++ " traders selected, price=" ++ show p ++ nl)
                       ++ (if (d =? total)%nat
                           then names ++ ": all " ++ decimal total ++ " traders selected" ++ nl
                           else names ++ ": " ++ decimal d ++ " out of " ++ decimal total ++ " traders selected" ++ nl),
                       kmin, kmax)
               | _, _ => Raise ValueError
               end
           end ;;
      let '(d, text, kmin, kmax) := r in
      Ok (d, text ++ (if overall then decimal d ++ " deals overall" ++ nl else ""), kmin, kmax)
  end.

(** ascending_auction_recipetree_protocol.py:67-70 [TradeWithMultipleRecipes.__repr__], on the data of the trade (the text
    is computed by the constructor from the same categories and prices). *)
Definition tree_trade_text (show : Q -> string) (t : tree_trade) : result string :=
  r <- explained show (tt_cats t) (tt_prices t) true (tt_tree t) ;;
  let '(d, text, _, _) := r in
  Ok (if (d =? 0)%nat then "No trade" else rstrip text).

(** recipetree_integer.py:649-689 [num_of_deals_explained]: (number of deals, text, kmin, kmax). *)
Fixpoint int_explained (show : Q -> string) (cats : list category) (counts : list nat) (prices : list Q) (overall : bool)
  (t : rtree) : result (nat * string * nat * nat) :=
  match t with
  | Node i ch =>
      let name := cname (cat_at cats i) in
      let size := csize (cat_at cats i) in
      self <- size_floor cats counts i ;;
      p <- get prices i ;;
      r <- match ch with
           | [] => Ok (self, name ++ ": " ++ decimal self ++ " potential deals, price=" ++ show p ++ nl, self, self)
           | _ =>
               rs <- map_result (int_explained show cats counts prices false) ch ;;
               let total := nsum (map (fun r => fst (fst (fst r))) rs) in
               match max_list (map snd rs) with
               | Some kmax =>
                   let kmin := match min_list (filter (fun k => 0 <? k)%nat (map (fun r => snd (fst r)) rs)) with
                               | Some k => k | None => 0%nat end in
                   let names := String.concat " + " (map (fun c => cname (cat_at cats (tindex c))) ch) in
                   let d := Nat.min total self in
                   Ok (d,
                       String.concat "" (map (fun r => snd (fst (fst r))) rs)
                       ++ (if (d =? self)%nat
                           then name ++ ": all " ++ decimal size ++ " traders selected, price=" ++ show p ++ nl
                           else name ++ ": " ++ decimal (d * count_at counts i) ++ " out of " ++ decimal size ++ " traders selected, price="
                                ++ show p ++ nl)
                       ++ (if (d =? total)%nat
                           then names ++ ": all " ++ decimal total ++ " deals selected" ++ nl
                           else names ++ ": " ++ decimal d ++ " out of " ++ decimal total ++ " deals selected" ++ nl),
                       kmin, kmax)
               | None => Raise ValueError
               end
           end ;;
      let '(d, text, kmin, kmax) := r in
      Ok (d, text ++ (if overall then decimal d ++ " deals overall" ++ nl else ""), kmin, kmax)
  end.

(** ascending_auction_recipetree_integer_protocol.py:69-72 [__repr__]. *)
Definition int_trade_text (show : Q -> string) (counts : list nat) (t : tree_trade) : result string :=
  r <- int_explained show (tt_cats t) counts (tt_prices t) true (tt_tree t) ;;
  let '(d, text, _, _) := r in
  Ok (if (d =? 0)%nat then "No trade" else rstrip text).
