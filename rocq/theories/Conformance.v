(** * The recorded tests of the repository, run on the model

    Not theorems about all inputs: these are the doctests and unit tests that the repository ships, with the results that its
    authors recorded, checked against the model.  They are evidence that the definitions in Model_*.v describe the code.  The
    name of an example is an abbreviation of the file and the line of the test.  The examples are translations of the
    docstrings made by a script, which only parsed the text of the repository.

    Not here: the market line printed at ascending_auction_recipetree_protocol.py:94, which is not what Market prints for
    that market (the text is out of date; the text of the trade is right and is checked); line 104 of the same file, which
    records no trade; the counters that combined_values_detailed_with_counters of recipetree_integer.py returns with the values
    of a leaf (its doctests record the values only; for trees with children they record values, but the code raises TypeError,
    C47: the examples whose names end with _raises); the texts of num_of_deals_explained in recipetree.old.py:53-125, which lack the
    lines "... deals overall" that line 408 adds (the texts are out of date); the initial prices of prices.py, which come from a linear program (C35).  The doctests of the multi-buyer protocol in old/ are in
    Props_Multibuyer.v (two of them are wrong), those of the old price vectors in Props_OldPrices.v. *)

From Coq Require Import String Ascii List Arith NArith ZArith QArith DecimalString.
From Verif Require Import Base Model_Agents Model_Market Model_Trade Model_Prices Model_Ascending Model_McAfee Model_TradeReduction
  Model_RecipeTree Model_TreeAuction Model_IntPrices Model_IntTree Model_IntAuction Model_OldTree Model_OldMulti Model_Report Spec_Path Spec_Report Props_Report.
Import ListNotations.
Open Scope string_scope.
Open Scope Q_scope.

Local Notation length := List.length.

(** A text with a line break after every line. *)
Definition lines (l : list string) : string := String.concat "" (map (fun x => x ++ nl) l).

(** Python's rendering of a float whose value is an integer. *)
Definition show_float (q : Q) : string := NilZero.string_of_int (Z.to_int (Qnum (Qred q))) ++ ".0".

Fixpoint eqb_list {A B} (e : A -> B -> bool) (l : list A) (l' : list B) : bool :=
  match l, l' with
  | [], [] => true
  | x :: m, y :: m' => e x y && eqb_list e m m'
  | _, _ => false
  end.

(** What [print(market)] shows. *)
Definition market_data (m : market) : list (string * list Q) := map (fun c => (cname c, map Qred (cvalues c))) m.

(** What [print(trade)] shows: for every category in the recipe its name, its values, how many trade, out of how many, and the
    price. *)
Definition line : Type := (string * list Q * nat * nat * Q)%type.
Definition trade_data (t : trade) : result (list line) :=
  if (num_of_deals t =? 0)%nat then Ok [] else
  ls <- map_result (fun i => c <- get (tcats t) i ;; r <- get (trecipe t) i ;;
                             if (r =? 0)%nat then Ok []
                             else p <- price_at t i ;; Ok [(cname c, cvalues c, (r * num_of_deals t)%nat, csize c, p)])
          (seq 0 (length (tcats t))) ;;
  Ok (concat ls).

(** Prices are recorded with 16 digits. *)
Definition close (a b : Q) : bool := Qle_bool (a - b) (1 # 1000000000000) && Qle_bool (b - a) (1 # 1000000000000).
Definition same_line (x y : line) : bool :=
  let '(n, v, k, s, p) := x in let '(n', v', k', s', p') := y in
  String.eqb n n' && eqb_list Qeq_bool v v' && (k =? k')%nat && (s =? s')%nat && close p p'.
Definition agrees (r : result trade) (expected : list line) : bool :=
  match (t <- r ;; trade_data t) with Ok ls => eqb_list same_line ls expected | _ => false end.

(** The helper of the unit tests: the number of deals, and the prices except where None is expected. *)
Definition prices_as (ps : list Q) (expected : list (option Q)) : bool :=
  eqb_list (fun p e => match e with None => true | Some x => Qeq_bool p x end) ps expected.
Definition deals_and_prices (r : result trade) (deals : nat) (expected : list (option Q)) : bool :=
  match r with
  | Ok t => (num_of_deals t =? deals)%nat && match tprices t with Some ps => prices_as ps expected | None => false end
  | _ => false
  end.
Definition tree_deals_and_prices (r : result tree_trade) (deals : nat) (expected : list (option Q)) : bool :=
  match r with Ok t => (tt_deals t =? deals)%nat && prices_as (tt_prices t) expected | _ => false end.

(** ** agents.py *)

Example agents_21 : cvalues (new_category "buyer" [1; 6; 3; 7; 4; 9]) = [9; 7; 6; 4; 3; 1].
Proof. vm_compute. reflexivity. Qed.
Example agents_24 : (a <- remove_highest_agent (new_category "buyer" [1; 6; 3; 7; 4; 9]) ;; Ok (cvalues a)) = Ok [7; 6; 4; 3; 1].
Proof. vm_compute. reflexivity. Qed.
Example agents_27 : (a <- remove_highest_agents (new_category "buyer" [1; 6; 3; 7; 4]) 2 ;; Ok (cvalues a)) = Ok [4; 3; 1].
Proof. vm_compute. reflexivity. Qed.
Example agents_30 : (a <- remove_lowest_agent (new_category "buyer" [1; 3; 4]) ;; Ok (cvalues a)) = Ok [4; 3].
Proof. vm_compute. reflexivity. Qed.
Example agents_33 : cvalues (append (new_category "buyer" [3; 4]) (7 # 2)) = [4; 7 # 2; 3].
Proof. vm_compute. reflexivity. Qed.
Example agents_36 : cvalues (append_list (append (new_category "buyer" [3; 4]) (7 # 2)) [16 # 5; 19 # 5]) = [4; 19 # 5; 7 # 2; 16 # 5; 3].
Proof. vm_compute. reflexivity. Qed.

(** ** markets.py *)

Definition market2 : market := [new_category "buyer" [9; 7; 11; 5]; new_category "seller" [-(4); -(6); -(8); -(2)]].
Definition market3 : market :=
  [new_category "buyer" [15; 12; 9; 6]; new_category "seller" [-(2); -(5); -(8); -(11)]; new_category "mediator" [-(1); -(4); -(7); -(10)]].
Example markets_23 : market_data market2 = [("buyer", [11; 9; 7; 5]); ("seller", [-(2); -(4); -(6); -(8)])].
Proof. vm_compute. reflexivity. Qed.
Example markets_68 : get_highest_agents market2 [1; 1]%nat = Ok (Some [11; -(2)]).
Proof. vm_compute. reflexivity. Qed.
Example markets_70 : get_highest_agents market2 [2; 1]%nat = Ok (Some [11; 9; -(2)]).
Proof. vm_compute. reflexivity. Qed.
Example markets_72 : get_highest_agents market2 [1; 2]%nat = Ok (Some [11; -(2); -(4)]).
Proof. vm_compute. reflexivity. Qed.
Example markets_74 : get_highest_agents market2 [5; 1]%nat = Ok None.
Proof. vm_compute. reflexivity. Qed.
Example markets_75 : get_highest_agents market2 [1; 5]%nat = Ok None.
Proof. vm_compute. reflexivity. Qed.
Definition optimal_data (m : market) (recipe : list nat) : result (material_trade * list (string * list Q)) :=
  r <- optimal_trade default_max_iterations m recipe true ;; Ok (fst r, market_data (snd r)).
Example markets_131 : optimal_data market2 [1; 1]%nat = Ok ([[7; -(6)]; [9; -(4)]; [11; -(2)]], [("buyer", [5]); ("seller", [-(8)])]).
Proof. vm_compute. reflexivity. Qed.
Example markets_137 : optimal_data market2 [1; 2]%nat = Ok ([[11; -(2); -(4)]], [("buyer", [9; 7; 5]); ("seller", [-(6); -(8)])]).
Proof. vm_compute. reflexivity. Qed.
Example markets_143 : optimal_data market2 [2; 1]%nat = Ok ([[7; 5; -(4)]; [11; 9; -(2)]], [("buyer", []); ("seller", [-(6); -(8)])]).
Proof. vm_compute. reflexivity. Qed.
Example markets_150 : optimal_data market3 [1; 1; 1]%nat
  = Ok ([[12; -(5); -(4)]; [15; -(2); -(1)]], [("buyer", [9; 6]); ("seller", [-(8); -(11)]); ("mediator", [-(7); -(10)])]).
Proof. vm_compute. reflexivity. Qed.
Definition market4 : market := [new_category "buyer" [7; 5]; new_category "seller" [-(8); -(10)]].
Example markets_189 : best_containing_PS market4 0 9 = Ok [9; -(8)].
Proof. vm_compute. reflexivity. Qed.
Example markets_191 : best_containing_PS market4 1 (-(6)) = Ok [7; -(6)].
Proof. vm_compute. reflexivity. Qed.

(** ** trade.py (the texts are in Props_Report.v) *)

Definition trade1 : result trade := new_trade [new_category "buyer" [7; 4; 2]; new_category "seller" [-(1); -(3); -(5)]] [1; 1]%nat (Some [2; -(1)]).
Definition trade2 : result trade := new_trade [new_category "buyer" [7; 4; 3; 2]; new_category "seller" [-(1); -(3); -(5)]] [1; 1]%nat (Some [1; -(1)]).
Example trade_52 : mt_num_of_deals [[7; -(1)]; [6; -(3)]; [5; -(4)]] = 3%nat.
Proof. vm_compute. reflexivity. Qed.
Example trade_54 : mt_gain_from_trade [[7; -(1)]; [6; -(3)]; [5; -(4)]] = 10.
Proof. vm_compute. reflexivity. Qed.
Example trade_84 : (t <- trade1 ;; Ok (num_of_deals t)) = Ok 3%nat.
Proof. vm_compute. reflexivity. Qed.
Example trade_86 : (t <- trade1 ;; g <- gain_from_trade t true ;; Ok (Qred g)) = Ok 4.
Proof. vm_compute. reflexivity. Qed.
Example trade_88 : (t <- trade1 ;; g <- gain_from_trade t false ;; Ok (Qred g)) = Ok 1.
Proof. vm_compute. reflexivity. Qed.
Example trade_94 : (t <- trade2 ;; g <- gain_from_trade t true ;; Ok (Qred g)) = Ok 3.
Proof. vm_compute. reflexivity. Qed.
Example trade_96 : (t <- trade2 ;; g <- gain_from_trade t false ;; Ok (Qred g)) = Ok 3.
Proof. vm_compute. reflexivity. Qed.

(** ** ascending_auction_protocol.py *)

Example asc_36_market : market_data [(new_category "buyer" [9; 8]); (new_category "seller" [(-4)])] = [("buyer", [9; 8]); ("seller", [(-4)])].
Proof. vm_compute. reflexivity. Qed.
Example asc_36 : agrees (ascending_auction [(new_category "buyer" [9; 8]); (new_category "seller" [(-4)])] [1; 1]%nat) [] = true.
Proof. vm_compute. reflexivity. Qed.
Example asc_41_market : market_data [(new_category "seller" [(-4)]); (new_category "buyer" [9; 8])] = [("seller", [(-4)]); ("buyer", [9; 8])].
Proof. vm_compute. reflexivity. Qed.
Example asc_41 : agrees (ascending_auction [(new_category "seller" [(-4)]); (new_category "buyer" [9; 8])] [1; 1]%nat) [("seller", [(-4)], 1%nat, 1%nat, (-8)); ("buyer", [9], 1%nat, 1%nat, 8)] = true.
Proof. vm_compute. reflexivity. Qed.
Example asc_47_market : market_data [(new_category "buyer" [9; 8]); (new_category "seller" [(-4); (-3)])] = [("buyer", [9; 8]); ("seller", [(-3); (-4)])].
Proof. vm_compute. reflexivity. Qed.
Example asc_47 : agrees (ascending_auction [(new_category "buyer" [9; 8]); (new_category "seller" [(-4); (-3)])] [1; 1]%nat) [("buyer", [9], 1%nat, 1%nat, 8); ("seller", [(-3); (-4)], 1%nat, 2%nat, (-8))] = true.
Proof. vm_compute. reflexivity. Qed.
Example asc_55_market : market_data [(new_category "seller" [(-4); (-3)]); (new_category "buyer" [9; 8]); (new_category "mediator" [(-1); (-2)])] = [("seller", [(-3); (-4)]); ("buyer", [9; 8]); ("mediator", [(-1); (-2)])].
Proof. vm_compute. reflexivity. Qed.
Example asc_55 : agrees (ascending_auction [(new_category "seller" [(-4); (-3)]); (new_category "buyer" [9; 8]); (new_category "mediator" [(-1); (-2)])] [1; 1; 1]%nat) [("seller", [(-3)], 1%nat, 1%nat, (-4)); ("buyer", [9], 1%nat, 1%nat, 8); ("mediator", [(-1); (-2)], 1%nat, 2%nat, (-4))] = true.
Proof. vm_compute. reflexivity. Qed.
Example asc_62_market : market_data [(new_category "buyer" [9; 8; 7]); (new_category "mediator" [(-1); (-2); (-3)]); (new_category "seller" [(-4); (-3); (-2)])] = [("buyer", [9; 8; 7]); ("mediator", [(-1); (-2); (-3)]); ("seller", [(-2); (-3); (-4)])].
Proof. vm_compute. reflexivity. Qed.
Example asc_62 : agrees (ascending_auction [(new_category "buyer" [9; 8; 7]); (new_category "mediator" [(-1); (-2); (-3)]); (new_category "seller" [(-4); (-3); (-2)])] [1; 1; 1]%nat) [("buyer", [9; 8], 2%nat, 2%nat, 7); ("mediator", [(-1); (-2)], 2%nat, 2%nat, (-3)); ("seller", [(-2); (-3); (-4)], 2%nat, 3%nat, (-4))] = true.
Proof. vm_compute. reflexivity. Qed.
Example asc_72_market : market_data [(new_category "buyer" [9; 8; 7; 6]); (new_category "seller" [(-6); (-5); (-4); (-3); (-2); (-1)])] = [("buyer", [9; 8; 7; 6]); ("seller", [(-1); (-2); (-3); (-4); (-5); (-6)])].
Proof. vm_compute. reflexivity. Qed.
Example asc_72 : agrees (ascending_auction [(new_category "buyer" [9; 8; 7; 6]); (new_category "seller" [(-6); (-5); (-4); (-3); (-2); (-1)])] [1; 2]%nat) [("buyer", [9], 1%nat, 1%nat, 8); ("seller", [(-1); (-2); (-3); (-4)], 2%nat, 4%nat, (-4))] = true.
Proof. vm_compute. reflexivity. Qed.
Example asc_78_market : market_data [(new_category "seller" [(-4); (-3); (-2); (-1)]); (new_category "buyer" [9; 8])] = [("seller", [(-1); (-2); (-3); (-4)]); ("buyer", [9; 8])].
Proof. vm_compute. reflexivity. Qed.
Example asc_78 : agrees (ascending_auction [(new_category "seller" [(-4); (-3); (-2); (-1)]); (new_category "buyer" [9; 8])] [2; 1]%nat) [("seller", [(-1); (-2); (-3)], 2%nat, 3%nat, (-4)); ("buyer", [9; 8], 1%nat, 2%nat, 8)] = true.
Proof. vm_compute. reflexivity. Qed.
Example asc_87_market : market_data [(new_category "seller" [(-4)]); (new_category "buyer" [9; 8]); (new_category "mediator" [(-5); (-7)])] = [("seller", [(-4)]); ("buyer", [9; 8]); ("mediator", [(-5); (-7)])].
Proof. vm_compute. reflexivity. Qed.
Example asc_87 : agrees (ascending_auction [(new_category "seller" [(-4)]); (new_category "buyer" [9; 8]); (new_category "mediator" [(-5); (-7)])] [1; 1; 0]%nat) [("seller", [(-4)], 1%nat, 1%nat, (-8)); ("buyer", [9], 1%nat, 1%nat, 8)] = true.
Proof. vm_compute. reflexivity. Qed.

(** ** mcafee_protocol.py *)

Example mcafee_28 : (Ok (is_price_good_for_ps 5 [9; (-3)])) = Ok true.
Proof. vm_compute. reflexivity. Qed.
Example mcafee_30 : (Ok (is_price_good_for_ps 5 [9; (-7)])) = Ok false.
Proof. vm_compute. reflexivity. Qed.
Example mcafee_32 : (Ok (is_price_good_for_ps 5 [4; (-3)])) = Ok false.
Proof. vm_compute. reflexivity. Qed.
Example mcafee_57_market : market_data [(new_category "buyer" [9]); (new_category "seller" [(-4)])] = [("buyer", [9]); ("seller", [(-4)])].
Proof. vm_compute. reflexivity. Qed.
Example mcafee_57 : agrees (mcafee [(new_category "buyer" [9]); (new_category "seller" [(-4)])] [1; 1]%nat true) [] = true.
Proof. vm_compute. reflexivity. Qed.
Example mcafee_62_market : market_data [(new_category "buyer" [9; 8]); (new_category "seller" [(-4)])] = [("buyer", [9; 8]); ("seller", [(-4)])].
Proof. vm_compute. reflexivity. Qed.
Example mcafee_62 : agrees (mcafee [(new_category "buyer" [9; 8]); (new_category "seller" [(-4)])] [1; 1]%nat true) [] = true.
Proof. vm_compute. reflexivity. Qed.
Example mcafee_67_market : market_data [(new_category "seller" [(-4)]); (new_category "buyer" [9; 8])] = [("seller", [(-4)]); ("buyer", [9; 8])].
Proof. vm_compute. reflexivity. Qed.
Example mcafee_67 : agrees (mcafee [(new_category "seller" [(-4)]); (new_category "buyer" [9; 8])] [1; 1]%nat true) [] = true.
Proof. vm_compute. reflexivity. Qed.
Example mcafee_72_market : market_data [(new_category "seller" [(-4); (-3)]); (new_category "buyer" [9])] = [("seller", [(-3); (-4)]); ("buyer", [9])].
Proof. vm_compute. reflexivity. Qed.
Example mcafee_72 : agrees (mcafee [(new_category "seller" [(-4); (-3)]); (new_category "buyer" [9])] [1; 1]%nat true) [] = true.
Proof. vm_compute. reflexivity. Qed.
Example mcafee_77_market : market_data [(new_category "buyer" [9]); (new_category "seller" [(-4); (-3)])] = [("buyer", [9]); ("seller", [(-3); (-4)])].
Proof. vm_compute. reflexivity. Qed.
Example mcafee_77 : agrees (mcafee [(new_category "buyer" [9]); (new_category "seller" [(-4); (-3)])] [1; 1]%nat true) [] = true.
Proof. vm_compute. reflexivity. Qed.
Example mcafee_82_market : market_data [(new_category "buyer" [9; 8]); (new_category "seller" [(-4); (-3)])] = [("buyer", [9; 8]); ("seller", [(-3); (-4)])].
Proof. vm_compute. reflexivity. Qed.
Example mcafee_82 : agrees (mcafee [(new_category "buyer" [9; 8]); (new_category "seller" [(-4); (-3)])] [1; 1]%nat true) [("buyer", [9], 1%nat, 1%nat, 8); ("seller", [(-3)], 1%nat, 1%nat, (-4))] = true.
Proof. vm_compute. reflexivity. Qed.
Example mcafee_88 : agrees (mcafee [(new_category "seller" [(-4); (-3)]); (new_category "buyer" [9; 8])] [1; 1]%nat true) [("seller", [(-3)], 1%nat, 1%nat, (-4)); ("buyer", [9], 1%nat, 1%nat, 8)] = true.
Proof. vm_compute. reflexivity. Qed.
Example mcafee_93 : agrees (mcafee [(new_category "seller" [(-8); (-3)]); (new_category "buyer" [9; 4])] [1; 1]%nat true) [("seller", [(-3)], 1%nat, 1%nat, (-6)); ("buyer", [9], 1%nat, 1%nat, 6)] = true.
Proof. vm_compute. reflexivity. Qed.

(** ** trade_reduction_protocol.py *)

Example tr_44_market : market_data [(new_category "seller" [(-1); (-2); (-3); (-4); (-5); (-7); (-8); (-10); (-11)]); (new_category "buyer" [17; 14; 13; 9; 6])] = [("seller", [(-1); (-2); (-3); (-4); (-5); (-7); (-8); (-10); (-11)]); ("buyer", [17; 14; 13; 9; 6])].
Proof. vm_compute. reflexivity. Qed.
Example tr_44 : agrees (trade_reduction [(new_category "seller" [(-1); (-2); (-3); (-4); (-5); (-7); (-8); (-10); (-11)]); (new_category "buyer" [17; 14; 13; 9; 6])] [2; 1]%nat true) [("seller", [(-1); (-2); (-3); (-4)], 4%nat, 4%nat, (-5)); ("buyer", [17; 14; 13], 2%nat, 3%nat, 10)] = true.
Proof. vm_compute. reflexivity. Qed.
Example tr_50_market : market_data [(new_category "mediator" [(-3); (-4); (-5); (-6); (-7); (-8); (-9); (-10)]); (new_category "seller" [(-1); (-2); (-3); (-4); (-5); (-6); (-7); (-8)]); (new_category "buyer" [17; 16; 15; 14; 13; 12; 10; 6])] = [("mediator", [(-3); (-4); (-5); (-6); (-7); (-8); (-9); (-10)]); ("seller", [(-1); (-2); (-3); (-4); (-5); (-6); (-7); (-8)]); ("buyer", [17; 16; 15; 14; 13; 12; 10; 6])].
Proof. vm_compute. reflexivity. Qed.
Example tr_50 : agrees (trade_reduction [(new_category "mediator" [(-3); (-4); (-5); (-6); (-7); (-8); (-9); (-10)]); (new_category "seller" [(-1); (-2); (-3); (-4); (-5); (-6); (-7); (-8)]); (new_category "buyer" [17; 16; 15; 14; 13; 12; 10; 6])] [2; 3; 2]%nat true) [("mediator", [(-3); (-4)], 2%nat, 2%nat, (-5)); ("seller", [(-1); (-2); (-3); (-4); (-5)], 3%nat, 5%nat, (-5333333333333333 # 1000000000000000)); ("buyer", [17; 16; 15; 14], 2%nat, 4%nat, 13)] = true.
Proof. vm_compute. reflexivity. Qed.
Example tr_58_market : market_data [(new_category "seller" [(-2); (-4); (-6); (-8); (-10); (-12); (-14)]); (new_category "buyer" [20; 18; 16; 9; 2; 1])] = [("seller", [(-2); (-4); (-6); (-8); (-10); (-12); (-14)]); ("buyer", [20; 18; 16; 9; 2; 1])].
Proof. vm_compute. reflexivity. Qed.
Example tr_58 : agrees (trade_reduction [(new_category "seller" [(-2); (-4); (-6); (-8); (-10); (-12); (-14)]); (new_category "buyer" [20; 18; 16; 9; 2; 1])] [2; 3]%nat true) [("seller", [(-2); (-4)], 2%nat, 2%nat, (-6)); ("buyer", [20; 18; 16; 9], 3%nat, 4%nat, 4)] = true.
Proof. vm_compute. reflexivity. Qed.
Example tr_65_market : market_data [(new_category "buyer" [17; 14; 13; 9; 6]); (new_category "seller" [(-1); (-2); (-3); (-4); (-5); (-7); (-8); (-10); (-11)])] = [("buyer", [17; 14; 13; 9; 6]); ("seller", [(-1); (-2); (-3); (-4); (-5); (-7); (-8); (-10); (-11)])].
Proof. vm_compute. reflexivity. Qed.
Example tr_65 : agrees (trade_reduction [(new_category "buyer" [17; 14; 13; 9; 6]); (new_category "seller" [(-1); (-2); (-3); (-4); (-5); (-7); (-8); (-10); (-11)])] [1; 2]%nat true) [("buyer", [17; 14], 2%nat, 2%nat, 13); ("seller", [(-1); (-2); (-3); (-4); (-5)], 4%nat, 5%nat, (-13 # 2))] = true.
Proof. vm_compute. reflexivity. Qed.
Example tr_71_market : market_data [(new_category "buyer" [17; 16; 15; 14; 13; 12; 10; 6]); (new_category "mediator" [(-3); (-4); (-5); (-6); (-7); (-8); (-9); (-10)]); (new_category "seller" [(-1); (-2); (-3); (-4); (-5); (-6); (-7); (-8)])] = [("buyer", [17; 16; 15; 14; 13; 12; 10; 6]); ("mediator", [(-3); (-4); (-5); (-6); (-7); (-8); (-9); (-10)]); ("seller", [(-1); (-2); (-3); (-4); (-5); (-6); (-7); (-8)])].
Proof. vm_compute. reflexivity. Qed.
Example tr_71 : agrees (trade_reduction [(new_category "buyer" [17; 16; 15; 14; 13; 12; 10; 6]); (new_category "mediator" [(-3); (-4); (-5); (-6); (-7); (-8); (-9); (-10)]); (new_category "seller" [(-1); (-2); (-3); (-4); (-5); (-6); (-7); (-8)])] [2; 2; 3]%nat true) [("buyer", [17; 16], 2%nat, 2%nat, 15); ("mediator", [(-3); (-4)], 2%nat, 2%nat, (-5)); ("seller", [(-1); (-2); (-3); (-4); (-5); (-6)], 3%nat, 6%nat, (-6666666666666667 # 1000000000000000))] = true.
Proof. vm_compute. reflexivity. Qed.
Example tr_78_market : market_data [(new_category "buyer" [20; 18; 16; 9; 2; 1]); (new_category "seller" [(-2); (-4); (-6); (-8); (-10); (-12); (-14)])] = [("buyer", [20; 18; 16; 9; 2; 1]); ("seller", [(-2); (-4); (-6); (-8); (-10); (-12); (-14)])].
Proof. vm_compute. reflexivity. Qed.
Example tr_78 : agrees (trade_reduction [(new_category "buyer" [20; 18; 16; 9; 2; 1]); (new_category "seller" [(-2); (-4); (-6); (-8); (-10); (-12); (-14)])] [3; 2]%nat true) [("buyer", [20; 18; 16; 9], 3%nat, 4%nat, (6666666666666667 # 1000000000000000)); ("seller", [(-2); (-4); (-6); (-8)], 2%nat, 4%nat, (-10))] = true.
Proof. vm_compute. reflexivity. Qed.
Example tr_85_market : market_data [(new_category "seller" [(-1); (-2); (-2); (-3)]); (new_category "buyer" [2; 2; 2; 3])] = [("seller", [(-1); (-2); (-2); (-3)]); ("buyer", [3; 2; 2; 2])].
Proof. vm_compute. reflexivity. Qed.
Example tr_85 : agrees (trade_reduction [(new_category "seller" [(-1); (-2); (-2); (-3)]); (new_category "buyer" [2; 2; 2; 3])] [1; 1]%nat true) [("seller", [(-1); (-2); (-2)], 3%nat, 3%nat, (-2)); ("buyer", [3; 2; 2], 3%nat, 3%nat, 2)] = true.
Proof. vm_compute. reflexivity. Qed.
Example tr_92_market : market_data [(new_category "buyer" [2; 2; 2; 3]); (new_category "seller" [(-1); (-2); (-2); (-3)])] = [("buyer", [3; 2; 2; 2]); ("seller", [(-1); (-2); (-2); (-3)])].
Proof. vm_compute. reflexivity. Qed.
Example tr_92 : agrees (trade_reduction [(new_category "buyer" [2; 2; 2; 3]); (new_category "seller" [(-1); (-2); (-2); (-3)])] [1; 1]%nat true) [("buyer", [3; 2], 2%nat, 2%nat, 2); ("seller", [(-1); (-2); (-2)], 2%nat, 3%nat, (-2))] = true.
Proof. vm_compute. reflexivity. Qed.
Example tr_98_market : market_data [(new_category "buyer" [17; 16; 15; 14; 13; 12; 10; 6]); (new_category "mediator" [(-3); (-4); (-5); (-6); (-7); (-8); (-9); (-10)]); (new_category "seller" [(-1); (-2); (-3); (-4); (-5); (-6); (-7); (-8)])] = [("buyer", [17; 16; 15; 14; 13; 12; 10; 6]); ("mediator", [(-3); (-4); (-5); (-6); (-7); (-8); (-9); (-10)]); ("seller", [(-1); (-2); (-3); (-4); (-5); (-6); (-7); (-8)])].
Proof. vm_compute. reflexivity. Qed.
Example tr_98 : agrees (trade_reduction [(new_category "buyer" [17; 16; 15; 14; 13; 12; 10; 6]); (new_category "mediator" [(-3); (-4); (-5); (-6); (-7); (-8); (-9); (-10)]); (new_category "seller" [(-1); (-2); (-3); (-4); (-5); (-6); (-7); (-8)])] [2; 2; 3]%nat true) [("buyer", [17; 16], 2%nat, 2%nat, 15); ("mediator", [(-3); (-4)], 2%nat, 2%nat, (-5)); ("seller", [(-1); (-2); (-3); (-4); (-5); (-6)], 3%nat, 6%nat, (-6666666666666667 # 1000000000000000))] = true.
Proof. vm_compute. reflexivity. Qed.
Example tr_106_market : market_data [(new_category "buyer" [9]); (new_category "seller" [(-4)])] = [("buyer", [9]); ("seller", [(-4)])].
Proof. vm_compute. reflexivity. Qed.
Example tr_106 : agrees (trade_reduction [(new_category "buyer" [9]); (new_category "seller" [(-4)])] [1; 1]%nat true) [] = true.
Proof. vm_compute. reflexivity. Qed.
Example tr_111_market : market_data [(new_category "buyer" [9; 8]); (new_category "seller" [(-4)])] = [("buyer", [9; 8]); ("seller", [(-4)])].
Proof. vm_compute. reflexivity. Qed.
Example tr_111 : agrees (trade_reduction [(new_category "buyer" [9; 8]); (new_category "seller" [(-4)])] [1; 1]%nat true) [] = true.
Proof. vm_compute. reflexivity. Qed.
Example tr_116_market : market_data [(new_category "seller" [(-4)]); (new_category "buyer" [9; 8])] = [("seller", [(-4)]); ("buyer", [9; 8])].
Proof. vm_compute. reflexivity. Qed.
Example tr_116 : agrees (trade_reduction [(new_category "seller" [(-4)]); (new_category "buyer" [9; 8])] [1; 1]%nat true) [("seller", [(-4)], 1%nat, 1%nat, (-8)); ("buyer", [9], 1%nat, 1%nat, 8)] = true.
Proof. vm_compute. reflexivity. Qed.
Example tr_122_market : market_data [(new_category "seller" [(-4); (-3)]); (new_category "buyer" [9])] = [("seller", [(-3); (-4)]); ("buyer", [9])].
Proof. vm_compute. reflexivity. Qed.
Example tr_122 : agrees (trade_reduction [(new_category "seller" [(-4); (-3)]); (new_category "buyer" [9])] [1; 1]%nat true) [] = true.
Proof. vm_compute. reflexivity. Qed.
Example tr_127_market : market_data [(new_category "buyer" [9]); (new_category "seller" [(-4); (-3)])] = [("buyer", [9]); ("seller", [(-3); (-4)])].
Proof. vm_compute. reflexivity. Qed.
Example tr_127 : agrees (trade_reduction [(new_category "buyer" [9]); (new_category "seller" [(-4); (-3)])] [1; 1]%nat true) [("buyer", [9], 1%nat, 1%nat, 4); ("seller", [(-3)], 1%nat, 1%nat, (-4))] = true.
Proof. vm_compute. reflexivity. Qed.
Example tr_133_market : market_data [(new_category "buyer" [9; 8]); (new_category "seller" [(-4); (-3)])] = [("buyer", [9; 8]); ("seller", [(-3); (-4)])].
Proof. vm_compute. reflexivity. Qed.
Example tr_133 : agrees (trade_reduction [(new_category "buyer" [9; 8]); (new_category "seller" [(-4); (-3)])] [1; 1]%nat true) [("buyer", [9], 1%nat, 1%nat, 8); ("seller", [(-3); (-4)], 1%nat, 2%nat, (-8))] = true.
Proof. vm_compute. reflexivity. Qed.
Example tr_139 : agrees (trade_reduction [(new_category "seller" [(-4); (-3)]); (new_category "buyer" [9; 8])] [1; 1]%nat true) [("seller", [(-3)], 1%nat, 1%nat, (-4)); ("buyer", [9; 8], 1%nat, 2%nat, 4)] = true.
Proof. vm_compute. reflexivity. Qed.
Example tr_145_market : market_data [(new_category "buyer1" [4; 3]); (new_category "buyer2" [9; 8])] = [("buyer1", [4; 3]); ("buyer2", [9; 8])].
Proof. vm_compute. reflexivity. Qed.
Example tr_145 : agrees (trade_reduction [(new_category "buyer1" [4; 3]); (new_category "buyer2" [9; 8])] [1; 1]%nat true) [("buyer1", [4], 1%nat, 1%nat, 3); ("buyer2", [9; 8], 1%nat, 2%nat, (-3))] = true.
Proof. vm_compute. reflexivity. Qed.
Example tr_152_market : market_data [(new_category "seller1" [(-4); (-3)]); (new_category "seller2" [(-9); (-8)])] = [("seller1", [(-3); (-4)]); ("seller2", [(-8); (-9)])].
Proof. vm_compute. reflexivity. Qed.
Example tr_152 : agrees (trade_reduction [(new_category "seller1" [(-4); (-3)]); (new_category "seller2" [(-9); (-8)])] [1; 1]%nat true) [] = true.
Proof. vm_compute. reflexivity. Qed.
Example tr_159_market : market_data [(new_category "seller" [(-4); (-3)]); (new_category "buyer" [9; 8]); (new_category "mediator" [(-1); (-2)])] = [("seller", [(-3); (-4)]); ("buyer", [9; 8]); ("mediator", [(-1); (-2)])].
Proof. vm_compute. reflexivity. Qed.
Example tr_159 : agrees (trade_reduction [(new_category "seller" [(-4); (-3)]); (new_category "buyer" [9; 8]); (new_category "mediator" [(-1); (-2)])] [1; 1; 1]%nat true) [("seller", [(-3)], 1%nat, 1%nat, (-4)); ("buyer", [9], 1%nat, 1%nat, 8); ("mediator", [(-1); (-2)], 1%nat, 2%nat, (-4))] = true.
Proof. vm_compute. reflexivity. Qed.
Example tr_166_market : market_data [(new_category "buyer" [9; 8]); (new_category "mediator" [(-1); (-2)]); (new_category "seller" [(-4); (-3); (-10)])] = [("buyer", [9; 8]); ("mediator", [(-1); (-2)]); ("seller", [(-3); (-4); (-10)])].
Proof. vm_compute. reflexivity. Qed.
Example tr_166 : agrees (trade_reduction [(new_category "buyer" [9; 8]); (new_category "mediator" [(-1); (-2)]); (new_category "seller" [(-4); (-3); (-10)])] [1; 1; 1]%nat true) [("buyer", [9], 1%nat, 1%nat, 8); ("mediator", [(-1)], 1%nat, 1%nat, (-2)); ("seller", [(-3); (-4)], 1%nat, 2%nat, (-6))] = true.
Proof. vm_compute. reflexivity. Qed.
Example tr_173_market : market_data [(new_category "buyer" [9; 8]); (new_category "mediator" [(-1); (-2)]); (new_category "seller" [(-4); (-3); (-5)])] = [("buyer", [9; 8]); ("mediator", [(-1); (-2)]); ("seller", [(-3); (-4); (-5)])].
Proof. vm_compute. reflexivity. Qed.
Example tr_173 : agrees (trade_reduction [(new_category "buyer" [9; 8]); (new_category "mediator" [(-1); (-2)]); (new_category "seller" [(-4); (-3); (-5)])] [1; 1; 1]%nat true) [("buyer", [9], 1%nat, 1%nat, 8); ("mediator", [(-1); (-2)], 1%nat, 2%nat, (-3)); ("seller", [(-3); (-4)], 1%nat, 2%nat, (-5))] = true.
Proof. vm_compute. reflexivity. Qed.
Example tr_180_market : market_data [(new_category "buyer" [9; 8]); (new_category "mediator" [(-1); (-2)]); (new_category "seller" [(-4); (-3); (-2)])] = [("buyer", [9; 8]); ("mediator", [(-1); (-2)]); ("seller", [(-2); (-3); (-4)])].
Proof. vm_compute. reflexivity. Qed.
Example tr_180 : agrees (trade_reduction [(new_category "buyer" [9; 8]); (new_category "mediator" [(-1); (-2)]); (new_category "seller" [(-4); (-3); (-2)])] [1; 1; 1]%nat true) [("buyer", [9], 1%nat, 1%nat, 8); ("mediator", [(-1); (-2)], 1%nat, 2%nat, (-4)); ("seller", [(-2); (-3)], 1%nat, 2%nat, (-4))] = true.
Proof. vm_compute. reflexivity. Qed.
Example tr_187_market : market_data [(new_category "buyer" [9; 8; 7]); (new_category "mediator" [(-1); (-2); (-3)]); (new_category "seller" [(-4); (-3); (-2)])] = [("buyer", [9; 8; 7]); ("mediator", [(-1); (-2); (-3)]); ("seller", [(-2); (-3); (-4)])].
Proof. vm_compute. reflexivity. Qed.
Example tr_187 : agrees (trade_reduction [(new_category "buyer" [9; 8; 7]); (new_category "mediator" [(-1); (-2); (-3)]); (new_category "seller" [(-4); (-3); (-2)])] [1; 1; 1]%nat true) [("buyer", [9; 8], 2%nat, 2%nat, 7); ("mediator", [(-1); (-2)], 2%nat, 2%nat, (-3)); ("seller", [(-2); (-3); (-4)], 2%nat, 3%nat, (-4))] = true.
Proof. vm_compute. reflexivity. Qed.
Example tr_194_market : market_data [(new_category "buyer" [9; 8; 4]); (new_category "mediator" [(-1); (-2); (-3)]); (new_category "seller" [(-4); (-3); (-2)])] = [("buyer", [9; 8; 4]); ("mediator", [(-1); (-2); (-3)]); ("seller", [(-2); (-3); (-4)])].
Proof. vm_compute. reflexivity. Qed.
Example tr_194 : agrees (trade_reduction [(new_category "buyer" [9; 8; 4]); (new_category "mediator" [(-1); (-2); (-3)]); (new_category "seller" [(-4); (-3); (-2)])] [1; 1; 1]%nat true) [("buyer", [9; 8], 2%nat, 2%nat, 7); ("mediator", [(-1); (-2)], 2%nat, 2%nat, (-3)); ("seller", [(-2); (-3)], 2%nat, 2%nat, (-4))] = true.
Proof. vm_compute. reflexivity. Qed.

(** ** ascending_auction_recipetree_protocol.py *)

Example tree_auction_93 : (tr <- (tree_auction MAX_VALUE (map (fun k => - (k * MAX_VALUE)) [1; 2; 1; 1]) 60 [(new_category "buyer" [27; 21; 17; 11; 3]); (new_category "seller" [(-4); (-5); (-11)]); (new_category "A" [(-2); (-3); (-11)]); (new_category "B" [(-1); (-2); (-8)])] (SList [(SInt 0); (SList [(SInt 1); SNone; (SInt 2); (SList [(SInt 3); SNone])])])) ;; tree_trade_text show_float tr) = Ok (text_of ["seller: 1 potential deals, price=-5.0"; "B: 1 potential deals, price=-2.0"; "A: all 1 traders selected, price=-3.0"; "B: all 1 traders selected"; "buyer: 2 out of 4 traders selected, price=5.0"; "seller + A: all 2 traders selected"; "2 deals overall"]).
Proof. vm_compute. reflexivity. Qed.
Example tree_auction_104_market : market_data [(new_category "buyer" [17; 11]); (new_category "seller" [(-5)]); (new_category "A" [(-3)]); (new_category "B" [(-2)])] = [("buyer", [17; 11]); ("seller", [(-5)]); ("A", [(-3)]); ("B", [(-2)])].
Proof. vm_compute. reflexivity. Qed.
Example tree_auction_109_market : market_data [(new_category "buyer" [9]); (new_category "seller" [(-4)])] = [("buyer", [9]); ("seller", [(-4)])].
Proof. vm_compute. reflexivity. Qed.
Example tree_auction_109 : (tr <- (tree_auction MAX_VALUE (map (fun k => - (k * MAX_VALUE)) [1; 1]) 60 [(new_category "buyer" [9]); (new_category "seller" [(-4)])] (SList [(SInt 0); (SList [(SInt 1); SNone])])) ;; tree_trade_text show_float tr) = Ok (text_of ["No trade"]).
Proof. vm_compute. reflexivity. Qed.
Example tree_auction_114_market : market_data [(new_category "buyer" [9; 8]); (new_category "seller" [(-4)])] = [("buyer", [9; 8]); ("seller", [(-4)])].
Proof. vm_compute. reflexivity. Qed.
Example tree_auction_114 : (tr <- (tree_auction MAX_VALUE (map (fun k => - (k * MAX_VALUE)) [1; 1]) 60 [(new_category "buyer" [9; 8]); (new_category "seller" [(-4)])] (SList [(SInt 0); (SList [(SInt 1); SNone])])) ;; tree_trade_text show_float tr) = Ok (text_of ["seller: 1 potential deals, price=-8.0"; "buyer: all 1 traders selected, price=8.0"; "seller: all 1 traders selected"; "1 deals overall"]).
Proof. vm_compute. reflexivity. Qed.
Example tree_auction_123_market : market_data [(new_category "buyer" [9]); (new_category "seller" [(-4); (-3)])] = [("buyer", [9]); ("seller", [(-3); (-4)])].
Proof. vm_compute. reflexivity. Qed.
Example tree_auction_123 : (tr <- (tree_auction MAX_VALUE (map (fun k => - (k * MAX_VALUE)) [1; 1]) 60 [(new_category "buyer" [9]); (new_category "seller" [(-4); (-3)])] (SList [(SInt 0); (SList [(SInt 1); SNone])])) ;; tree_trade_text show_float tr) = Ok (text_of ["No trade"]).
Proof. vm_compute. reflexivity. Qed.
Example tree_auction_129_market : market_data [(new_category "buyer" [9; 8]); (new_category "seller" [(-4); (-3)])] = [("buyer", [9; 8]); ("seller", [(-3); (-4)])].
Proof. vm_compute. reflexivity. Qed.
Example tree_auction_129 : (tr <- (tree_auction MAX_VALUE (map (fun k => - (k * MAX_VALUE)) [1; 1]) 60 [(new_category "buyer" [9; 8]); (new_category "seller" [(-4); (-3)])] (SList [(SInt 0); (SList [(SInt 1); SNone])])) ;; tree_trade_text show_float tr) = Ok (text_of ["seller: 1 potential deals, price=-4.0"; "buyer: 1 out of 2 traders selected, price=4.0"; "seller: all 1 traders selected"; "1 deals overall"]).
Proof. vm_compute. reflexivity. Qed.

(** ** ascending_auction_recipetree_integer_protocol.py *)

Example int_auction_95_market : market_data [(new_category "buyer" [27; 21; 17; 11; 3]); (new_category "seller" [(-4); (-5); (-11)]); (new_category "A" [(-2); (-3); (-11)]); (new_category "B" [(-1); (-2); (-8)])] = [("buyer", [27; 21; 17; 11; 3]); ("seller", [(-4); (-5); (-11)]); ("A", [(-2); (-3); (-11)]); ("B", [(-1); (-2); (-8)])].
Proof. vm_compute. reflexivity. Qed.
Example int_auction_95 : (tr <- (int_auction MAX_VALUE 60 [(new_category "buyer" [27; 21; 17; 11; 3]); (new_category "seller" [(-4); (-5); (-11)]); (new_category "A" [(-2); (-3); (-11)]); (new_category "B" [(-1); (-2); (-8)])] (SList [(SInt 0); (SList [(SInt 1); SNone; (SInt 2); (SList [(SInt 3); SNone])])]) []) ;; int_trade_text show_float [] tr) = Ok (text_of ["seller: 1 potential deals, price=-5.0"; "B: 1 potential deals, price=-2.0"; "A: all 1 traders selected, price=-3.0"; "B: all 1 deals selected"; "buyer: 2 out of 4 traders selected, price=5.0"; "seller + A: all 2 deals selected"; "2 deals overall"]).
Proof. vm_compute. reflexivity. Qed.
Example int_auction_106_market : market_data [(new_category "buyer" [17; 11]); (new_category "seller" [(-5)]); (new_category "A" [(-3)]); (new_category "B" [(-2)])] = [("buyer", [17; 11]); ("seller", [(-5)]); ("A", [(-3)]); ("B", [(-2)])].
Proof. vm_compute. reflexivity. Qed.
Example int_auction_106 : (tr <- (int_auction MAX_VALUE 60 [(new_category "buyer" [17; 11]); (new_category "seller" [(-5)]); (new_category "A" [(-3)]); (new_category "B" [(-2)])] (SList [(SInt 0); (SList [(SInt 1); SNone; (SInt 2); (SList [(SInt 3); SNone])])]) []) ;; int_trade_text show_float [] tr) = Ok (text_of ["No trade"]).
Proof. vm_compute. reflexivity. Qed.
Example int_auction_112_market : market_data [(new_category "buyer" [9]); (new_category "seller" [(-4)])] = [("buyer", [9]); ("seller", [(-4)])].
Proof. vm_compute. reflexivity. Qed.
Example int_auction_112 : (tr <- (int_auction MAX_VALUE 60 [(new_category "buyer" [9]); (new_category "seller" [(-4)])] (SList [(SInt 0); (SList [(SInt 1); SNone])]) []) ;; int_trade_text show_float [] tr) = Ok (text_of ["No trade"]).
Proof. vm_compute. reflexivity. Qed.
Example int_auction_117_market : market_data [(new_category "buyer" [9; 8]); (new_category "seller" [(-4)])] = [("buyer", [9; 8]); ("seller", [(-4)])].
Proof. vm_compute. reflexivity. Qed.
Example int_auction_117 : (tr <- (int_auction MAX_VALUE 60 [(new_category "buyer" [9; 8]); (new_category "seller" [(-4)])] (SList [(SInt 0); (SList [(SInt 1); SNone])]) []) ;; int_trade_text show_float [] tr) = Ok (text_of ["seller: 1 potential deals, price=-8.0"; "buyer: all 1 traders selected, price=8.0"; "seller: all 1 deals selected"; "1 deals overall"]).
Proof. vm_compute. reflexivity. Qed.
Example int_auction_126_market : market_data [(new_category "buyer" [9]); (new_category "seller" [(-4); (-3)])] = [("buyer", [9]); ("seller", [(-3); (-4)])].
Proof. vm_compute. reflexivity. Qed.
Example int_auction_126 : (tr <- (int_auction MAX_VALUE 60 [(new_category "buyer" [9]); (new_category "seller" [(-4); (-3)])] (SList [(SInt 0); (SList [(SInt 1); SNone])]) []) ;; int_trade_text show_float [] tr) = Ok (text_of ["No trade"]).
Proof. vm_compute. reflexivity. Qed.
Example int_auction_132_market : market_data [(new_category "buyer" [9; 8]); (new_category "seller" [(-4); (-3)])] = [("buyer", [9; 8]); ("seller", [(-3); (-4)])].
Proof. vm_compute. reflexivity. Qed.
Example int_auction_132 : (tr <- (int_auction MAX_VALUE 60 [(new_category "buyer" [9; 8]); (new_category "seller" [(-4); (-3)])] (SList [(SInt 0); (SList [(SInt 1); SNone])]) []) ;; int_trade_text show_float [] tr) = Ok (text_of ["seller: 1 potential deals, price=-4.0"; "buyer: 1 out of 2 traders selected, price=4.0"; "seller: all 1 deals selected"; "1 deals overall"]).
Proof. vm_compute. reflexivity. Qed.

(** ** prices.py *)

Example prices_21 : (x <- (Ok (dot [1; 2; 3] [4; 5; 6]%nat)) ;; Ok (Qred x)) = Ok 32.
Proof. vm_compute. reflexivity. Qed.
Example prices_59 : (x <- (v <- (Ok (new_price_vector [1; 1; 0; 0]%nat (-1000))) ;; price_sum_after_increase v 0 10) ;; Ok (Qred x)) = Ok (-990).
Proof. vm_compute. reflexivity. Qed.
Example prices_62 : (x <- (v <- (Ok (new_price_vector [1; 0; 1; 1]%nat (-1000))) ;; price_sum_after_increase v 0 10) ;; Ok (Qred x)) = Ok (-1990).
Proof. vm_compute. reflexivity. Qed.
Example prices_80 : (v <- (v <- (Ok (new_price_vector [1; 1]%nat (-1000))) ;; increase_price_up_to_balance v 0 10 0) ;; Ok (pv_status v)) = Ok (Some STOPPED_AT_AGENT_VALUE).
Proof. vm_compute. reflexivity. Qed.
Example prices_83a : (v <- (v <- (v <- (Ok (new_price_vector [1; 1]%nat (-1000))) ;; increase_price_up_to_balance v 0 10 0) ;; increase_price_up_to_balance v 1 (-100) 0) ;; Ok (pv_status v)) = Ok (Some STOPPED_AT_AGENT_VALUE).
Proof. vm_compute. reflexivity. Qed.
Example prices_83b : (x <- (v <- (v <- (v <- (Ok (new_price_vector [1; 1]%nat (-1000))) ;; increase_price_up_to_balance v 0 10 0) ;; increase_price_up_to_balance v 1 (-100) 0) ;; Ok (price_sum v)) ;; Ok (Qred x)) = Ok (-90).
Proof. vm_compute. reflexivity. Qed.
Example prices_86a : (v <- (v <- (v <- (v <- (Ok (new_price_vector [1; 1]%nat (-1000))) ;; increase_price_up_to_balance v 0 10 0) ;; increase_price_up_to_balance v 1 (-100) 0) ;; increase_price_up_to_balance v 0 90 0) ;; Ok (pv_status v)) = Ok (Some STOPPED_AT_AGENT_VALUE).
Proof. vm_compute. reflexivity. Qed.
Example prices_86b : (x <- (v <- (v <- (v <- (v <- (Ok (new_price_vector [1; 1]%nat (-1000))) ;; increase_price_up_to_balance v 0 10 0) ;; increase_price_up_to_balance v 1 (-100) 0) ;; increase_price_up_to_balance v 0 90 0) ;; Ok (price_sum v)) ;; Ok (Qred x)) = Ok (-10).
Proof. vm_compute. reflexivity. Qed.
Example prices_89a : (v <- (v <- (v <- (v <- (v <- (Ok (new_price_vector [1; 1]%nat (-1000))) ;; increase_price_up_to_balance v 0 10 0) ;; increase_price_up_to_balance v 1 (-100) 0) ;; increase_price_up_to_balance v 0 90 0) ;; increase_price_up_to_balance v 1 (-80) 0) ;; Ok (pv_status v)) = Ok (Some STOPPED_AT_ZERO_SUM).
Proof. vm_compute. reflexivity. Qed.
Example prices_89b : (x <- (v <- (v <- (v <- (v <- (v <- (Ok (new_price_vector [1; 1]%nat (-1000))) ;; increase_price_up_to_balance v 0 10 0) ;; increase_price_up_to_balance v 1 (-100) 0) ;; increase_price_up_to_balance v 0 90 0) ;; increase_price_up_to_balance v 1 (-80) 0) ;; Ok (price_sum v)) ;; Ok (Qred x)) = Ok 0.
Proof. vm_compute. reflexivity. Qed.
Example prices_89c : (x <- (v <- (v <- (v <- (v <- (v <- (Ok (new_price_vector [1; 1]%nat (-1000))) ;; increase_price_up_to_balance v 0 10 0) ;; increase_price_up_to_balance v 1 (-100) 0) ;; increase_price_up_to_balance v 0 90 0) ;; increase_price_up_to_balance v 1 (-80) 0) ;; get (pv_prices v) 1) ;; Ok (Qred x)) = Ok (-90).
Proof. vm_compute. reflexivity. Qed.
Example prices_95 : (v <- (v <- (Ok (new_price_vector [2; 1; 0]%nat (-1000))) ;; increase_price_up_to_balance v 0 10 0) ;; Ok (pv_status v)) = Ok (Some STOPPED_AT_AGENT_VALUE).
Proof. vm_compute. reflexivity. Qed.
Example prices_98a : (v <- (v <- (v <- (Ok (new_price_vector [2; 1; 0]%nat (-1000))) ;; increase_price_up_to_balance v 0 10 0) ;; increase_price_up_to_balance v 1 (-100) 0) ;; Ok (pv_status v)) = Ok (Some STOPPED_AT_AGENT_VALUE).
Proof. vm_compute. reflexivity. Qed.
Example prices_98b : (x <- (v <- (v <- (v <- (Ok (new_price_vector [2; 1; 0]%nat (-1000))) ;; increase_price_up_to_balance v 0 10 0) ;; increase_price_up_to_balance v 1 (-100) 0) ;; Ok (price_sum v)) ;; Ok (Qred x)) = Ok (-80).
Proof. vm_compute. reflexivity. Qed.
Example prices_101a : (v <- (v <- (v <- (v <- (Ok (new_price_vector [2; 1; 0]%nat (-1000))) ;; increase_price_up_to_balance v 0 10 0) ;; increase_price_up_to_balance v 1 (-100) 0) ;; increase_price_up_to_balance v 2 1000 0) ;; Ok (pv_status v)) = Ok (Some STOPPED_AT_AGENT_VALUE).
Proof. vm_compute. reflexivity. Qed.
Example prices_101b : (x <- (v <- (v <- (v <- (v <- (Ok (new_price_vector [2; 1; 0]%nat (-1000))) ;; increase_price_up_to_balance v 0 10 0) ;; increase_price_up_to_balance v 1 (-100) 0) ;; increase_price_up_to_balance v 2 1000 0) ;; Ok (price_sum v)) ;; Ok (Qred x)) = Ok (-80).
Proof. vm_compute. reflexivity. Qed.
Example prices_104a : (v <- (v <- (v <- (v <- (v <- (Ok (new_price_vector [2; 1; 0]%nat (-1000))) ;; increase_price_up_to_balance v 0 10 0) ;; increase_price_up_to_balance v 1 (-100) 0) ;; increase_price_up_to_balance v 2 1000 0) ;; increase_price_up_to_balance v 0 60 0) ;; Ok (pv_status v)) = Ok (Some STOPPED_AT_ZERO_SUM).
Proof. vm_compute. reflexivity. Qed.
Example prices_104b : (x <- (v <- (v <- (v <- (v <- (v <- (Ok (new_price_vector [2; 1; 0]%nat (-1000))) ;; increase_price_up_to_balance v 0 10 0) ;; increase_price_up_to_balance v 1 (-100) 0) ;; increase_price_up_to_balance v 2 1000 0) ;; increase_price_up_to_balance v 0 60 0) ;; Ok (price_sum v)) ;; Ok (Qred x)) = Ok 0.
Proof. vm_compute. reflexivity. Qed.
Example prices_104c : (x <- (v <- (v <- (v <- (v <- (v <- (Ok (new_price_vector [2; 1; 0]%nat (-1000))) ;; increase_price_up_to_balance v 0 10 0) ;; increase_price_up_to_balance v 1 (-100) 0) ;; increase_price_up_to_balance v 2 1000 0) ;; increase_price_up_to_balance v 0 60 0) ;; get (pv_prices v) 0) ;; Ok (Qred x)) = Ok 50.
Proof. vm_compute. reflexivity. Qed.
Example prices_130 : (v <- (new_sim_prices [[1; 1; 0; 0]; [1; 0; 1; 1]]%nat [(-10000); (-20000); (-10000); (-10000)]) ;; Ok (map Qred (map_category_index_to_price v), sp_status v)) = Ok ([(-10000); (-20000); (-10000); (-10000)], None).
Proof. vm_compute. reflexivity. Qed.
Example prices_160 : (x <- (v <- (new_sim_prices [[1; 1; 0; 0]; [1; 0; 1; 1]]%nat [(-10000); (-20000); (-10000); (-10000)]) ;; Ok (map_category_index_to_price v)) ;; Ok ((fun l => map Qred l) x)) = Ok [(-10000); (-20000); (-10000); (-10000)].
Proof. vm_compute. reflexivity. Qed.
Example prices_163 : (x <- (l <- (v <- (v <- (new_sim_prices [[1; 1; 0; 0]; [1; 0; 1; 1]]%nat [(-10000); (-20000); (-10000); (-10000)]) ;; increase_prices v [(1%nat, 10); (2%nat, 10)] 0) ;; Ok (map_category_index_to_price v)) ;; get l 2) ;; Ok (Qred x)) = Ok 10.
Proof. vm_compute. reflexivity. Qed.
Example prices_166 : (x <- (l <- (v <- (v <- (v <- (new_sim_prices [[1; 1; 0; 0]; [1; 0; 1; 1]]%nat [(-10000); (-20000); (-10000); (-10000)]) ;; increase_prices v [(1%nat, 10); (2%nat, 10)] 0) ;; increase_prices v [(1%nat, 10); (3%nat, 10)] 0) ;; Ok (map_category_index_to_price v)) ;; get l 1) ;; Ok (Qred x)) = Ok 10.
Proof. vm_compute. reflexivity. Qed.
Example prices_184 : (v <- (new_sim_prices [[1; 1; 0; 0]; [1; 0; 1; 1]]%nat [(-10000); (-20000); (-10000); (-10000)]) ;; Ok (map Qred (map_category_index_to_price v), sp_status v)) = Ok ([(-10000); (-20000); (-10000); (-10000)], None).
Proof. vm_compute. reflexivity. Qed.
Example prices_187 : (v <- (v <- (new_sim_prices [[1; 1; 0; 0]; [1; 0; 1; 1]]%nat [(-10000); (-20000); (-10000); (-10000)]) ;; increase_prices v [(1%nat, (-80)); (2%nat, (-80))] 0) ;; Ok (map Qred (map_category_index_to_price v), sp_status v)) = Ok ([(-10000); (-10080); (-80); (-10000)], Some STOPPED_AT_AGENT_VALUE).
Proof. vm_compute. reflexivity. Qed.
Example prices_190 : (v <- (v <- (v <- (new_sim_prices [[1; 1; 0; 0]; [1; 0; 1; 1]]%nat [(-10000); (-20000); (-10000); (-10000)]) ;; increase_prices v [(1%nat, (-80)); (2%nat, (-80))] 0) ;; increase_prices v [(1%nat, (-80)); (3%nat, (-80))] 0) ;; Ok (map Qred (map_category_index_to_price v), sp_status v)) = Ok ([(-10000); (-160); (-80); (-80)], Some STOPPED_AT_AGENT_VALUE).
Proof. vm_compute. reflexivity. Qed.
Example prices_193 : (v <- (v <- (v <- (v <- (new_sim_prices [[1; 1; 0; 0]; [1; 0; 1; 1]]%nat [(-10000); (-20000); (-10000); (-10000)]) ;; increase_prices v [(1%nat, (-80)); (2%nat, (-80))] 0) ;; increase_prices v [(1%nat, (-80)); (3%nat, (-80))] 0) ;; increase_prices v [(0%nat, 100)] 0) ;; Ok (map Qred (map_category_index_to_price v), sp_status v)) = Ok ([100; (-160); (-80); (-80)], Some STOPPED_AT_AGENT_VALUE).
Proof. vm_compute. reflexivity. Qed.
Example prices_196 : (v <- (v <- (v <- (v <- (v <- (new_sim_prices [[1; 1; 0; 0]; [1; 0; 1; 1]]%nat [(-10000); (-20000); (-10000); (-10000)]) ;; increase_prices v [(1%nat, (-80)); (2%nat, (-80))] 0) ;; increase_prices v [(1%nat, (-80)); (3%nat, (-80))] 0) ;; increase_prices v [(0%nat, 100)] 0) ;; increase_prices v [(1%nat, (-80)); (3%nat, (-10))] 0) ;; Ok (map Qred (map_category_index_to_price v), sp_status v)) = Ok ([100; (-100); (-80); (-20)], Some STOPPED_AT_ZERO_SUM).
Proof. vm_compute. reflexivity. Qed.

(** ** prices_integer.py *)

Example int_prices_21 : (x <- (Ok (dot3 [1; 2; 3] [4; 5; 6]%nat [1;1;1]%nat)) ;; Ok (Qred x)) = Ok 32.
Proof. vm_compute. reflexivity. Qed.
Example int_prices_61 : (x <- (v <- (Ok (new_int_vector [1; 1; 0; 0]%nat (-1000) []%nat)) ;; int_price_sum_after v 0 10) ;; Ok (Qred x)) = Ok (-990).
Proof. vm_compute. reflexivity. Qed.
Example int_prices_64 : (x <- (v <- (Ok (new_int_vector [1; 0; 1; 1]%nat (-1000) []%nat)) ;; int_price_sum_after v 0 10) ;; Ok (Qred x)) = Ok (-1990).
Proof. vm_compute. reflexivity. Qed.
Example int_prices_67 : (x <- (v <- (Ok (new_int_vector [1; 1; 0; 0]%nat (-1000) [2; 1; 1; 1]%nat)) ;; int_price_sum_after v 0 10) ;; Ok (Qred x)) = Ok (-980).
Proof. vm_compute. reflexivity. Qed.
Example int_prices_70 : (x <- (v <- (Ok (new_int_vector [1; 0; 1; 1]%nat (-1000) [3; 1; 1; 1]%nat)) ;; int_price_sum_after v 0 10) ;; Ok (Qred x)) = Ok (-1970).
Proof. vm_compute. reflexivity. Qed.
Example int_prices_88 : (v <- (v <- (Ok (new_int_vector [1; 1]%nat (-1000) []%nat)) ;; int_increase_up_to_balance v 0 10 0) ;; Ok (iv_status v)) = Ok (Some STOPPED_AT_AGENT_VALUE).
Proof. vm_compute. reflexivity. Qed.
Example int_prices_91a : (v <- (v <- (v <- (Ok (new_int_vector [1; 1]%nat (-1000) []%nat)) ;; int_increase_up_to_balance v 0 10 0) ;; int_increase_up_to_balance v 1 (-100) 0) ;; Ok (iv_status v)) = Ok (Some STOPPED_AT_AGENT_VALUE).
Proof. vm_compute. reflexivity. Qed.
Example int_prices_91b : (x <- (v <- (v <- (v <- (Ok (new_int_vector [1; 1]%nat (-1000) []%nat)) ;; int_increase_up_to_balance v 0 10 0) ;; int_increase_up_to_balance v 1 (-100) 0) ;; Ok (int_price_sum v)) ;; Ok (Qred x)) = Ok (-90).
Proof. vm_compute. reflexivity. Qed.
Example int_prices_94a : (v <- (v <- (v <- (v <- (Ok (new_int_vector [1; 1]%nat (-1000) []%nat)) ;; int_increase_up_to_balance v 0 10 0) ;; int_increase_up_to_balance v 1 (-100) 0) ;; int_increase_up_to_balance v 0 90 0) ;; Ok (iv_status v)) = Ok (Some STOPPED_AT_AGENT_VALUE).
Proof. vm_compute. reflexivity. Qed.
Example int_prices_94b : (x <- (v <- (v <- (v <- (v <- (Ok (new_int_vector [1; 1]%nat (-1000) []%nat)) ;; int_increase_up_to_balance v 0 10 0) ;; int_increase_up_to_balance v 1 (-100) 0) ;; int_increase_up_to_balance v 0 90 0) ;; Ok (int_price_sum v)) ;; Ok (Qred x)) = Ok (-10).
Proof. vm_compute. reflexivity. Qed.
Example int_prices_97a : (v <- (v <- (v <- (v <- (v <- (Ok (new_int_vector [1; 1]%nat (-1000) []%nat)) ;; int_increase_up_to_balance v 0 10 0) ;; int_increase_up_to_balance v 1 (-100) 0) ;; int_increase_up_to_balance v 0 90 0) ;; int_increase_up_to_balance v 1 (-80) 0) ;; Ok (iv_status v)) = Ok (Some STOPPED_AT_ZERO_SUM).
Proof. vm_compute. reflexivity. Qed.
Example int_prices_97b : (x <- (v <- (v <- (v <- (v <- (v <- (Ok (new_int_vector [1; 1]%nat (-1000) []%nat)) ;; int_increase_up_to_balance v 0 10 0) ;; int_increase_up_to_balance v 1 (-100) 0) ;; int_increase_up_to_balance v 0 90 0) ;; int_increase_up_to_balance v 1 (-80) 0) ;; Ok (int_price_sum v)) ;; Ok (Qred x)) = Ok 0.
Proof. vm_compute. reflexivity. Qed.
Example int_prices_97c : (x <- (v <- (v <- (v <- (v <- (v <- (Ok (new_int_vector [1; 1]%nat (-1000) []%nat)) ;; int_increase_up_to_balance v 0 10 0) ;; int_increase_up_to_balance v 1 (-100) 0) ;; int_increase_up_to_balance v 0 90 0) ;; int_increase_up_to_balance v 1 (-80) 0) ;; get (iv_prices v) 1) ;; Ok (Qred x)) = Ok (-90).
Proof. vm_compute. reflexivity. Qed.
Example int_prices_103 : (v <- (v <- (Ok (new_int_vector [2; 1; 0]%nat (-1000) []%nat)) ;; int_increase_up_to_balance v 0 10 0) ;; Ok (iv_status v)) = Ok (Some STOPPED_AT_AGENT_VALUE).
Proof. vm_compute. reflexivity. Qed.
Example int_prices_106a : (v <- (v <- (v <- (Ok (new_int_vector [2; 1; 0]%nat (-1000) []%nat)) ;; int_increase_up_to_balance v 0 10 0) ;; int_increase_up_to_balance v 1 (-100) 0) ;; Ok (iv_status v)) = Ok (Some STOPPED_AT_AGENT_VALUE).
Proof. vm_compute. reflexivity. Qed.
Example int_prices_106b : (x <- (v <- (v <- (v <- (Ok (new_int_vector [2; 1; 0]%nat (-1000) []%nat)) ;; int_increase_up_to_balance v 0 10 0) ;; int_increase_up_to_balance v 1 (-100) 0) ;; Ok (int_price_sum v)) ;; Ok (Qred x)) = Ok (-80).
Proof. vm_compute. reflexivity. Qed.
Example int_prices_109a : (v <- (v <- (v <- (v <- (Ok (new_int_vector [2; 1; 0]%nat (-1000) []%nat)) ;; int_increase_up_to_balance v 0 10 0) ;; int_increase_up_to_balance v 1 (-100) 0) ;; int_increase_up_to_balance v 2 1000 0) ;; Ok (iv_status v)) = Ok (Some STOPPED_AT_AGENT_VALUE).
Proof. vm_compute. reflexivity. Qed.
Example int_prices_109b : (x <- (v <- (v <- (v <- (v <- (Ok (new_int_vector [2; 1; 0]%nat (-1000) []%nat)) ;; int_increase_up_to_balance v 0 10 0) ;; int_increase_up_to_balance v 1 (-100) 0) ;; int_increase_up_to_balance v 2 1000 0) ;; Ok (int_price_sum v)) ;; Ok (Qred x)) = Ok (-80).
Proof. vm_compute. reflexivity. Qed.
Example int_prices_112a : (v <- (v <- (v <- (v <- (v <- (Ok (new_int_vector [2; 1; 0]%nat (-1000) []%nat)) ;; int_increase_up_to_balance v 0 10 0) ;; int_increase_up_to_balance v 1 (-100) 0) ;; int_increase_up_to_balance v 2 1000 0) ;; int_increase_up_to_balance v 0 60 0) ;; Ok (iv_status v)) = Ok (Some STOPPED_AT_ZERO_SUM).
Proof. vm_compute. reflexivity. Qed.
Example int_prices_112b : (x <- (v <- (v <- (v <- (v <- (v <- (Ok (new_int_vector [2; 1; 0]%nat (-1000) []%nat)) ;; int_increase_up_to_balance v 0 10 0) ;; int_increase_up_to_balance v 1 (-100) 0) ;; int_increase_up_to_balance v 2 1000 0) ;; int_increase_up_to_balance v 0 60 0) ;; Ok (int_price_sum v)) ;; Ok (Qred x)) = Ok 0.
Proof. vm_compute. reflexivity. Qed.
Example int_prices_112c : (x <- (v <- (v <- (v <- (v <- (v <- (Ok (new_int_vector [2; 1; 0]%nat (-1000) []%nat)) ;; int_increase_up_to_balance v 0 10 0) ;; int_increase_up_to_balance v 1 (-100) 0) ;; int_increase_up_to_balance v 2 1000 0) ;; int_increase_up_to_balance v 0 60 0) ;; get (iv_prices v) 0) ;; Ok (Qred x)) = Ok 50.
Proof. vm_compute. reflexivity. Qed.
Example int_prices_137 : (v <- (new_int_sim_prices [[1; 1; 0; 0]; [1; 0; 1; 1]]%nat (-10000) []) ;; Ok (map Qred (iv_prices (isp_vector v)), isp_status v)) = Ok ([(-10000); (-20000); (-10000); (-10000)], None).
Proof. vm_compute. reflexivity. Qed.
Example int_prices_139 : (v <- (new_int_sim_prices [[1; 2; 0; 0]; [1; 0; 1; 2]]%nat (-10000) []) ;; Ok (map Qred (iv_prices (isp_vector v)), isp_status v)) = Ok ([(-10000); (-15000); (-10000); (-10000)], None).
Proof. vm_compute. reflexivity. Qed.
Example int_prices_170 : (x <- (v <- (new_int_sim_prices [[1; 1; 0; 0]; [1; 0; 1; 1]]%nat (-10000) []) ;; Ok (iv_prices (isp_vector v))) ;; Ok ((fun l => map Qred l) x)) = Ok [(-10000); (-20000); (-10000); (-10000)].
Proof. vm_compute. reflexivity. Qed.
Example int_prices_173 : (x <- (l <- (v <- (v <- (new_int_sim_prices [[1; 1; 0; 0]; [1; 0; 1; 1]]%nat (-10000) []) ;; int_increase_prices v [(1%nat, 10); (2%nat, 10)] 0) ;; Ok (iv_prices (isp_vector v))) ;; get l 2) ;; Ok (Qred x)) = Ok 10.
Proof. vm_compute. reflexivity. Qed.
Example int_prices_176 : (x <- (l <- (v <- (v <- (v <- (new_int_sim_prices [[1; 1; 0; 0]; [1; 0; 1; 1]]%nat (-10000) []) ;; int_increase_prices v [(1%nat, 10); (2%nat, 10)] 0) ;; int_increase_prices v [(1%nat, 10); (3%nat, 10)] 0) ;; Ok (iv_prices (isp_vector v))) ;; get l 1) ;; Ok (Qred x)) = Ok 10.
Proof. vm_compute. reflexivity. Qed.
Example int_prices_194 : (v <- (new_int_sim_prices [[1; 1; 0; 0]; [1; 0; 1; 1]]%nat (-10000) []) ;; Ok (map Qred (iv_prices (isp_vector v)), isp_status v)) = Ok ([(-10000); (-20000); (-10000); (-10000)], None).
Proof. vm_compute. reflexivity. Qed.
Example int_prices_197 : (v <- (v <- (new_int_sim_prices [[1; 1; 0; 0]; [1; 0; 1; 1]]%nat (-10000) []) ;; int_increase_prices v [(1%nat, (-80)); (2%nat, (-80))] 0) ;; Ok (map Qred (iv_prices (isp_vector v)), isp_status v)) = Ok ([(-10000); (-10080); (-80); (-10000)], Some STOPPED_AT_AGENT_VALUE).
Proof. vm_compute. reflexivity. Qed.
Example int_prices_200 : (v <- (v <- (v <- (new_int_sim_prices [[1; 1; 0; 0]; [1; 0; 1; 1]]%nat (-10000) []) ;; int_increase_prices v [(1%nat, (-80)); (2%nat, (-80))] 0) ;; int_increase_prices v [(1%nat, (-80)); (3%nat, (-80))] 0) ;; Ok (map Qred (iv_prices (isp_vector v)), isp_status v)) = Ok ([(-10000); (-160); (-80); (-80)], Some STOPPED_AT_AGENT_VALUE).
Proof. vm_compute. reflexivity. Qed.
Example int_prices_203 : (v <- (v <- (v <- (v <- (new_int_sim_prices [[1; 1; 0; 0]; [1; 0; 1; 1]]%nat (-10000) []) ;; int_increase_prices v [(1%nat, (-80)); (2%nat, (-80))] 0) ;; int_increase_prices v [(1%nat, (-80)); (3%nat, (-80))] 0) ;; int_increase_prices v [(0%nat, 100)] 0) ;; Ok (map Qred (iv_prices (isp_vector v)), isp_status v)) = Ok ([100; (-160); (-80); (-80)], Some STOPPED_AT_AGENT_VALUE).
Proof. vm_compute. reflexivity. Qed.
Example int_prices_206 : (v <- (v <- (v <- (v <- (v <- (new_int_sim_prices [[1; 1; 0; 0]; [1; 0; 1; 1]]%nat (-10000) []) ;; int_increase_prices v [(1%nat, (-80)); (2%nat, (-80))] 0) ;; int_increase_prices v [(1%nat, (-80)); (3%nat, (-80))] 0) ;; int_increase_prices v [(0%nat, 100)] 0) ;; int_increase_prices v [(1%nat, (-80)); (3%nat, (-10))] 0) ;; Ok (map Qred (iv_prices (isp_vector v)), isp_status v)) = Ok ([100; (-100); (-80); (-20)], Some STOPPED_AT_ZERO_SUM).
Proof. vm_compute. reflexivity. Qed.
Example int_prices_260 : (x <- (int_initial_prices [[1; 1; 0; 0]; [1; 0; 1; 1]]%nat (-100)) ;; Ok ((fun l => map Qred l) x)) = Ok [(-100); (-200); (-100); (-100)].
Proof. vm_compute. reflexivity. Qed.
Example int_prices_262 : (x <- (int_initial_prices [[1; 2; 0; 0]; [1; 0; 1; 2]]%nat (-100)) ;; Ok ((fun l => map Qred l) x)) = Ok [(-100); (-150); (-100); (-100)].
Proof. vm_compute. reflexivity. Qed.
Example int_prices_264 : (x <- (int_initial_prices [[1; 2; 0; 0]; [1; 0; 1; 3]]%nat (-100)) ;; Ok ((fun l => map Qred l) x)) = Ok [(-100); (-200); (-100); (-100)].
Proof. vm_compute. reflexivity. Qed.
(** The recorded result is -200, but the code computes -100*(5-4+2)/2: then both sums are -500, as documented (prices_integer.py:253). *)
Example int_prices_266_corrected : (x <- (int_initial_prices [[2; 2; 0; 0]; [1; 0; 1; 3]]%nat (-100)) ;; Ok ((fun l => map Qred l) x)) = Ok [(-100); (-150); (-100); (-100)].
Proof. vm_compute. reflexivity. Qed.

(** ** recipetree.py *)

Example recipetree_41 : (x <- (let cats := [(new_category "buyer" [60; 40; 20; (-30)]); (new_category "seller" [(-10); (-30); (-50)]); (new_category "producerA" [(-1); (-3); (-5)]); (new_category "producerB" [(-2); (-4); (-6); (-8)])] in t <- new_tree cats (SList [(SInt 0); SNone]) ;; Ok (combined_values cats t)) ;; Ok ((fun l => map Qred l) x)) = Ok [60; 40; 20; (-30)].
Proof. vm_compute. reflexivity. Qed.
Example recipetree_43 : (x <- (let cats := [(new_category "buyer" [60; 40; 20; (-30)]); (new_category "seller" [(-10); (-30); (-50)]); (new_category "producerA" [(-1); (-3); (-5)]); (new_category "producerB" [(-2); (-4); (-6); (-8)])] in t <- new_tree cats (SList [(SInt 0); SNone]) ;; Ok (detailed_values cats t)) ;; Ok ((fun l => map (map Qred) l) x)) = Ok [[60]; [40]; [20]; [(-30)]].
Proof. vm_compute. reflexivity. Qed.
Example recipetree_45 : (x <- (let cats := [(new_category "buyer" [60; 40; 20; (-30)]); (new_category "seller" [(-10); (-30); (-50)]); (new_category "producerA" [(-1); (-3); (-5)]); (new_category "producerB" [(-2); (-4); (-6); (-8)])] in t <- new_tree cats (SList [(SInt 0); SNone]) ;; Ok (optimal_trade_GFT cats t)) ;; Ok (Qred x)) = Ok 120.
Proof. vm_compute. reflexivity. Qed.
Example recipetree_47 : (x <- (let cats := [(new_category "buyer" [60; 40; 20; (-30)]); (new_category "seller" [(-10); (-30); (-50)]); (new_category "producerA" [(-1); (-3); (-5)]); (new_category "producerB" [(-2); (-4); (-6); (-8)])] in t <- new_tree cats (SList [(SInt 0); SNone]) ;; l <- Ok (largest_categories cats t) ;; Ok (map (fun i => cname (cat_at cats i)) (snd l))) ;; Ok ((fun x => x) x)) = Ok ["buyer"].
Proof. vm_compute. reflexivity. Qed.
Example recipetree_49 : (x <- (let cats := [(new_category "buyer" [60; 40; 20; (-30)]); (new_category "seller" [(-10); (-30); (-50)]); (new_category "producerA" [(-1); (-3); (-5)]); (new_category "producerB" [(-2); (-4); (-6); (-8)])] in t <- new_tree cats (SList [(SInt 0); SNone]) ;; Ok (paths_to_leaf_names cats t)) ;; Ok ((fun x => x) x)) = Ok [["buyer"]].
Proof. vm_compute. reflexivity. Qed.
Example recipetree_51 : (x <- (let cats := [(new_category "buyer" [60; 40; 20; (-30)]); (new_category "seller" [(-10); (-30); (-50)]); (new_category "producerA" [(-1); (-3); (-5)]); (new_category "producerB" [(-2); (-4); (-6); (-8)])] in t <- new_tree cats (SList [(SInt 0); SNone]) ;; Ok (tree_num_of_deals cats t)) ;; Ok ((fun x => x) x)) = Ok 4%nat.
Proof. vm_compute. reflexivity. Qed.
Example recipetree_53 : (let cats := [(new_category "buyer" [60; 40; 20; (-30)]); (new_category "seller" [(-10); (-30); (-50)]); (new_category "producerA" [(-1); (-3); (-5)]); (new_category "producerB" [(-2); (-4); (-6); (-8)])] in t <- new_tree cats (SList [(SInt 0); SNone]) ;; r <- explained show_int cats [1; 2; 3; 4] true t ;; Ok (snd (fst (fst r)))) = Ok (lines ["buyer: 4 potential deals, price=1"; "4 deals overall"]).
Proof. vm_compute. reflexivity. Qed.
Example recipetree_59 : (x <- (let cats := [(new_category "buyer" [60; 40; 20; (-30)]); (new_category "seller" [(-10); (-30); (-50)]); (new_category "producerA" [(-1); (-3); (-5)]); (new_category "producerB" [(-2); (-4); (-6); (-8)])] in t <- new_tree cats (SList [(SInt 0); (SList [(SInt 1); SNone])]) ;; Ok (combined_values cats t)) ;; Ok ((fun l => map Qred l) x)) = Ok [50; 10; (-30)].
Proof. vm_compute. reflexivity. Qed.
Example recipetree_61 : (x <- (let cats := [(new_category "buyer" [60; 40; 20; (-30)]); (new_category "seller" [(-10); (-30); (-50)]); (new_category "producerA" [(-1); (-3); (-5)]); (new_category "producerB" [(-2); (-4); (-6); (-8)])] in t <- new_tree cats (SList [(SInt 0); (SList [(SInt 1); SNone])]) ;; Ok (detailed_values cats t)) ;; Ok ((fun l => map (map Qred) l) x)) = Ok [[60; (-10)]; [40; (-30)]; [20; (-50)]].
Proof. vm_compute. reflexivity. Qed.
Example recipetree_63 : (x <- (let cats := [(new_category "buyer" [60; 40; 20; (-30)]); (new_category "seller" [(-10); (-30); (-50)]); (new_category "producerA" [(-1); (-3); (-5)]); (new_category "producerB" [(-2); (-4); (-6); (-8)])] in t <- new_tree cats (SList [(SInt 0); (SList [(SInt 1); SNone])]) ;; Ok (optimal_trade_GFT cats t)) ;; Ok (Qred x)) = Ok 60.
Proof. vm_compute. reflexivity. Qed.
Example recipetree_65 : (x <- (let cats := [(new_category "buyer" [60; 40; 20; (-30)]); (new_category "seller" [(-10); (-30); (-50)]); (new_category "producerA" [(-1); (-3); (-5)]); (new_category "producerB" [(-2); (-4); (-6); (-8)])] in t <- new_tree cats (SList [(SInt 0); (SList [(SInt 1); SNone])]) ;; l <- Ok (largest_categories cats t) ;; Ok (map (fun i => cname (cat_at cats i)) (snd l))) ;; Ok ((fun x => x) x)) = Ok ["buyer"].
Proof. vm_compute. reflexivity. Qed.
Example recipetree_67 : (x <- (let cats := [(new_category "buyer" [60; 40; 20; (-30)]); (new_category "seller" [(-10); (-30); (-50)]); (new_category "producerA" [(-1); (-3); (-5)]); (new_category "producerB" [(-2); (-4); (-6); (-8)])] in t <- new_tree cats (SList [(SInt 0); (SList [(SInt 1); SNone])]) ;; Ok (paths_to_leaf_names cats t)) ;; Ok ((fun x => x) x)) = Ok [["buyer"; "seller"]].
Proof. vm_compute. reflexivity. Qed.
Example recipetree_69 : (x <- (let cats := [(new_category "buyer" [60; 40; 20; (-30)]); (new_category "seller" [(-10); (-30); (-50)]); (new_category "producerA" [(-1); (-3); (-5)]); (new_category "producerB" [(-2); (-4); (-6); (-8)])] in t <- new_tree cats (SList [(SInt 0); (SList [(SInt 1); SNone])]) ;; Ok (tree_num_of_deals cats t)) ;; Ok ((fun x => x) x)) = Ok 3%nat.
Proof. vm_compute. reflexivity. Qed.
Example recipetree_71 : (let cats := [(new_category "buyer" [60; 40; 20; (-30)]); (new_category "seller" [(-10); (-30); (-50)]); (new_category "producerA" [(-1); (-3); (-5)]); (new_category "producerB" [(-2); (-4); (-6); (-8)])] in t <- new_tree cats (SList [(SInt 0); (SList [(SInt 1); SNone])]) ;; r <- explained show_int cats [1; 2; 3; 4] true t ;; Ok (snd (fst (fst r)))) = Ok (lines ["seller: 3 potential deals, price=2"; "buyer: 3 out of 4 traders selected, price=1"; "seller: all 3 traders selected"; "3 deals overall"]).
Proof. vm_compute. reflexivity. Qed.
Example recipetree_79 : (x <- (let cats := [(new_category "buyer" [60; 40; 20; (-30)]); (new_category "seller" [(-10); (-30); (-50)]); (new_category "producerA" [(-1); (-3); (-5)]); (new_category "producerB" [(-2); (-4); (-6); (-8)])] in t <- new_tree cats (SList [(SInt 0); (SList [(SInt 2); SNone; (SInt 3); SNone])]) ;; Ok (combined_values cats t)) ;; Ok ((fun l => map Qred l) x)) = Ok [59; 38; 17; (-34)].
Proof. vm_compute. reflexivity. Qed.
Example recipetree_81 : (x <- (let cats := [(new_category "buyer" [60; 40; 20; (-30)]); (new_category "seller" [(-10); (-30); (-50)]); (new_category "producerA" [(-1); (-3); (-5)]); (new_category "producerB" [(-2); (-4); (-6); (-8)])] in t <- new_tree cats (SList [(SInt 0); (SList [(SInt 2); SNone; (SInt 3); SNone])]) ;; Ok (detailed_values cats t)) ;; Ok ((fun l => map (map Qred) l) x)) = Ok [[60; (-1)]; [40; (-2)]; [20; (-3)]; [(-30); (-4)]].
Proof. vm_compute. reflexivity. Qed.
Example recipetree_83 : (x <- (let cats := [(new_category "buyer" [60; 40; 20; (-30)]); (new_category "seller" [(-10); (-30); (-50)]); (new_category "producerA" [(-1); (-3); (-5)]); (new_category "producerB" [(-2); (-4); (-6); (-8)])] in t <- new_tree cats (SList [(SInt 0); (SList [(SInt 2); SNone; (SInt 3); SNone])]) ;; Ok (optimal_trade_GFT cats t)) ;; Ok (Qred x)) = Ok 114.
Proof. vm_compute. reflexivity. Qed.
Example recipetree_85 : (x <- (let cats := [(new_category "buyer" [60; 40; 20; (-30)]); (new_category "seller" [(-10); (-30); (-50)]); (new_category "producerA" [(-1); (-3); (-5)]); (new_category "producerB" [(-2); (-4); (-6); (-8)])] in t <- new_tree cats (SList [(SInt 0); (SList [(SInt 2); SNone; (SInt 3); SNone])]) ;; l <- Ok (largest_categories cats t) ;; Ok (map (fun i => cname (cat_at cats i)) (snd l))) ;; Ok ((fun x => x) x)) = Ok ["producerA"; "producerB"].
Proof. vm_compute. reflexivity. Qed.
Example recipetree_87 : (x <- (let cats := [(new_category "buyer" [60; 40; 20; (-30)]); (new_category "seller" [(-10); (-30); (-50)]); (new_category "producerA" [(-1); (-3); (-5)]); (new_category "producerB" [(-2); (-4); (-6); (-8)])] in t <- new_tree cats (SList [(SInt 0); (SList [(SInt 2); SNone; (SInt 3); SNone])]) ;; Ok (paths_to_leaf_names cats t)) ;; Ok ((fun x => x) x)) = Ok [["buyer"; "producerA"]; ["buyer"; "producerB"]].
Proof. vm_compute. reflexivity. Qed.
Example recipetree_89 : (x <- (let cats := [(new_category "buyer" [60; 40; 20; (-30)]); (new_category "seller" [(-10); (-30); (-50)]); (new_category "producerA" [(-1); (-3); (-5)]); (new_category "producerB" [(-2); (-4); (-6); (-8)])] in t <- new_tree cats (SList [(SInt 0); (SList [(SInt 2); SNone; (SInt 3); SNone])]) ;; recipes (length cats) t) ;; Ok ((fun x => x) x)) = Ok [[1; 0; 1; 0]; [1; 0; 0; 1]]%nat.
Proof. vm_compute. reflexivity. Qed.
Example recipetree_91 : (x <- (let cats := [(new_category "buyer" [60; 40; 20; (-30)]); (new_category "seller" [(-10); (-30); (-50)]); (new_category "producerA" [(-1); (-3); (-5)]); (new_category "producerB" [(-2); (-4); (-6); (-8)])] in t <- new_tree cats (SList [(SInt 0); (SList [(SInt 2); SNone; (SInt 3); SNone])]) ;; Ok (tree_num_of_deals cats t)) ;; Ok ((fun x => x) x)) = Ok 4%nat.
Proof. vm_compute. reflexivity. Qed.
Example recipetree_93 : (let cats := [(new_category "buyer" [60; 40; 20; (-30)]); (new_category "seller" [(-10); (-30); (-50)]); (new_category "producerA" [(-1); (-3); (-5)]); (new_category "producerB" [(-2); (-4); (-6); (-8)])] in t <- new_tree cats (SList [(SInt 0); (SList [(SInt 2); SNone; (SInt 3); SNone])]) ;; r <- explained show_int cats [1; 2; 3; 4] true t ;; Ok (snd (fst (fst r)))) = Ok (lines ["producerA: 3 potential deals, price=3"; "producerB: 4 potential deals, price=4"; "buyer: all 4 traders selected, price=1"; "producerA + producerB: 4 out of 7 traders selected"; "4 deals overall"]).
Proof. vm_compute. reflexivity. Qed.
Example recipetree_103 : (x <- (let cats := [(new_category "buyer" [60; 40; 20; (-30)]); (new_category "seller" [(-10); (-30); (-50)]); (new_category "producerA" [(-1); (-3); (-5)]); (new_category "producerB" [(-2); (-4); (-6); (-8)])] in t <- new_tree cats (SList [(SInt 0); (SList [(SInt 1); SNone; (SInt 2); (SList [(SInt 3); SNone])])]) ;; Ok (combined_values cats t)) ;; Ok ((fun l => map Qred l) x)) = Ok [57; 33; 10; (-41)].
Proof. vm_compute. reflexivity. Qed.
Example recipetree_105 : (x <- (let cats := [(new_category "buyer" [60; 40; 20; (-30)]); (new_category "seller" [(-10); (-30); (-50)]); (new_category "producerA" [(-1); (-3); (-5)]); (new_category "producerB" [(-2); (-4); (-6); (-8)])] in t <- new_tree cats (SList [(SInt 0); (SList [(SInt 1); SNone; (SInt 2); (SList [(SInt 3); SNone])])]) ;; Ok (detailed_values cats t)) ;; Ok ((fun l => map (map Qred) l) x)) = Ok [[60; (-1); (-2)]; [40; (-3); (-4)]; [20; (-10)]; [(-30); (-5); (-6)]].
Proof. vm_compute. reflexivity. Qed.
Example recipetree_107 : (x <- (let cats := [(new_category "buyer" [60; 40; 20; (-30)]); (new_category "seller" [(-10); (-30); (-50)]); (new_category "producerA" [(-1); (-3); (-5)]); (new_category "producerB" [(-2); (-4); (-6); (-8)])] in t <- new_tree cats (SList [(SInt 0); (SList [(SInt 1); SNone; (SInt 2); (SList [(SInt 3); SNone])])]) ;; Ok (optimal_trade_GFT cats t)) ;; Ok (Qred x)) = Ok 100.
Proof. vm_compute. reflexivity. Qed.
Example recipetree_109 : (x <- (let cats := [(new_category "buyer" [60; 40; 20; (-30)]); (new_category "seller" [(-10); (-30); (-50)]); (new_category "producerA" [(-1); (-3); (-5)]); (new_category "producerB" [(-2); (-4); (-6); (-8)])] in t <- new_tree cats (SList [(SInt 0); (SList [(SInt 1); SNone; (SInt 2); (SList [(SInt 3); SNone])])]) ;; l <- Ok (largest_categories cats t) ;; Ok (map (fun i => cname (cat_at cats i)) (snd l))) ;; Ok ((fun x => x) x)) = Ok ["seller"; "producerB"].
Proof. vm_compute. reflexivity. Qed.
Example recipetree_111 : (x <- (let cats := [(new_category "buyer" [60; 40; 20; (-30)]); (new_category "seller" [(-10); (-30); (-50)]); (new_category "producerA" [(-1); (-3); (-5)]); (new_category "producerB" [(-2); (-4); (-6); (-8)])] in t <- new_tree cats (SList [(SInt 0); (SList [(SInt 1); SNone; (SInt 2); (SList [(SInt 3); SNone])])]) ;; l <- Ok (largest_categories cats t) ;; Ok (snd l)) ;; Ok ((fun x => x) x)) = Ok [1; 3]%nat.
Proof. vm_compute. reflexivity. Qed.
Example recipetree_113 : (x <- (let cats := [(new_category "buyer" [60; 40; 20; (-30)]); (new_category "seller" [(-10); (-30); (-50)]); (new_category "producerA" [(-1); (-3); (-5)]); (new_category "producerB" [(-2); (-4); (-6); (-8)])] in t <- new_tree cats (SList [(SInt 0); (SList [(SInt 1); SNone; (SInt 2); (SList [(SInt 3); SNone])])]) ;; Ok (paths_to_leaf_names cats t)) ;; Ok ((fun x => x) x)) = Ok [["buyer"; "seller"]; ["buyer"; "producerA"; "producerB"]].
Proof. vm_compute. reflexivity. Qed.
Example recipetree_115 : (x <- (let cats := [(new_category "buyer" [60; 40; 20; (-30)]); (new_category "seller" [(-10); (-30); (-50)]); (new_category "producerA" [(-1); (-3); (-5)]); (new_category "producerB" [(-2); (-4); (-6); (-8)])] in t <- new_tree cats (SList [(SInt 0); (SList [(SInt 1); SNone; (SInt 2); (SList [(SInt 3); SNone])])]) ;; Ok (paths_to_leaf t)) ;; Ok ((fun x => x) x)) = Ok [[0; 1]; [0; 2; 3]]%nat.
Proof. vm_compute. reflexivity. Qed.
Example recipetree_117 : (x <- (let cats := [(new_category "buyer" [60; 40; 20; (-30)]); (new_category "seller" [(-10); (-30); (-50)]); (new_category "producerA" [(-1); (-3); (-5)]); (new_category "producerB" [(-2); (-4); (-6); (-8)])] in t <- new_tree cats (SList [(SInt 0); (SList [(SInt 1); SNone; (SInt 2); (SList [(SInt 3); SNone])])]) ;; recipes (length cats) t) ;; Ok ((fun x => x) x)) = Ok [[1; 1; 0; 0]; [1; 0; 1; 1]]%nat.
Proof. vm_compute. reflexivity. Qed.
Example recipetree_119 : (x <- (let cats := [(new_category "buyer" [60; 40; 20; (-30)]); (new_category "seller" [(-10); (-30); (-50)]); (new_category "producerA" [(-1); (-3); (-5)]); (new_category "producerB" [(-2); (-4); (-6); (-8)])] in t <- new_tree cats (SList [(SInt 0); (SList [(SInt 1); SNone; (SInt 2); (SList [(SInt 3); SNone])])]) ;; Ok (tree_num_of_deals cats t)) ;; Ok ((fun x => x) x)) = Ok 4%nat.
Proof. vm_compute. reflexivity. Qed.
Example recipetree_121 : (let cats := [(new_category "buyer" [60; 40; 20; (-30)]); (new_category "seller" [(-10); (-30); (-50)]); (new_category "producerA" [(-1); (-3); (-5)]); (new_category "producerB" [(-2); (-4); (-6); (-8)])] in t <- new_tree cats (SList [(SInt 0); (SList [(SInt 1); SNone; (SInt 2); (SList [(SInt 3); SNone])])]) ;; r <- explained show_int cats [1; 2; 3; 4] true t ;; Ok (snd (fst (fst r)))) = Ok (lines ["seller: 3 potential deals, price=2"; "producerB: 4 potential deals, price=4"; "producerA: all 3 traders selected, price=3"; "producerB: 3 out of 4 traders selected"; "buyer: all 4 traders selected, price=1"; "seller + producerA: 4 out of 6 traders selected"; "4 deals overall"]).
Proof. vm_compute. reflexivity. Qed.
Example recipetree_137 : (x <- (let cats := [(new_category "buyer" [90; 80; 70; 60; 50; 40]); (new_category "seller" [(-10); (-30); (-50)]); (new_category "producerA" [(-1); (-3); (-5); (-7)]); (new_category "producerB" [(-2); (-4)])] in t <- new_tree cats (SList [(SInt 0); (SList [(SInt 1); SNone; (SInt 2); (SList [(SInt 3); SNone])])]) ;; Ok (detailed_values cats t)) ;; Ok ((fun l => map (map Qred) l) x)) = Ok [[90; (-1); (-2)]; [80; (-3); (-4)]; [70; (-10)]; [60; (-30)]; [50; (-50)]].
Proof. vm_compute. reflexivity. Qed.
Example recipetree_139 : (x <- (let cats := [(new_category "buyer" [90; 80; 70; 60; 50; 40]); (new_category "seller" [(-10); (-30); (-50)]); (new_category "producerA" [(-1); (-3); (-5); (-7)]); (new_category "producerB" [(-2); (-4)])] in t <- new_tree cats (SList [(SInt 0); (SList [(SInt 1); SNone; (SInt 2); (SList [(SInt 3); SNone])])]) ;; Ok (combined_values cats t)) ;; Ok ((fun l => map Qred l) x)) = Ok [87; 73; 60; 30; 0].
Proof. vm_compute. reflexivity. Qed.
Example recipetree_141 : (x <- (let cats := [(new_category "buyer" [90; 80; 70; 60; 50; 40]); (new_category "seller" [(-10); (-30); (-50)]); (new_category "producerA" [(-1); (-3); (-5); (-7)]); (new_category "producerB" [(-2); (-4)])] in t <- new_tree cats (SList [(SInt 0); (SList [(SInt 1); SNone; (SInt 2); (SList [(SInt 3); SNone])])]) ;; Ok (optimal_trade_GFT cats t)) ;; Ok (Qred x)) = Ok 250.
Proof. vm_compute. reflexivity. Qed.
Example recipetree_143 : (x <- (let cats := [(new_category "buyer" [90; 80; 70; 60; 50; 40]); (new_category "seller" [(-10); (-30); (-50)]); (new_category "producerA" [(-1); (-3); (-5); (-7)]); (new_category "producerB" [(-2); (-4)])] in t <- new_tree cats (SList [(SInt 0); (SList [(SInt 1); SNone; (SInt 2); (SList [(SInt 3); SNone])])]) ;; Ok (tree_num_of_deals cats t)) ;; Ok ((fun x => x) x)) = Ok 5%nat.
Proof. vm_compute. reflexivity. Qed.
Example recipetree_145 : (x <- (let cats := [(new_category "buyer" [90; 80; 70; 60; 50; 40]); (new_category "seller" [(-10); (-30); (-50)]); (new_category "producerA" [(-1); (-3); (-5); (-7)]); (new_category "producerB" [(-2); (-4)])] in t <- new_tree cats (SList [(SInt 0); (SList [(SInt 1); SNone; (SInt 2); (SList [(SInt 3); SNone])])]) ;; l <- Ok (largest_categories cats t) ;; Ok (map (fun i => cname (cat_at cats i)) (snd l))) ;; Ok ((fun x => x) x)) = Ok ["seller"; "producerA"].
Proof. vm_compute. reflexivity. Qed.
Example recipetree_150 : (x <- (let cats := [(new_category "buyer" [90; 80; 70; 60; 50; 40]); (new_category "seller" [(-10); (-30); (-50)]); (mkCat "producerA" [(-1); (-3); (-5); (-7); (-9); (-11); (-13)]); (mkCat "producerB" [(-2); (-4); (-6); (-8); (-10)])] in t <- new_tree cats (SList [(SInt 0); (SList [(SInt 1); SNone; (SInt 2); (SList [(SInt 3); SNone])])]) ;; l <- Ok (largest_categories cats t) ;; Ok (map (fun i => cname (cat_at cats i)) (snd l))) ;; Ok ((fun x => x) x)) = Ok ["seller"; "producerA"].
Proof. vm_compute. reflexivity. Qed.
Example recipetree_205 : (x <- (recipe_from_path [0; 2; 3]%nat 5 []%nat) ;; Ok ((fun x => x) x)) = Ok [1; 0; 1; 1; 0]%nat.
Proof. vm_compute. reflexivity. Qed.
Example recipetree_208 : (x <- (recipe_from_path [0; 2; 3]%nat 5 [1; 2; 3; 2; 1]%nat) ;; Ok ((fun x => x) x)) = Ok [1; 0; 3; 2; 0]%nat.
Proof. vm_compute. reflexivity. Qed.
Example recipetree_351 : (let cats := [(new_category "0" []); (new_category "1" [1]); (new_category "2" [1; 1]); (new_category "3" [1; 1; 1]); (new_category "4" [1; 1; 1; 1]); (new_category "5" [1; 1; 1; 1; 1]); (new_category "6" [1; 1; 1; 1; 1; 1]); (new_category "7" [1; 1; 1; 1; 1; 1; 1]); (new_category "8" [1; 1; 1; 1; 1; 1; 1; 1]); (new_category "9" [1; 1; 1; 1; 1; 1; 1; 1; 1])] in t <- new_tree cats (SList [(SInt 6); SNone]) ;; l <- Ok (largest_categories cats t) ;; Ok l) = Ok (6%nat, 6%nat, [6]%nat).
Proof. vm_compute. reflexivity. Qed.
Example recipetree_353 : (x <- (let cats := [(new_category "0" []); (new_category "1" [1]); (new_category "2" [1; 1]); (new_category "3" [1; 1; 1]); (new_category "4" [1; 1; 1; 1]); (new_category "5" [1; 1; 1; 1; 1]); (new_category "6" [1; 1; 1; 1; 1; 1]); (new_category "7" [1; 1; 1; 1; 1; 1; 1]); (new_category "8" [1; 1; 1; 1; 1; 1; 1; 1]); (new_category "9" [1; 1; 1; 1; 1; 1; 1; 1; 1])] in t <- new_tree cats (SList [(SInt 6); (SList [(SInt 8); SNone])]) ;; l <- Ok (largest_categories cats t) ;; Ok (snd l)) ;; Ok ((fun x => x) x)) = Ok [8]%nat.
Proof. vm_compute. reflexivity. Qed.
Example recipetree_355 : (x <- (let cats := [(new_category "0" []); (new_category "1" [1]); (new_category "2" [1; 1]); (new_category "3" [1; 1; 1]); (new_category "4" [1; 1; 1; 1]); (new_category "5" [1; 1; 1; 1; 1]); (new_category "6" [1; 1; 1; 1; 1; 1]); (new_category "7" [1; 1; 1; 1; 1; 1; 1]); (new_category "8" [1; 1; 1; 1; 1; 1; 1; 1]); (new_category "9" [1; 1; 1; 1; 1; 1; 1; 1; 1])] in t <- new_tree cats (SList [(SInt 8); (SList [(SInt 6); SNone])]) ;; l <- Ok (largest_categories cats t) ;; Ok (snd l)) ;; Ok ((fun x => x) x)) = Ok [8]%nat.
Proof. vm_compute. reflexivity. Qed.
Example recipetree_357 : (x <- (let cats := [(new_category "0" []); (new_category "1" [1]); (new_category "2" [1; 1]); (new_category "3" [1; 1; 1]); (new_category "4" [1; 1; 1; 1]); (new_category "5" [1; 1; 1; 1; 1]); (new_category "6" [1; 1; 1; 1; 1; 1]); (new_category "7" [1; 1; 1; 1; 1; 1; 1]); (new_category "8" [1; 1; 1; 1; 1; 1; 1; 1]); (new_category "9" [1; 1; 1; 1; 1; 1; 1; 1; 1])] in t <- new_tree cats (SList [(SInt 6); (SList [(SInt 8); (SList [(SInt 7); SNone])])]) ;; l <- Ok (largest_categories cats t) ;; Ok (snd l)) ;; Ok ((fun x => x) x)) = Ok [8]%nat.
Proof. vm_compute. reflexivity. Qed.
Example recipetree_359 : (x <- (let cats := [(new_category "0" []); (new_category "1" [1]); (new_category "2" [1; 1]); (new_category "3" [1; 1; 1]); (new_category "4" [1; 1; 1; 1]); (new_category "5" [1; 1; 1; 1; 1]); (new_category "6" [1; 1; 1; 1; 1; 1]); (new_category "7" [1; 1; 1; 1; 1; 1; 1]); (new_category "8" [1; 1; 1; 1; 1; 1; 1; 1]); (new_category "9" [1; 1; 1; 1; 1; 1; 1; 1; 1])] in t <- new_tree cats (SList [(SInt 7); (SList [(SInt 8); (SList [(SInt 6); SNone])])]) ;; l <- Ok (largest_categories cats t) ;; Ok (snd l)) ;; Ok (negb (eqb_list Nat.eqb x [6]%nat))) = Ok true.
Proof. vm_compute. reflexivity. Qed.
Example recipetree_361 : (x <- (let cats := [(new_category "0" []); (new_category "1" [1]); (new_category "2" [1; 1]); (new_category "3" [1; 1; 1]); (new_category "4" [1; 1; 1; 1]); (new_category "5" [1; 1; 1; 1; 1]); (new_category "6" [1; 1; 1; 1; 1; 1]); (new_category "7" [1; 1; 1; 1; 1; 1; 1]); (new_category "8" [1; 1; 1; 1; 1; 1; 1; 1]); (new_category "9" [1; 1; 1; 1; 1; 1; 1; 1; 1])] in t <- new_tree cats (SList [(SInt 7); (SList [(SInt 8); (SList [(SInt 5); (SList [(SInt 6); SNone])])])]) ;; l <- Ok (largest_categories cats t) ;; Ok (snd l)) ;; Ok (negb (eqb_list Nat.eqb x [5]%nat))) = Ok true.
Proof. vm_compute. reflexivity. Qed.
Example recipetree_363 : (x <- (let cats := [(new_category "0" []); (new_category "1" [1]); (new_category "2" [1; 1]); (new_category "3" [1; 1; 1]); (new_category "4" [1; 1; 1; 1]); (new_category "5" [1; 1; 1; 1; 1]); (new_category "6" [1; 1; 1; 1; 1; 1]); (new_category "7" [1; 1; 1; 1; 1; 1; 1]); (new_category "8" [1; 1; 1; 1; 1; 1; 1; 1]); (new_category "9" [1; 1; 1; 1; 1; 1; 1; 1; 1])] in t <- new_tree cats (SList [(SInt 6); (SList [(SInt 3); SNone; (SInt 4); (SList [(SInt 2); SNone])])]) ;; l <- Ok (largest_categories cats t) ;; Ok (snd l)) ;; Ok ((fun x => x) x)) = Ok [3; 4]%nat.
Proof. vm_compute. reflexivity. Qed.
Example recipetree_365 : (x <- (let cats := [(new_category "0" []); (new_category "1" [1]); (new_category "2" [1; 1]); (new_category "3" [1; 1; 1]); (new_category "4" [1; 1; 1; 1]); (new_category "5" [1; 1; 1; 1; 1]); (new_category "6" [1; 1; 1; 1; 1; 1]); (new_category "7" [1; 1; 1; 1; 1; 1; 1]); (new_category "8" [1; 1; 1; 1; 1; 1; 1; 1]); (new_category "9" [1; 1; 1; 1; 1; 1; 1; 1; 1])] in t <- new_tree cats (SList [(SInt 6); (SList [(SInt 3); SNone; (SInt 2); (SList [(SInt 4); SNone])])]) ;; l <- Ok (largest_categories cats t) ;; Ok (snd l)) ;; Ok ((fun x => x) x)) = Ok [6]%nat.
Proof. vm_compute. reflexivity. Qed.
Example recipetree_367 : (x <- (let cats := [(new_category "0" []); (new_category "1" [1]); (new_category "2" [1; 1]); (new_category "3" [1; 1; 1]); (new_category "4" [1; 1; 1; 1]); (new_category "5" [1; 1; 1; 1; 1]); (new_category "6" [1; 1; 1; 1; 1; 1]); (new_category "7" [1; 1; 1; 1; 1; 1; 1]); (new_category "8" [1; 1; 1; 1; 1; 1; 1; 1]); (new_category "9" [1; 1; 1; 1; 1; 1; 1; 1; 1])] in t <- new_tree cats (SList [(SInt 6); (SList [(SInt 3); SNone; (SInt 7); (SList [(SInt 5); SNone])])]) ;; l <- Ok (largest_categories cats t) ;; Ok (snd l)) ;; Ok ((fun x => x) x)) = Ok [3; 7]%nat.
Proof. vm_compute. reflexivity. Qed.
Example recipetree_369 : (x <- (let cats := [(new_category "0" []); (new_category "1" [1]); (new_category "2" [1; 1]); (new_category "3" [1; 1; 1]); (new_category "4" [1; 1; 1; 1]); (new_category "5" [1; 1; 1; 1; 1]); (new_category "6" [1; 1; 1; 1; 1; 1]); (new_category "7" [1; 1; 1; 1; 1; 1; 1]); (new_category "8" [1; 1; 1; 1; 1; 1; 1; 1]); (new_category "9" [1; 1; 1; 1; 1; 1; 1; 1; 1])] in t <- new_tree cats (SList [(SInt 6); (SList [(SInt 3); SNone; (SInt 5); (SList [(SInt 7); SNone])])]) ;; l <- Ok (largest_categories cats t) ;; Ok (snd l)) ;; Ok ((fun x => x) x)) = Ok [3; 7]%nat.
Proof. vm_compute. reflexivity. Qed.
Example recipetree_371 : (x <- (let cats := [(new_category "0" []); (new_category "1" [1]); (new_category "2" [1; 1]); (new_category "3" [1; 1; 1]); (new_category "4" [1; 1; 1; 1]); (new_category "5" [1; 1; 1; 1; 1]); (new_category "6" [1; 1; 1; 1; 1; 1]); (new_category "7" [1; 1; 1; 1; 1; 1; 1]); (new_category "8" [1; 1; 1; 1; 1; 1; 1; 1]); (new_category "9" [1; 1; 1; 1; 1; 1; 1; 1; 1])] in t <- new_tree cats (SList [(SInt 5); (SList [(SInt 6); (SList [(SInt 4); SNone]); (SInt 4); (SList [(SInt 6); SNone])])]) ;; l <- Ok (largest_categories cats t) ;; Ok (snd l)) ;; Ok ((fun x => x) x)) = Ok [6; 6]%nat.
Proof. vm_compute. reflexivity. Qed.
Example recipetree_373 : (x <- (let cats := [(new_category "0" []); (new_category "1" [1]); (new_category "2" [1; 1]); (new_category "3" [1; 1; 1]); (new_category "4" [1; 1; 1; 1]); (new_category "5" [1; 1; 1; 1; 1]); (new_category "6" [1; 1; 1; 1; 1; 1]); (new_category "7" [1; 1; 1; 1; 1; 1; 1]); (new_category "8" [1; 1; 1; 1; 1; 1; 1; 1]); (new_category "9" [1; 1; 1; 1; 1; 1; 1; 1; 1])] in t <- new_tree cats (SList [(SInt 7); (SList [(SInt 6); (SList [(SInt 4); SNone]); (SInt 4); (SList [(SInt 6); SNone])])]) ;; l <- Ok (largest_categories cats t) ;; Ok (snd l)) ;; Ok ((fun x => x) x)) = Ok [6; 6]%nat.
Proof. vm_compute. reflexivity. Qed.
Example recipetree_375 : (x <- (let cats := [(new_category "0" []); (new_category "1" [1]); (new_category "2" [1; 1]); (new_category "3" [1; 1; 1]); (new_category "4" [1; 1; 1; 1]); (new_category "5" [1; 1; 1; 1; 1]); (new_category "6" [1; 1; 1; 1; 1; 1]); (new_category "7" [1; 1; 1; 1; 1; 1; 1]); (new_category "8" [1; 1; 1; 1; 1; 1; 1; 1]); (new_category "9" [1; 1; 1; 1; 1; 1; 1; 1; 1])] in t <- new_tree cats (SList [(SInt 8); (SList [(SInt 6); (SList [(SInt 4); SNone]); (SInt 4); (SList [(SInt 6); SNone])])]) ;; l <- Ok (largest_categories cats t) ;; Ok (snd l)) ;; Ok ((fun x => x) x)) = Ok [6; 6]%nat.
Proof. vm_compute. reflexivity. Qed.
Example recipetree_377 : (x <- (let cats := [(new_category "0" []); (new_category "1" [1]); (new_category "2" [1; 1]); (new_category "3" [1; 1; 1]); (new_category "4" [1; 1; 1; 1]); (new_category "5" [1; 1; 1; 1; 1]); (new_category "6" [1; 1; 1; 1; 1; 1]); (new_category "7" [1; 1; 1; 1; 1; 1; 1]); (new_category "8" [1; 1; 1; 1; 1; 1; 1; 1]); (new_category "9" [1; 1; 1; 1; 1; 1; 1; 1; 1])] in t <- new_tree cats (SList [(SInt 9); (SList [(SInt 6); (SList [(SInt 4); SNone]); (SInt 4); (SList [(SInt 6); SNone])])]) ;; l <- Ok (largest_categories cats t) ;; Ok (snd l)) ;; Ok ((fun x => x) x)) = Ok [6; 6]%nat.
Proof. vm_compute. reflexivity. Qed.
Example recipetree_379 : (let cats := [(new_category "0" []); (new_category "1" [1]); (new_category "2" [1; 1]); (new_category "3" [1; 1; 1]); (new_category "4" [1; 1; 1; 1]); (new_category "5" [1; 1; 1; 1; 1]); (new_category "6" [1; 1; 1; 1; 1; 1]); (new_category "7" [1; 1; 1; 1; 1; 1; 1]); (new_category "8" [1; 1; 1; 1; 1; 1; 1; 1]); (new_category "9" [1; 1; 1; 1; 1; 1; 1; 1; 1])] in t <- new_tree cats (SList [(SInt 6); (SList [(SInt 0); SNone; (SInt 6); SNone])]) ;; l <- Ok (largest_categories cats t) ;; Ok l) = Ok (6%nat, 6%nat, [0; 6]%nat).
Proof. vm_compute. reflexivity. Qed.
Example recipetree_381 : (let cats := [(new_category "0" []); (new_category "1" [1]); (new_category "2" [1; 1]); (new_category "3" [1; 1; 1]); (new_category "4" [1; 1; 1; 1]); (new_category "5" [1; 1; 1; 1; 1]); (new_category "6" [1; 1; 1; 1; 1; 1]); (new_category "7" [1; 1; 1; 1; 1; 1; 1]); (new_category "8" [1; 1; 1; 1; 1; 1; 1; 1]); (new_category "9" [1; 1; 1; 1; 1; 1; 1; 1; 1])] in t <- new_tree cats (SList [(SInt 6); (SList [(SInt 6); SNone; (SInt 0); SNone])]) ;; l <- Ok (largest_categories cats t) ;; Ok l) = Ok (6%nat, 6%nat, [6; 0]%nat).
Proof. vm_compute. reflexivity. Qed.
Example recipetree_386 : (x <- (let cats := [(new_category "0" [22; 11]); (new_category "1" [22; 11]); (new_category "2" [22; 11]); (new_category "3" [22; 11]); (new_category "4" [22; 11]); (new_category "5" [22; 11]); (new_category "6" [22; 11]); (new_category "7" [22; 11]); (new_category "8" [22; 11]); (new_category "9" [22; 11])] in t <- new_tree cats (SList [(SInt 0); (SList [(SInt 1); (SList [(SInt 2); (SList [(SInt 3); (SList [(SInt 4); SNone])])])])]) ;; l <- Ok (largest_categories cats t) ;; Ok (snd l)) ;; Ok ((fun x => x) x)) = Ok [4]%nat.
Proof. vm_compute. reflexivity. Qed.
Example recipetree_389 : (x <- (let cats := [(new_category "0" [22; 11]); (new_category "1" [22; 11]); (new_category "2" [22; 11]); (new_category "3" [22; 11]); (mkCat "4" [22]); (new_category "5" [22; 11]); (new_category "6" [22; 11]); (new_category "7" [22; 11]); (new_category "8" [22; 11]); (new_category "9" [22; 11])] in t <- new_tree cats (SList [(SInt 0); (SList [(SInt 1); (SList [(SInt 2); (SList [(SInt 3); (SList [(SInt 4); SNone])])])])]) ;; l <- Ok (largest_categories cats t) ;; Ok (snd l)) ;; Ok ((fun x => x) x)) = Ok [3]%nat.
Proof. vm_compute. reflexivity. Qed.
Example recipetree_392 : (x <- (let cats := [(new_category "0" [22; 11]); (new_category "1" [22; 11]); (new_category "2" [22; 11]); (mkCat "3" [22]); (mkCat "4" [22]); (new_category "5" [22; 11]); (new_category "6" [22; 11]); (new_category "7" [22; 11]); (new_category "8" [22; 11]); (new_category "9" [22; 11])] in t <- new_tree cats (SList [(SInt 0); (SList [(SInt 1); (SList [(SInt 2); (SList [(SInt 3); (SList [(SInt 4); SNone])])])])]) ;; l <- Ok (largest_categories cats t) ;; Ok (snd l)) ;; Ok ((fun x => x) x)) = Ok [2]%nat.
Proof. vm_compute. reflexivity. Qed.
Example recipetree_395 : (x <- (let cats := [(new_category "0" [22; 11]); (new_category "1" [22; 11]); (mkCat "2" [22]); (mkCat "3" [22]); (mkCat "4" [22]); (new_category "5" [22; 11]); (new_category "6" [22; 11]); (new_category "7" [22; 11]); (new_category "8" [22; 11]); (new_category "9" [22; 11])] in t <- new_tree cats (SList [(SInt 0); (SList [(SInt 1); (SList [(SInt 2); (SList [(SInt 3); (SList [(SInt 4); SNone])])])])]) ;; l <- Ok (largest_categories cats t) ;; Ok (snd l)) ;; Ok ((fun x => x) x)) = Ok [1]%nat.
Proof. vm_compute. reflexivity. Qed.
Example recipetree_398 : (x <- (let cats := [(new_category "0" [22; 11]); (mkCat "1" [22]); (mkCat "2" [22]); (mkCat "3" [22]); (mkCat "4" [22]); (new_category "5" [22; 11]); (new_category "6" [22; 11]); (new_category "7" [22; 11]); (new_category "8" [22; 11]); (new_category "9" [22; 11])] in t <- new_tree cats (SList [(SInt 0); (SList [(SInt 1); (SList [(SInt 2); (SList [(SInt 3); (SList [(SInt 4); SNone])])])])]) ;; l <- Ok (largest_categories cats t) ;; Ok (snd l)) ;; Ok ((fun x => x) x)) = Ok [0]%nat.
Proof. vm_compute. reflexivity. Qed.
Example recipetree_401 : (x <- (let cats := [(mkCat "0" [22]); (mkCat "1" [22]); (mkCat "2" [22]); (mkCat "3" [22]); (mkCat "4" [22]); (new_category "5" [22; 11]); (new_category "6" [22; 11]); (new_category "7" [22; 11]); (new_category "8" [22; 11]); (new_category "9" [22; 11])] in t <- new_tree cats (SList [(SInt 0); (SList [(SInt 1); (SList [(SInt 2); (SList [(SInt 3); (SList [(SInt 4); SNone])])])])]) ;; l <- Ok (largest_categories cats t) ;; Ok (snd l)) ;; Ok ((fun x => x) x)) = Ok [4]%nat.
Proof. vm_compute. reflexivity. Qed.

(** ** recipetree_integer.py *)

Example int_tree_42 : (x <- (let cats := [(new_category "buyer" [60; 40; 20; (-30)]); (new_category "seller" [(-10); (-30); (-50)]); (new_category "producerA" [(-1); (-3); (-5)]); (new_category "producerB" [(-2); (-4); (-6); (-8)])] in t <- new_int_tree cats []%nat (SList [(SInt 0); SNone]) ;; Ok (combined_sets cats []%nat t)) ;; Ok ((fun l => map (map Qred) l) x)) = Ok [[60]; [40]; [20]; [(-30)]].
Proof. vm_compute. reflexivity. Qed.
Example int_tree_44 : (x <- (let cats := [(new_category "buyer" [60; 40; 20; (-30)]); (new_category "seller" [(-10); (-30); (-50)]); (new_category "producerA" [(-1); (-3); (-5)]); (new_category "producerB" [(-2); (-4); (-6); (-8)])] in t <- new_int_tree cats []%nat (SList [(SInt 0); SNone]) ;; Ok (detailed_sets cats []%nat t)) ;; Ok ((fun l => map (map Qred) l) x)) = Ok [[60]; [40]; [20]; [(-30)]].
Proof. vm_compute. reflexivity. Qed.
Example int_tree_46 : (x <- (let cats := [(new_category "buyer" [60; 40; 20; (-30)]); (new_category "seller" [(-10); (-30); (-50)]); (new_category "producerA" [(-1); (-3); (-5)]); (new_category "producerB" [(-2); (-4); (-6); (-8)])] in t <- new_int_tree cats []%nat (SList [(SInt 0); SNone]) ;; int_counted_groups cats []%nat t) ;; Ok ((fun l => map (map Qred) l) x)) = Ok [[60]; [40]; [20]; [(-30)]].
Proof. vm_compute. reflexivity. Qed.
Example int_tree_48 : (x <- (let cats := [(new_category "buyer" [60; 40; 20; (-30)]); (new_category "seller" [(-10); (-30); (-50)]); (new_category "producerA" [(-1); (-3); (-5)]); (new_category "producerB" [(-2); (-4); (-6); (-8)])] in t <- new_int_tree cats []%nat (SList [(SInt 0); SNone]) ;; Ok (int_optimal_trade_GFT cats []%nat t)) ;; Ok (Qred x)) = Ok 120.
Proof. vm_compute. reflexivity. Qed.
Example int_tree_50 : (x <- (let cats := [(new_category "buyer" [60; 40; 20; (-30)]); (new_category "seller" [(-10); (-30); (-50)]); (new_category "producerA" [(-1); (-3); (-5)]); (new_category "producerB" [(-2); (-4); (-6); (-8)])] in t <- new_int_tree cats []%nat (SList [(SInt 0); SNone]) ;; l <- int_largest_categories cats []%nat t ;; Ok (map (fun i => cname (cat_at cats i)) (snd l))) ;; Ok ((fun x => x) x)) = Ok ["buyer"].
Proof. vm_compute. reflexivity. Qed.
Example int_tree_52 : (x <- (let cats := [(new_category "buyer" [60; 40; 20; (-30)]); (new_category "seller" [(-10); (-30); (-50)]); (new_category "producerA" [(-1); (-3); (-5)]); (new_category "producerB" [(-2); (-4); (-6); (-8)])] in t <- new_int_tree cats []%nat (SList [(SInt 0); SNone]) ;; Ok (paths_to_leaf_names cats t)) ;; Ok ((fun x => x) x)) = Ok [["buyer"]].
Proof. vm_compute. reflexivity. Qed.
Example int_tree_54 : (x <- (let cats := [(new_category "buyer" [60; 40; 20; (-30)]); (new_category "seller" [(-10); (-30); (-50)]); (new_category "producerA" [(-1); (-3); (-5)]); (new_category "producerB" [(-2); (-4); (-6); (-8)])] in t <- new_int_tree cats []%nat (SList [(SInt 0); SNone]) ;; int_num_of_deals cats []%nat t) ;; Ok ((fun x => x) x)) = Ok 4%nat.
Proof. vm_compute. reflexivity. Qed.
Example int_tree_56 : (let cats := [(new_category "buyer" [60; 40; 20; (-30)]); (new_category "seller" [(-10); (-30); (-50)]); (new_category "producerA" [(-1); (-3); (-5)]); (new_category "producerB" [(-2); (-4); (-6); (-8)])] in t <- new_int_tree cats []%nat (SList [(SInt 0); SNone]) ;; r <- int_explained show_int cats []%nat [1; 2; 3; 4] true t ;; Ok (snd (fst (fst r)))) = Ok (lines ["buyer: 4 potential deals, price=1"; "4 deals overall"]).
Proof. vm_compute. reflexivity. Qed.
Example int_tree_62 : (x <- (let cats := [(new_category "buyer" [60; 40; 20; (-30)]); (new_category "seller" [(-10); (-30); (-50)]); (new_category "producerA" [(-1); (-3); (-5)]); (new_category "producerB" [(-2); (-4); (-6); (-8)])] in t <- new_int_tree cats [2; 1; 1; 2]%nat (SList [(SInt 0); SNone]) ;; Ok (combined_sets cats [2; 1; 1; 2]%nat t)) ;; Ok ((fun l => map (map Qred) l) x)) = Ok [[60; 40]; [20; (-30)]].
Proof. vm_compute. reflexivity. Qed.
Example int_tree_64 : (x <- (let cats := [(new_category "buyer" [60; 40; 20; (-30)]); (new_category "seller" [(-10); (-30); (-50)]); (new_category "producerA" [(-1); (-3); (-5)]); (new_category "producerB" [(-2); (-4); (-6); (-8)])] in t <- new_int_tree cats [2; 1; 1; 2]%nat (SList [(SInt 0); SNone]) ;; Ok (detailed_sets cats [2; 1; 1; 2]%nat t)) ;; Ok ((fun l => map (map Qred) l) x)) = Ok [[60; 40]; [20; (-30)]].
Proof. vm_compute. reflexivity. Qed.
Example int_tree_66 : (x <- (let cats := [(new_category "buyer" [60; 40; 20; (-30)]); (new_category "seller" [(-10); (-30); (-50)]); (new_category "producerA" [(-1); (-3); (-5)]); (new_category "producerB" [(-2); (-4); (-6); (-8)])] in t <- new_int_tree cats [2; 1; 1; 2]%nat (SList [(SInt 0); SNone]) ;; int_counted_groups cats [2; 1; 1; 2]%nat t) ;; Ok ((fun l => map (map Qred) l) x)) = Ok [[60; 40]; [20; (-30)]].
Proof. vm_compute. reflexivity. Qed.
Example int_tree_68 : (x <- (let cats := [(new_category "buyer" [60; 40; 20; (-30)]); (new_category "seller" [(-10); (-30); (-50)]); (new_category "producerA" [(-1); (-3); (-5)]); (new_category "producerB" [(-2); (-4); (-6); (-8)])] in t <- new_int_tree cats [2; 1; 1; 2]%nat (SList [(SInt 0); SNone]) ;; Ok (int_optimal_trade_GFT cats [2; 1; 1; 2]%nat t)) ;; Ok (Qred x)) = Ok 100.
Proof. vm_compute. reflexivity. Qed.
Example int_tree_70 : (x <- (let cats := [(new_category "buyer" [60; 40; 20; (-30)]); (new_category "seller" [(-10); (-30); (-50)]); (new_category "producerA" [(-1); (-3); (-5)]); (new_category "producerB" [(-2); (-4); (-6); (-8)])] in t <- new_int_tree cats [2; 1; 1; 2]%nat (SList [(SInt 0); SNone]) ;; l <- int_largest_categories cats [2; 1; 1; 2]%nat t ;; Ok (map (fun i => cname (cat_at cats i)) (snd l))) ;; Ok ((fun x => x) x)) = Ok ["buyer"].
Proof. vm_compute. reflexivity. Qed.
Example int_tree_72 : (x <- (let cats := [(new_category "buyer" [60; 40; 20; (-30)]); (new_category "seller" [(-10); (-30); (-50)]); (new_category "producerA" [(-1); (-3); (-5)]); (new_category "producerB" [(-2); (-4); (-6); (-8)])] in t <- new_int_tree cats [2; 1; 1; 2]%nat (SList [(SInt 0); SNone]) ;; Ok (paths_to_leaf_names cats t)) ;; Ok ((fun x => x) x)) = Ok [["buyer"]].
Proof. vm_compute. reflexivity. Qed.
Example int_tree_74 : (x <- (let cats := [(new_category "buyer" [60; 40; 20; (-30)]); (new_category "seller" [(-10); (-30); (-50)]); (new_category "producerA" [(-1); (-3); (-5)]); (new_category "producerB" [(-2); (-4); (-6); (-8)])] in t <- new_int_tree cats [2; 1; 1; 2]%nat (SList [(SInt 0); SNone]) ;; int_num_of_deals cats [2; 1; 1; 2]%nat t) ;; Ok ((fun x => x) x)) = Ok 2%nat.
Proof. vm_compute. reflexivity. Qed.
Example int_tree_76 : (let cats := [(new_category "buyer" [60; 40; 20; (-30)]); (new_category "seller" [(-10); (-30); (-50)]); (new_category "producerA" [(-1); (-3); (-5)]); (new_category "producerB" [(-2); (-4); (-6); (-8)])] in t <- new_int_tree cats [2; 1; 1; 2]%nat (SList [(SInt 0); SNone]) ;; r <- int_explained show_int cats [2; 1; 1; 2]%nat [1; 2; 3; 4] true t ;; Ok (snd (fst (fst r)))) = Ok (lines ["buyer: 2 potential deals, price=1"; "2 deals overall"]).
Proof. vm_compute. reflexivity. Qed.
Example int_tree_82 : (x <- (let cats := [(new_category "buyer" [60; 40; 20; (-30)]); (new_category "seller" [(-10); (-30); (-50)]); (new_category "producerA" [(-1); (-3); (-5)]); (new_category "producerB" [(-2); (-4); (-6); (-8)])] in t <- new_int_tree cats []%nat (SList [(SInt 0); (SList [(SInt 1); SNone])]) ;; Ok (combined_sets cats []%nat t)) ;; Ok ((fun l => map (map Qred) l) x)) = Ok [[60; (-10)]; [40; (-30)]; [20; (-50)]].
Proof. vm_compute. reflexivity. Qed.
Example int_tree_84 : (x <- (let cats := [(new_category "buyer" [60; 40; 20; (-30)]); (new_category "seller" [(-10); (-30); (-50)]); (new_category "producerA" [(-1); (-3); (-5)]); (new_category "producerB" [(-2); (-4); (-6); (-8)])] in t <- new_int_tree cats []%nat (SList [(SInt 0); (SList [(SInt 1); SNone])]) ;; Ok (detailed_sets cats []%nat t)) ;; Ok ((fun l => map (map Qred) l) x)) = Ok [[60; (-10)]; [40; (-30)]; [20; (-50)]].
Proof. vm_compute. reflexivity. Qed.
Example int_tree_86_raises : (let cats := [(new_category "buyer" [60; 40; 20; (-30)]); (new_category "seller" [(-10); (-30); (-50)]); (new_category "producerA" [(-1); (-3); (-5)]); (new_category "producerB" [(-2); (-4); (-6); (-8)])] in t <- new_int_tree cats []%nat (SList [(SInt 0); (SList [(SInt 1); SNone])]) ;; int_counted_groups cats []%nat t) = Raise TypeError.
Proof. vm_compute. reflexivity. Qed.
Example int_tree_88 : (x <- (let cats := [(new_category "buyer" [60; 40; 20; (-30)]); (new_category "seller" [(-10); (-30); (-50)]); (new_category "producerA" [(-1); (-3); (-5)]); (new_category "producerB" [(-2); (-4); (-6); (-8)])] in t <- new_int_tree cats []%nat (SList [(SInt 0); (SList [(SInt 1); SNone])]) ;; Ok (int_optimal_trade_GFT cats []%nat t)) ;; Ok (Qred x)) = Ok 60.
Proof. vm_compute. reflexivity. Qed.
Example int_tree_90 : (x <- (let cats := [(new_category "buyer" [60; 40; 20; (-30)]); (new_category "seller" [(-10); (-30); (-50)]); (new_category "producerA" [(-1); (-3); (-5)]); (new_category "producerB" [(-2); (-4); (-6); (-8)])] in t <- new_int_tree cats []%nat (SList [(SInt 0); (SList [(SInt 1); SNone])]) ;; l <- int_largest_categories cats []%nat t ;; Ok (map (fun i => cname (cat_at cats i)) (snd l))) ;; Ok ((fun x => x) x)) = Ok ["buyer"].
Proof. vm_compute. reflexivity. Qed.
Example int_tree_92 : (x <- (let cats := [(new_category "buyer" [60; 40; 20; (-30)]); (new_category "seller" [(-10); (-30); (-50)]); (new_category "producerA" [(-1); (-3); (-5)]); (new_category "producerB" [(-2); (-4); (-6); (-8)])] in t <- new_int_tree cats []%nat (SList [(SInt 0); (SList [(SInt 1); SNone])]) ;; Ok (paths_to_leaf_names cats t)) ;; Ok ((fun x => x) x)) = Ok [["buyer"; "seller"]].
Proof. vm_compute. reflexivity. Qed.
Example int_tree_94 : (x <- (let cats := [(new_category "buyer" [60; 40; 20; (-30)]); (new_category "seller" [(-10); (-30); (-50)]); (new_category "producerA" [(-1); (-3); (-5)]); (new_category "producerB" [(-2); (-4); (-6); (-8)])] in t <- new_int_tree cats []%nat (SList [(SInt 0); (SList [(SInt 1); SNone])]) ;; int_num_of_deals cats []%nat t) ;; Ok ((fun x => x) x)) = Ok 3%nat.
Proof. vm_compute. reflexivity. Qed.
Example int_tree_96 : (let cats := [(new_category "buyer" [60; 40; 20; (-30)]); (new_category "seller" [(-10); (-30); (-50)]); (new_category "producerA" [(-1); (-3); (-5)]); (new_category "producerB" [(-2); (-4); (-6); (-8)])] in t <- new_int_tree cats []%nat (SList [(SInt 0); (SList [(SInt 1); SNone])]) ;; r <- int_explained show_int cats []%nat [1; 2; 3; 4] true t ;; Ok (snd (fst (fst r)))) = Ok (lines ["seller: 3 potential deals, price=2"; "buyer: 3 out of 4 traders selected, price=1"; "seller: all 3 deals selected"; "3 deals overall"]).
Proof. vm_compute. reflexivity. Qed.
Example int_tree_104 : (x <- (let cats := [(new_category "buyer" [60; 40; 20; (-30)]); (new_category "seller" [(-10); (-30); (-50)]); (new_category "producerA" [(-1); (-3); (-5)]); (new_category "producerB" [(-2); (-4); (-6); (-8)])] in t <- new_int_tree cats [1; 2; 1; 1]%nat (SList [(SInt 0); (SList [(SInt 1); SNone])]) ;; Ok (combined_sets cats [1; 2; 1; 1]%nat t)) ;; Ok ((fun l => map (map Qred) l) x)) = Ok [[60; (-10); (-30)]].
Proof. vm_compute. reflexivity. Qed.
Example int_tree_106 : (x <- (let cats := [(new_category "buyer" [60; 40; 20; (-30)]); (new_category "seller" [(-10); (-30); (-50)]); (new_category "producerA" [(-1); (-3); (-5)]); (new_category "producerB" [(-2); (-4); (-6); (-8)])] in t <- new_int_tree cats [1; 2; 1; 1]%nat (SList [(SInt 0); (SList [(SInt 1); SNone])]) ;; Ok (detailed_sets cats [1; 2; 1; 1]%nat t)) ;; Ok ((fun l => map (map Qred) l) x)) = Ok [[60; (-10); (-30)]].
Proof. vm_compute. reflexivity. Qed.
Example int_tree_108_raises : (let cats := [(new_category "buyer" [60; 40; 20; (-30)]); (new_category "seller" [(-10); (-30); (-50)]); (new_category "producerA" [(-1); (-3); (-5)]); (new_category "producerB" [(-2); (-4); (-6); (-8)])] in t <- new_int_tree cats [1; 2; 1; 1]%nat (SList [(SInt 0); (SList [(SInt 1); SNone])]) ;; int_counted_groups cats [1; 2; 1; 1]%nat t) = Raise TypeError.
Proof. vm_compute. reflexivity. Qed.
Example int_tree_110 : (x <- (let cats := [(new_category "buyer" [60; 40; 20; (-30)]); (new_category "seller" [(-10); (-30); (-50)]); (new_category "producerA" [(-1); (-3); (-5)]); (new_category "producerB" [(-2); (-4); (-6); (-8)])] in t <- new_int_tree cats [1; 2; 1; 1]%nat (SList [(SInt 0); (SList [(SInt 1); SNone])]) ;; Ok (int_optimal_trade_GFT cats [1; 2; 1; 1]%nat t)) ;; Ok (Qred x)) = Ok 20.
Proof. vm_compute. reflexivity. Qed.
Example int_tree_112 : (x <- (let cats := [(new_category "buyer" [60; 40; 20; (-30)]); (new_category "seller" [(-10); (-30); (-50)]); (new_category "producerA" [(-1); (-3); (-5)]); (new_category "producerB" [(-2); (-4); (-6); (-8)])] in t <- new_int_tree cats [1; 2; 1; 1]%nat (SList [(SInt 0); (SList [(SInt 1); SNone])]) ;; l <- int_largest_categories cats [1; 2; 1; 1]%nat t ;; Ok (map (fun i => cname (cat_at cats i)) (snd l))) ;; Ok ((fun x => x) x)) = Ok ["buyer"].
Proof. vm_compute. reflexivity. Qed.
Example int_tree_114 : (x <- (let cats := [(new_category "buyer" [60; 40; 20; (-30)]); (new_category "seller" [(-10); (-30); (-50)]); (new_category "producerA" [(-1); (-3); (-5)]); (new_category "producerB" [(-2); (-4); (-6); (-8)])] in t <- new_int_tree cats [1; 2; 1; 1]%nat (SList [(SInt 0); (SList [(SInt 1); SNone])]) ;; Ok (paths_to_leaf_names cats t)) ;; Ok ((fun x => x) x)) = Ok [["buyer"; "seller"]].
Proof. vm_compute. reflexivity. Qed.
Example int_tree_116 : (x <- (let cats := [(new_category "buyer" [60; 40; 20; (-30)]); (new_category "seller" [(-10); (-30); (-50)]); (new_category "producerA" [(-1); (-3); (-5)]); (new_category "producerB" [(-2); (-4); (-6); (-8)])] in t <- new_int_tree cats [1; 2; 1; 1]%nat (SList [(SInt 0); (SList [(SInt 1); SNone])]) ;; int_num_of_deals cats [1; 2; 1; 1]%nat t) ;; Ok ((fun x => x) x)) = Ok 1%nat.
Proof. vm_compute. reflexivity. Qed.
Example int_tree_118 : (let cats := [(new_category "buyer" [60; 40; 20; (-30)]); (new_category "seller" [(-10); (-30); (-50)]); (new_category "producerA" [(-1); (-3); (-5)]); (new_category "producerB" [(-2); (-4); (-6); (-8)])] in t <- new_int_tree cats [1; 2; 1; 1]%nat (SList [(SInt 0); (SList [(SInt 1); SNone])]) ;; r <- int_explained show_int cats [1; 2; 1; 1]%nat [1; 2; 3; 4] true t ;; Ok (snd (fst (fst r)))) = Ok (lines ["seller: 1 potential deals, price=2"; "buyer: 1 out of 4 traders selected, price=1"; "seller: all 1 deals selected"; "1 deals overall"]).
Proof. vm_compute. reflexivity. Qed.
Example int_tree_126 : (x <- (let cats := [(new_category "buyer" [60; 40; 20; (-30)]); (new_category "seller" [(-10); (-30); (-50)]); (new_category "producerA" [(-1); (-3); (-5)]); (new_category "producerB" [(-2); (-4); (-6); (-8)])] in t <- new_int_tree cats []%nat (SList [(SInt 0); (SList [(SInt 2); SNone; (SInt 3); SNone])]) ;; Ok (combined_sets cats []%nat t)) ;; Ok ((fun l => map (map Qred) l) x)) = Ok [[60; (-1)]; [40; (-2)]; [20; (-3)]; [(-30); (-4)]].
Proof. vm_compute. reflexivity. Qed.
Example int_tree_128 : (x <- (let cats := [(new_category "buyer" [60; 40; 20; (-30)]); (new_category "seller" [(-10); (-30); (-50)]); (new_category "producerA" [(-1); (-3); (-5)]); (new_category "producerB" [(-2); (-4); (-6); (-8)])] in t <- new_int_tree cats []%nat (SList [(SInt 0); (SList [(SInt 2); SNone; (SInt 3); SNone])]) ;; Ok (detailed_sets cats []%nat t)) ;; Ok ((fun l => map (map Qred) l) x)) = Ok [[60; (-1)]; [40; (-2)]; [20; (-3)]; [(-30); (-4)]].
Proof. vm_compute. reflexivity. Qed.
Example int_tree_130_raises : (let cats := [(new_category "buyer" [60; 40; 20; (-30)]); (new_category "seller" [(-10); (-30); (-50)]); (new_category "producerA" [(-1); (-3); (-5)]); (new_category "producerB" [(-2); (-4); (-6); (-8)])] in t <- new_int_tree cats []%nat (SList [(SInt 0); (SList [(SInt 2); SNone; (SInt 3); SNone])]) ;; int_counted_groups cats []%nat t) = Raise TypeError.
Proof. vm_compute. reflexivity. Qed.
Example int_tree_132 : (x <- (let cats := [(new_category "buyer" [60; 40; 20; (-30)]); (new_category "seller" [(-10); (-30); (-50)]); (new_category "producerA" [(-1); (-3); (-5)]); (new_category "producerB" [(-2); (-4); (-6); (-8)])] in t <- new_int_tree cats []%nat (SList [(SInt 0); (SList [(SInt 2); SNone; (SInt 3); SNone])]) ;; Ok (int_optimal_trade_GFT cats []%nat t)) ;; Ok (Qred x)) = Ok 114.
Proof. vm_compute. reflexivity. Qed.
Example int_tree_134 : (x <- (let cats := [(new_category "buyer" [60; 40; 20; (-30)]); (new_category "seller" [(-10); (-30); (-50)]); (new_category "producerA" [(-1); (-3); (-5)]); (new_category "producerB" [(-2); (-4); (-6); (-8)])] in t <- new_int_tree cats []%nat (SList [(SInt 0); (SList [(SInt 2); SNone; (SInt 3); SNone])]) ;; l <- int_largest_categories cats []%nat t ;; Ok (map (fun i => cname (cat_at cats i)) (snd l))) ;; Ok ((fun x => x) x)) = Ok ["producerA"; "producerB"].
Proof. vm_compute. reflexivity. Qed.
Example int_tree_136 : (x <- (let cats := [(new_category "buyer" [60; 40; 20; (-30)]); (new_category "seller" [(-10); (-30); (-50)]); (new_category "producerA" [(-1); (-3); (-5)]); (new_category "producerB" [(-2); (-4); (-6); (-8)])] in t <- new_int_tree cats []%nat (SList [(SInt 0); (SList [(SInt 2); SNone; (SInt 3); SNone])]) ;; Ok (paths_to_leaf_names cats t)) ;; Ok ((fun x => x) x)) = Ok [["buyer"; "producerA"]; ["buyer"; "producerB"]].
Proof. vm_compute. reflexivity. Qed.
Example int_tree_138 : (x <- (let cats := [(new_category "buyer" [60; 40; 20; (-30)]); (new_category "seller" [(-10); (-30); (-50)]); (new_category "producerA" [(-1); (-3); (-5)]); (new_category "producerB" [(-2); (-4); (-6); (-8)])] in t <- new_int_tree cats []%nat (SList [(SInt 0); (SList [(SInt 2); SNone; (SInt 3); SNone])]) ;; int_recipes (length cats) []%nat t) ;; Ok ((fun x => x) x)) = Ok [[1; 0; 1; 0]; [1; 0; 0; 1]]%nat.
Proof. vm_compute. reflexivity. Qed.
Example int_tree_140 : (x <- (let cats := [(new_category "buyer" [60; 40; 20; (-30)]); (new_category "seller" [(-10); (-30); (-50)]); (new_category "producerA" [(-1); (-3); (-5)]); (new_category "producerB" [(-2); (-4); (-6); (-8)])] in t <- new_int_tree cats []%nat (SList [(SInt 0); (SList [(SInt 2); SNone; (SInt 3); SNone])]) ;; int_num_of_deals cats []%nat t) ;; Ok ((fun x => x) x)) = Ok 4%nat.
Proof. vm_compute. reflexivity. Qed.
Example int_tree_142 : (let cats := [(new_category "buyer" [60; 40; 20; (-30)]); (new_category "seller" [(-10); (-30); (-50)]); (new_category "producerA" [(-1); (-3); (-5)]); (new_category "producerB" [(-2); (-4); (-6); (-8)])] in t <- new_int_tree cats []%nat (SList [(SInt 0); (SList [(SInt 2); SNone; (SInt 3); SNone])]) ;; r <- int_explained show_int cats []%nat [1; 2; 3; 4] true t ;; Ok (snd (fst (fst r)))) = Ok (lines ["producerA: 3 potential deals, price=3"; "producerB: 4 potential deals, price=4"; "buyer: all 4 traders selected, price=1"; "producerA + producerB: 4 out of 7 deals selected"; "4 deals overall"]).
Proof. vm_compute. reflexivity. Qed.
Example int_tree_151 : (x <- (let cats := [(new_category "buyer" [60; 40; 20; (-30)]); (new_category "seller" [(-10); (-30); (-50)]); (new_category "producerA" [(-1); (-3); (-5)]); (new_category "producerB" [(-2); (-4); (-6); (-8)])] in t <- new_int_tree cats [1; 1; 2; 1]%nat (SList [(SInt 0); (SList [(SInt 2); SNone; (SInt 3); SNone])]) ;; Ok (combined_sets cats [1; 1; 2; 1]%nat t)) ;; Ok ((fun l => map (map Qred) l) x)) = Ok [[60; (-2)]; [40; (-1); (-3)]; [20; (-4)]; [(-30); (-6)]].
Proof. vm_compute. reflexivity. Qed.
Example int_tree_153 : (x <- (let cats := [(new_category "buyer" [60; 40; 20; (-30)]); (new_category "seller" [(-10); (-30); (-50)]); (new_category "producerA" [(-1); (-3); (-5)]); (new_category "producerB" [(-2); (-4); (-6); (-8)])] in t <- new_int_tree cats [1; 1; 2; 1]%nat (SList [(SInt 0); (SList [(SInt 2); SNone; (SInt 3); SNone])]) ;; Ok (detailed_sets cats [1; 1; 2; 1]%nat t)) ;; Ok ((fun l => map (map Qred) l) x)) = Ok [[60; (-2)]; [40; (-1); (-3)]; [20; (-4)]; [(-30); (-6)]].
Proof. vm_compute. reflexivity. Qed.
Example int_tree_155_raises : (let cats := [(new_category "buyer" [60; 40; 20; (-30)]); (new_category "seller" [(-10); (-30); (-50)]); (new_category "producerA" [(-1); (-3); (-5)]); (new_category "producerB" [(-2); (-4); (-6); (-8)])] in t <- new_int_tree cats [1; 1; 2; 1]%nat (SList [(SInt 0); (SList [(SInt 2); SNone; (SInt 3); SNone])]) ;; int_counted_groups cats [1; 1; 2; 1]%nat t) = Raise TypeError.
Proof. vm_compute. reflexivity. Qed.
Example int_tree_157 : (x <- (let cats := [(new_category "buyer" [60; 40; 20; (-30)]); (new_category "seller" [(-10); (-30); (-50)]); (new_category "producerA" [(-1); (-3); (-5)]); (new_category "producerB" [(-2); (-4); (-6); (-8)])] in t <- new_int_tree cats [1; 1; 2; 1]%nat (SList [(SInt 0); (SList [(SInt 2); SNone; (SInt 3); SNone])]) ;; Ok (int_optimal_trade_GFT cats [1; 1; 2; 1]%nat t)) ;; Ok (Qred x)) = Ok 110.
Proof. vm_compute. reflexivity. Qed.
Example int_tree_159 : (x <- (let cats := [(new_category "buyer" [60; 40; 20; (-30)]); (new_category "seller" [(-10); (-30); (-50)]); (new_category "producerA" [(-1); (-3); (-5)]); (new_category "producerB" [(-2); (-4); (-6); (-8)])] in t <- new_int_tree cats [1; 1; 2; 1]%nat (SList [(SInt 0); (SList [(SInt 2); SNone; (SInt 3); SNone])]) ;; l <- int_largest_categories cats [1; 1; 2; 1]%nat t ;; Ok (map (fun i => cname (cat_at cats i)) (snd l))) ;; Ok ((fun x => x) x)) = Ok ["producerA"; "producerB"].
Proof. vm_compute. reflexivity. Qed.
Example int_tree_161 : (x <- (let cats := [(new_category "buyer" [60; 40; 20; (-30)]); (new_category "seller" [(-10); (-30); (-50)]); (new_category "producerA" [(-1); (-3); (-5)]); (new_category "producerB" [(-2); (-4); (-6); (-8)])] in t <- new_int_tree cats [1; 1; 2; 1]%nat (SList [(SInt 0); (SList [(SInt 2); SNone; (SInt 3); SNone])]) ;; Ok (paths_to_leaf_names cats t)) ;; Ok ((fun x => x) x)) = Ok [["buyer"; "producerA"]; ["buyer"; "producerB"]].
Proof. vm_compute. reflexivity. Qed.
Example int_tree_163 : (x <- (let cats := [(new_category "buyer" [60; 40; 20; (-30)]); (new_category "seller" [(-10); (-30); (-50)]); (new_category "producerA" [(-1); (-3); (-5)]); (new_category "producerB" [(-2); (-4); (-6); (-8)])] in t <- new_int_tree cats [1; 1; 2; 1]%nat (SList [(SInt 0); (SList [(SInt 2); SNone; (SInt 3); SNone])]) ;; int_recipes (length cats) [1; 1; 2; 1]%nat t) ;; Ok ((fun x => x) x)) = Ok [[1; 0; 2; 0]; [1; 0; 0; 1]]%nat.
Proof. vm_compute. reflexivity. Qed.
Example int_tree_165 : (x <- (let cats := [(new_category "buyer" [60; 40; 20; (-30)]); (new_category "seller" [(-10); (-30); (-50)]); (new_category "producerA" [(-1); (-3); (-5)]); (new_category "producerB" [(-2); (-4); (-6); (-8)])] in t <- new_int_tree cats [1; 1; 2; 1]%nat (SList [(SInt 0); (SList [(SInt 2); SNone; (SInt 3); SNone])]) ;; int_num_of_deals cats [1; 1; 2; 1]%nat t) ;; Ok ((fun x => x) x)) = Ok 4%nat.
Proof. vm_compute. reflexivity. Qed.
Example int_tree_167 : (let cats := [(new_category "buyer" [60; 40; 20; (-30)]); (new_category "seller" [(-10); (-30); (-50)]); (new_category "producerA" [(-1); (-3); (-5)]); (new_category "producerB" [(-2); (-4); (-6); (-8)])] in t <- new_int_tree cats [1; 1; 2; 1]%nat (SList [(SInt 0); (SList [(SInt 2); SNone; (SInt 3); SNone])]) ;; r <- int_explained show_int cats [1; 1; 2; 1]%nat [1; 2; 3; 4] true t ;; Ok (snd (fst (fst r)))) = Ok (lines ["producerA: 1 potential deals, price=3"; "producerB: 4 potential deals, price=4"; "buyer: all 4 traders selected, price=1"; "producerA + producerB: 4 out of 5 deals selected"; "4 deals overall"]).
Proof. vm_compute. reflexivity. Qed.
Example int_tree_177 : (x <- (let cats := [(new_category "buyer" [60; 40; 20; (-30)]); (new_category "seller" [(-10); (-30); (-50)]); (new_category "producerA" [(-1); (-3); (-5)]); (new_category "producerB" [(-2); (-4); (-6); (-8)])] in t <- new_int_tree cats []%nat (SList [(SInt 0); (SList [(SInt 1); SNone; (SInt 2); (SList [(SInt 3); SNone])])]) ;; Ok (combined_sets cats []%nat t)) ;; Ok ((fun l => map (map Qred) l) x)) = Ok [[60; (-1); (-2)]; [40; (-3); (-4)]; [20; (-10)]; [(-30); (-5); (-6)]].
Proof. vm_compute. reflexivity. Qed.
Example int_tree_179 : (x <- (let cats := [(new_category "buyer" [60; 40; 20; (-30)]); (new_category "seller" [(-10); (-30); (-50)]); (new_category "producerA" [(-1); (-3); (-5)]); (new_category "producerB" [(-2); (-4); (-6); (-8)])] in t <- new_int_tree cats []%nat (SList [(SInt 0); (SList [(SInt 1); SNone; (SInt 2); (SList [(SInt 3); SNone])])]) ;; Ok (detailed_sets cats []%nat t)) ;; Ok ((fun l => map (map Qred) l) x)) = Ok [[60; (-1); (-2)]; [40; (-3); (-4)]; [20; (-10)]; [(-30); (-5); (-6)]].
Proof. vm_compute. reflexivity. Qed.
Example int_tree_181_raises : (let cats := [(new_category "buyer" [60; 40; 20; (-30)]); (new_category "seller" [(-10); (-30); (-50)]); (new_category "producerA" [(-1); (-3); (-5)]); (new_category "producerB" [(-2); (-4); (-6); (-8)])] in t <- new_int_tree cats []%nat (SList [(SInt 0); (SList [(SInt 1); SNone; (SInt 2); (SList [(SInt 3); SNone])])]) ;; int_counted_groups cats []%nat t) = Raise TypeError.
Proof. vm_compute. reflexivity. Qed.
Example int_tree_183 : (x <- (let cats := [(new_category "buyer" [60; 40; 20; (-30)]); (new_category "seller" [(-10); (-30); (-50)]); (new_category "producerA" [(-1); (-3); (-5)]); (new_category "producerB" [(-2); (-4); (-6); (-8)])] in t <- new_int_tree cats []%nat (SList [(SInt 0); (SList [(SInt 1); SNone; (SInt 2); (SList [(SInt 3); SNone])])]) ;; Ok (int_optimal_trade_GFT cats []%nat t)) ;; Ok (Qred x)) = Ok 100.
Proof. vm_compute. reflexivity. Qed.
Example int_tree_185 : (x <- (let cats := [(new_category "buyer" [60; 40; 20; (-30)]); (new_category "seller" [(-10); (-30); (-50)]); (new_category "producerA" [(-1); (-3); (-5)]); (new_category "producerB" [(-2); (-4); (-6); (-8)])] in t <- new_int_tree cats []%nat (SList [(SInt 0); (SList [(SInt 1); SNone; (SInt 2); (SList [(SInt 3); SNone])])]) ;; l <- int_largest_categories cats []%nat t ;; Ok (map (fun i => cname (cat_at cats i)) (snd l))) ;; Ok ((fun x => x) x)) = Ok ["seller"; "producerB"].
Proof. vm_compute. reflexivity. Qed.
Example int_tree_187 : (x <- (let cats := [(new_category "buyer" [60; 40; 20; (-30)]); (new_category "seller" [(-10); (-30); (-50)]); (new_category "producerA" [(-1); (-3); (-5)]); (new_category "producerB" [(-2); (-4); (-6); (-8)])] in t <- new_int_tree cats []%nat (SList [(SInt 0); (SList [(SInt 1); SNone; (SInt 2); (SList [(SInt 3); SNone])])]) ;; l <- int_largest_categories cats []%nat t ;; Ok (snd l)) ;; Ok ((fun x => x) x)) = Ok [1; 3]%nat.
Proof. vm_compute. reflexivity. Qed.
Example int_tree_189 : (x <- (let cats := [(new_category "buyer" [60; 40; 20; (-30)]); (new_category "seller" [(-10); (-30); (-50)]); (new_category "producerA" [(-1); (-3); (-5)]); (new_category "producerB" [(-2); (-4); (-6); (-8)])] in t <- new_int_tree cats []%nat (SList [(SInt 0); (SList [(SInt 1); SNone; (SInt 2); (SList [(SInt 3); SNone])])]) ;; Ok (paths_to_leaf_names cats t)) ;; Ok ((fun x => x) x)) = Ok [["buyer"; "seller"]; ["buyer"; "producerA"; "producerB"]].
Proof. vm_compute. reflexivity. Qed.
Example int_tree_191 : (x <- (let cats := [(new_category "buyer" [60; 40; 20; (-30)]); (new_category "seller" [(-10); (-30); (-50)]); (new_category "producerA" [(-1); (-3); (-5)]); (new_category "producerB" [(-2); (-4); (-6); (-8)])] in t <- new_int_tree cats []%nat (SList [(SInt 0); (SList [(SInt 1); SNone; (SInt 2); (SList [(SInt 3); SNone])])]) ;; Ok (paths_to_leaf t)) ;; Ok ((fun x => x) x)) = Ok [[0; 1]; [0; 2; 3]]%nat.
Proof. vm_compute. reflexivity. Qed.
Example int_tree_193 : (x <- (let cats := [(new_category "buyer" [60; 40; 20; (-30)]); (new_category "seller" [(-10); (-30); (-50)]); (new_category "producerA" [(-1); (-3); (-5)]); (new_category "producerB" [(-2); (-4); (-6); (-8)])] in t <- new_int_tree cats []%nat (SList [(SInt 0); (SList [(SInt 1); SNone; (SInt 2); (SList [(SInt 3); SNone])])]) ;; int_recipes (length cats) []%nat t) ;; Ok ((fun x => x) x)) = Ok [[1; 1; 0; 0]; [1; 0; 1; 1]]%nat.
Proof. vm_compute. reflexivity. Qed.
Example int_tree_195 : (x <- (let cats := [(new_category "buyer" [60; 40; 20; (-30)]); (new_category "seller" [(-10); (-30); (-50)]); (new_category "producerA" [(-1); (-3); (-5)]); (new_category "producerB" [(-2); (-4); (-6); (-8)])] in t <- new_int_tree cats []%nat (SList [(SInt 0); (SList [(SInt 1); SNone; (SInt 2); (SList [(SInt 3); SNone])])]) ;; int_num_of_deals cats []%nat t) ;; Ok ((fun x => x) x)) = Ok 4%nat.
Proof. vm_compute. reflexivity. Qed.
Example int_tree_197 : (let cats := [(new_category "buyer" [60; 40; 20; (-30)]); (new_category "seller" [(-10); (-30); (-50)]); (new_category "producerA" [(-1); (-3); (-5)]); (new_category "producerB" [(-2); (-4); (-6); (-8)])] in t <- new_int_tree cats []%nat (SList [(SInt 0); (SList [(SInt 1); SNone; (SInt 2); (SList [(SInt 3); SNone])])]) ;; r <- int_explained show_int cats []%nat [1; 2; 3; 4] true t ;; Ok (snd (fst (fst r)))) = Ok (lines ["seller: 3 potential deals, price=2"; "producerB: 4 potential deals, price=4"; "producerA: all 3 traders selected, price=3"; "producerB: 3 out of 4 deals selected"; "buyer: all 4 traders selected, price=1"; "seller + producerA: 4 out of 6 deals selected"; "4 deals overall"]).
Proof. vm_compute. reflexivity. Qed.
Example int_tree_208 : (x <- (let cats := [(new_category "buyer" [60; 40; 20; (-30)]); (new_category "seller" [(-10); (-30); (-50)]); (new_category "producerA" [(-1); (-3); (-5)]); (new_category "producerB" [(-2); (-4); (-6); (-8)])] in t <- new_int_tree cats [1; 2; 1; 2]%nat (SList [(SInt 0); (SList [(SInt 1); SNone; (SInt 2); (SList [(SInt 3); SNone])])]) ;; Ok (combined_sets cats [1; 2; 1; 2]%nat t)) ;; Ok ((fun l => map (map Qred) l) x)) = Ok [[60; (-1); (-2); (-4)]; [40; (-3); (-6); (-8)]; [20; (-10); (-30)]].
Proof. vm_compute. reflexivity. Qed.
Example int_tree_210 : (x <- (let cats := [(new_category "buyer" [60; 40; 20; (-30)]); (new_category "seller" [(-10); (-30); (-50)]); (new_category "producerA" [(-1); (-3); (-5)]); (new_category "producerB" [(-2); (-4); (-6); (-8)])] in t <- new_int_tree cats [1; 2; 1; 2]%nat (SList [(SInt 0); (SList [(SInt 1); SNone; (SInt 2); (SList [(SInt 3); SNone])])]) ;; Ok (detailed_sets cats [1; 2; 1; 2]%nat t)) ;; Ok ((fun l => map (map Qred) l) x)) = Ok [[60; (-1); (-2); (-4)]; [40; (-3); (-6); (-8)]; [20; (-10); (-30)]].
Proof. vm_compute. reflexivity. Qed.
Example int_tree_212_raises : (let cats := [(new_category "buyer" [60; 40; 20; (-30)]); (new_category "seller" [(-10); (-30); (-50)]); (new_category "producerA" [(-1); (-3); (-5)]); (new_category "producerB" [(-2); (-4); (-6); (-8)])] in t <- new_int_tree cats [1; 2; 1; 2]%nat (SList [(SInt 0); (SList [(SInt 1); SNone; (SInt 2); (SList [(SInt 3); SNone])])]) ;; int_counted_groups cats [1; 2; 1; 2]%nat t) = Raise TypeError.
Proof. vm_compute. reflexivity. Qed.
Example int_tree_214 : (x <- (let cats := [(new_category "buyer" [60; 40; 20; (-30)]); (new_category "seller" [(-10); (-30); (-50)]); (new_category "producerA" [(-1); (-3); (-5)]); (new_category "producerB" [(-2); (-4); (-6); (-8)])] in t <- new_int_tree cats [1; 2; 1; 2]%nat (SList [(SInt 0); (SList [(SInt 1); SNone; (SInt 2); (SList [(SInt 3); SNone])])]) ;; Ok (int_optimal_trade_GFT cats [1; 2; 1; 2]%nat t)) ;; Ok (Qred x)) = Ok 76.
Proof. vm_compute. reflexivity. Qed.
Example int_tree_216 : (x <- (let cats := [(new_category "buyer" [60; 40; 20; (-30)]); (new_category "seller" [(-10); (-30); (-50)]); (new_category "producerA" [(-1); (-3); (-5)]); (new_category "producerB" [(-2); (-4); (-6); (-8)])] in t <- new_int_tree cats [1; 2; 1; 2]%nat (SList [(SInt 0); (SList [(SInt 1); SNone; (SInt 2); (SList [(SInt 3); SNone])])]) ;; l <- int_largest_categories cats [1; 2; 1; 2]%nat t ;; Ok (map (fun i => cname (cat_at cats i)) (snd l))) ;; Ok ((fun x => x) x)) = Ok ["seller"; "producerA"].
Proof. vm_compute. reflexivity. Qed.
Example int_tree_218 : (x <- (let cats := [(new_category "buyer" [60; 40; 20; (-30)]); (new_category "seller" [(-10); (-30); (-50)]); (new_category "producerA" [(-1); (-3); (-5)]); (new_category "producerB" [(-2); (-4); (-6); (-8)])] in t <- new_int_tree cats [1; 2; 1; 2]%nat (SList [(SInt 0); (SList [(SInt 1); SNone; (SInt 2); (SList [(SInt 3); SNone])])]) ;; l <- int_largest_categories cats [1; 2; 1; 2]%nat t ;; Ok (snd l)) ;; Ok ((fun x => x) x)) = Ok [1; 2]%nat.
Proof. vm_compute. reflexivity. Qed.
Example int_tree_220 : (x <- (let cats := [(new_category "buyer" [60; 40; 20; (-30)]); (new_category "seller" [(-10); (-30); (-50)]); (new_category "producerA" [(-1); (-3); (-5)]); (new_category "producerB" [(-2); (-4); (-6); (-8)])] in t <- new_int_tree cats [1; 2; 1; 2]%nat (SList [(SInt 0); (SList [(SInt 1); SNone; (SInt 2); (SList [(SInt 3); SNone])])]) ;; Ok (paths_to_leaf_names cats t)) ;; Ok ((fun x => x) x)) = Ok [["buyer"; "seller"]; ["buyer"; "producerA"; "producerB"]].
Proof. vm_compute. reflexivity. Qed.
Example int_tree_222 : (x <- (let cats := [(new_category "buyer" [60; 40; 20; (-30)]); (new_category "seller" [(-10); (-30); (-50)]); (new_category "producerA" [(-1); (-3); (-5)]); (new_category "producerB" [(-2); (-4); (-6); (-8)])] in t <- new_int_tree cats [1; 2; 1; 2]%nat (SList [(SInt 0); (SList [(SInt 1); SNone; (SInt 2); (SList [(SInt 3); SNone])])]) ;; Ok (paths_to_leaf t)) ;; Ok ((fun x => x) x)) = Ok [[0; 1]; [0; 2; 3]]%nat.
Proof. vm_compute. reflexivity. Qed.
Example int_tree_224 : (x <- (let cats := [(new_category "buyer" [60; 40; 20; (-30)]); (new_category "seller" [(-10); (-30); (-50)]); (new_category "producerA" [(-1); (-3); (-5)]); (new_category "producerB" [(-2); (-4); (-6); (-8)])] in t <- new_int_tree cats [1; 2; 1; 2]%nat (SList [(SInt 0); (SList [(SInt 1); SNone; (SInt 2); (SList [(SInt 3); SNone])])]) ;; int_recipes (length cats) [1; 2; 1; 2]%nat t) ;; Ok ((fun x => x) x)) = Ok [[1; 2; 0; 0]; [1; 0; 1; 2]]%nat.
Proof. vm_compute. reflexivity. Qed.
Example int_tree_226 : (x <- (let cats := [(new_category "buyer" [60; 40; 20; (-30)]); (new_category "seller" [(-10); (-30); (-50)]); (new_category "producerA" [(-1); (-3); (-5)]); (new_category "producerB" [(-2); (-4); (-6); (-8)])] in t <- new_int_tree cats [1; 2; 1; 2]%nat (SList [(SInt 0); (SList [(SInt 1); SNone; (SInt 2); (SList [(SInt 3); SNone])])]) ;; int_num_of_deals cats [1; 2; 1; 2]%nat t) ;; Ok ((fun x => x) x)) = Ok 3%nat.
Proof. vm_compute. reflexivity. Qed.
Example int_tree_228 : (let cats := [(new_category "buyer" [60; 40; 20; (-30)]); (new_category "seller" [(-10); (-30); (-50)]); (new_category "producerA" [(-1); (-3); (-5)]); (new_category "producerB" [(-2); (-4); (-6); (-8)])] in t <- new_int_tree cats [1; 2; 1; 2]%nat (SList [(SInt 0); (SList [(SInt 1); SNone; (SInt 2); (SList [(SInt 3); SNone])])]) ;; r <- int_explained show_int cats [1; 2; 1; 2]%nat [1; 2; 3; 4] true t ;; Ok (snd (fst (fst r)))) = Ok (lines ["seller: 1 potential deals, price=2"; "producerB: 2 potential deals, price=4"; "producerA: 2 out of 3 traders selected, price=3"; "producerB: all 2 deals selected"; "buyer: 3 out of 4 traders selected, price=1"; "seller + producerA: all 3 deals selected"; "3 deals overall"]).
Proof. vm_compute. reflexivity. Qed.
Example int_tree_244 : (x <- (let cats := [(new_category "buyer" [90; 80; 70; 60; 50; 40]); (new_category "seller" [(-10); (-30); (-50)]); (new_category "producerA" [(-1); (-3); (-5); (-7)]); (new_category "producerB" [(-2); (-4)])] in t <- new_int_tree cats [1; 1; 1; 1]%nat (SList [(SInt 0); (SList [(SInt 1); SNone; (SInt 2); (SList [(SInt 3); SNone])])]) ;; Ok (detailed_sets cats [1; 1; 1; 1]%nat t)) ;; Ok ((fun l => map (map Qred) l) x)) = Ok [[90; (-1); (-2)]; [80; (-3); (-4)]; [70; (-10)]; [60; (-30)]; [50; (-50)]].
Proof. vm_compute. reflexivity. Qed.
Example int_tree_246_raises : (let cats := [(new_category "buyer" [90; 80; 70; 60; 50; 40]); (new_category "seller" [(-10); (-30); (-50)]); (new_category "producerA" [(-1); (-3); (-5); (-7)]); (new_category "producerB" [(-2); (-4)])] in t <- new_int_tree cats [1; 1; 1; 1]%nat (SList [(SInt 0); (SList [(SInt 1); SNone; (SInt 2); (SList [(SInt 3); SNone])])]) ;; int_counted_groups cats [1; 1; 1; 1]%nat t) = Raise TypeError.
Proof. vm_compute. reflexivity. Qed.
Example int_tree_248 : (x <- (let cats := [(new_category "buyer" [90; 80; 70; 60; 50; 40]); (new_category "seller" [(-10); (-30); (-50)]); (new_category "producerA" [(-1); (-3); (-5); (-7)]); (new_category "producerB" [(-2); (-4)])] in t <- new_int_tree cats [1; 1; 1; 1]%nat (SList [(SInt 0); (SList [(SInt 1); SNone; (SInt 2); (SList [(SInt 3); SNone])])]) ;; Ok (combined_sets cats [1; 1; 1; 1]%nat t)) ;; Ok ((fun l => map (map Qred) l) x)) = Ok [[90; (-1); (-2)]; [80; (-3); (-4)]; [70; (-10)]; [60; (-30)]; [50; (-50)]].
Proof. vm_compute. reflexivity. Qed.
Example int_tree_250 : (x <- (let cats := [(new_category "buyer" [90; 80; 70; 60; 50; 40]); (new_category "seller" [(-10); (-30); (-50)]); (new_category "producerA" [(-1); (-3); (-5); (-7)]); (new_category "producerB" [(-2); (-4)])] in t <- new_int_tree cats [1; 1; 1; 1]%nat (SList [(SInt 0); (SList [(SInt 1); SNone; (SInt 2); (SList [(SInt 3); SNone])])]) ;; Ok (int_optimal_trade_GFT cats [1; 1; 1; 1]%nat t)) ;; Ok (Qred x)) = Ok 250.
Proof. vm_compute. reflexivity. Qed.
Example int_tree_252 : (x <- (let cats := [(new_category "buyer" [90; 80; 70; 60; 50; 40]); (new_category "seller" [(-10); (-30); (-50)]); (new_category "producerA" [(-1); (-3); (-5); (-7)]); (new_category "producerB" [(-2); (-4)])] in t <- new_int_tree cats [1; 1; 1; 1]%nat (SList [(SInt 0); (SList [(SInt 1); SNone; (SInt 2); (SList [(SInt 3); SNone])])]) ;; int_num_of_deals cats [1; 1; 1; 1]%nat t) ;; Ok ((fun x => x) x)) = Ok 5%nat.
Proof. vm_compute. reflexivity. Qed.
Example int_tree_254 : (x <- (let cats := [(new_category "buyer" [90; 80; 70; 60; 50; 40]); (new_category "seller" [(-10); (-30); (-50)]); (new_category "producerA" [(-1); (-3); (-5); (-7)]); (new_category "producerB" [(-2); (-4)])] in t <- new_int_tree cats [1; 1; 1; 1]%nat (SList [(SInt 0); (SList [(SInt 1); SNone; (SInt 2); (SList [(SInt 3); SNone])])]) ;; l <- int_largest_categories cats [1; 1; 1; 1]%nat t ;; Ok (map (fun i => cname (cat_at cats i)) (snd l))) ;; Ok ((fun x => x) x)) = Ok ["seller"; "producerA"].
Proof. vm_compute. reflexivity. Qed.
Example int_tree_263 : (x <- (let cats := [(new_category "buyer" [90; 80; 70; 60; 50; 40]); (new_category "seller" [(-10); (-30); (-50)]); (new_category "producerA" [(-1); (-3); (-5); (-7)]); (new_category "producerB" [(-2); (-4)])] in t <- new_int_tree cats [2; 2; 1; 2]%nat (SList [(SInt 0); (SList [(SInt 1); SNone; (SInt 2); (SList [(SInt 3); SNone])])]) ;; Ok (detailed_sets cats [2; 2; 1; 2]%nat t)) ;; Ok ((fun l => map (map Qred) l) x)) = Ok [[90; 80; (-1); (-2); (-4)]; [70; 60; (-10); (-30)]].
Proof. vm_compute. reflexivity. Qed.
Example int_tree_265_raises : (let cats := [(new_category "buyer" [90; 80; 70; 60; 50; 40]); (new_category "seller" [(-10); (-30); (-50)]); (new_category "producerA" [(-1); (-3); (-5); (-7)]); (new_category "producerB" [(-2); (-4)])] in t <- new_int_tree cats [2; 2; 1; 2]%nat (SList [(SInt 0); (SList [(SInt 1); SNone; (SInt 2); (SList [(SInt 3); SNone])])]) ;; int_counted_groups cats [2; 2; 1; 2]%nat t) = Raise TypeError.
Proof. vm_compute. reflexivity. Qed.
Example int_tree_267 : (x <- (let cats := [(new_category "buyer" [90; 80; 70; 60; 50; 40]); (new_category "seller" [(-10); (-30); (-50)]); (new_category "producerA" [(-1); (-3); (-5); (-7)]); (new_category "producerB" [(-2); (-4)])] in t <- new_int_tree cats [2; 2; 1; 2]%nat (SList [(SInt 0); (SList [(SInt 1); SNone; (SInt 2); (SList [(SInt 3); SNone])])]) ;; Ok (combined_sets cats [2; 2; 1; 2]%nat t)) ;; Ok ((fun l => map (map Qred) l) x)) = Ok [[90; 80; (-1); (-2); (-4)]; [70; 60; (-10); (-30)]].
Proof. vm_compute. reflexivity. Qed.
Example int_tree_269 : (x <- (let cats := [(new_category "buyer" [90; 80; 70; 60; 50; 40]); (new_category "seller" [(-10); (-30); (-50)]); (new_category "producerA" [(-1); (-3); (-5); (-7)]); (new_category "producerB" [(-2); (-4)])] in t <- new_int_tree cats [2; 2; 1; 2]%nat (SList [(SInt 0); (SList [(SInt 1); SNone; (SInt 2); (SList [(SInt 3); SNone])])]) ;; Ok (int_optimal_trade_GFT cats [2; 2; 1; 2]%nat t)) ;; Ok (Qred x)) = Ok 253.
Proof. vm_compute. reflexivity. Qed.
Example int_tree_271 : (x <- (let cats := [(new_category "buyer" [90; 80; 70; 60; 50; 40]); (new_category "seller" [(-10); (-30); (-50)]); (new_category "producerA" [(-1); (-3); (-5); (-7)]); (new_category "producerB" [(-2); (-4)])] in t <- new_int_tree cats [2; 2; 1; 2]%nat (SList [(SInt 0); (SList [(SInt 1); SNone; (SInt 2); (SList [(SInt 3); SNone])])]) ;; int_num_of_deals cats [2; 2; 1; 2]%nat t) ;; Ok ((fun x => x) x)) = Ok 2%nat.
Proof. vm_compute. reflexivity. Qed.
Example int_tree_273 : (x <- (let cats := [(new_category "buyer" [90; 80; 70; 60; 50; 40]); (new_category "seller" [(-10); (-30); (-50)]); (new_category "producerA" [(-1); (-3); (-5); (-7)]); (new_category "producerB" [(-2); (-4)])] in t <- new_int_tree cats [2; 2; 1; 2]%nat (SList [(SInt 0); (SList [(SInt 1); SNone; (SInt 2); (SList [(SInt 3); SNone])])]) ;; l <- int_largest_categories cats [2; 2; 1; 2]%nat t ;; Ok (map (fun i => cname (cat_at cats i)) (snd l))) ;; Ok ((fun x => x) x)) = Ok ["seller"; "producerA"].
Proof. vm_compute. reflexivity. Qed.
Example int_tree_278 : (x <- (let cats := [(new_category "buyer" [90; 80; 70; 60; 50; 40]); (new_category "seller" [(-10); (-30); (-50)]); (mkCat "producerA" [(-1); (-3); (-5); (-7); (-9); (-11); (-13)]); (mkCat "producerB" [(-2); (-4); (-6); (-8); (-10)])] in t <- new_int_tree cats [2; 2; 1; 2]%nat (SList [(SInt 0); (SList [(SInt 1); SNone; (SInt 2); (SList [(SInt 3); SNone])])]) ;; l <- int_largest_categories cats [2; 2; 1; 2]%nat t ;; Ok (map (fun i => cname (cat_at cats i)) (snd l))) ;; Ok ((fun x => x) x)) = Ok ["seller"; "producerA"].
Proof. vm_compute. reflexivity. Qed.
Example int_tree_333 : (x <- (recipe_from_path [0; 2; 3]%nat 5 []%nat) ;; Ok ((fun x => x) x)) = Ok [1; 0; 1; 1; 0]%nat.
Proof. vm_compute. reflexivity. Qed.
Example int_tree_336 : (x <- (recipe_from_path [0; 2; 3]%nat 5 [1; 2; 3; 2; 1]%nat) ;; Ok ((fun x => x) x)) = Ok [1; 0; 3; 2; 0]%nat.
Proof. vm_compute. reflexivity. Qed.
Example int_tree_503 : (let cats := [(new_category "0" []); (new_category "1" [1]); (new_category "2" [1; 1]); (new_category "3" [1; 1; 1]); (new_category "4" [1; 1; 1; 1]); (new_category "5" [1; 1; 1; 1; 1]); (new_category "6" [1; 1; 1; 1; 1; 1]); (new_category "7" [1; 1; 1; 1; 1; 1; 1]); (new_category "8" [1; 1; 1; 1; 1; 1; 1; 1]); (new_category "9" [1; 1; 1; 1; 1; 1; 1; 1; 1])] in t <- new_int_tree cats []%nat (SList [(SInt 6); SNone]) ;; l <- int_largest_categories cats []%nat t ;; Ok (Qred (fst (fst l)), Qred (snd (fst l)), snd l)) = Ok (6, 6, [6]%nat).
Proof. vm_compute. reflexivity. Qed.
Example int_tree_505 : (x <- (let cats := [(new_category "0" []); (new_category "1" [1]); (new_category "2" [1; 1]); (new_category "3" [1; 1; 1]); (new_category "4" [1; 1; 1; 1]); (new_category "5" [1; 1; 1; 1; 1]); (new_category "6" [1; 1; 1; 1; 1; 1]); (new_category "7" [1; 1; 1; 1; 1; 1; 1]); (new_category "8" [1; 1; 1; 1; 1; 1; 1; 1]); (new_category "9" [1; 1; 1; 1; 1; 1; 1; 1; 1])] in t <- new_int_tree cats []%nat (SList [(SInt 6); (SList [(SInt 8); SNone])]) ;; l <- int_largest_categories cats []%nat t ;; Ok (snd l)) ;; Ok ((fun x => x) x)) = Ok [8]%nat.
Proof. vm_compute. reflexivity. Qed.
Example int_tree_507 : (x <- (let cats := [(new_category "0" []); (new_category "1" [1]); (new_category "2" [1; 1]); (new_category "3" [1; 1; 1]); (new_category "4" [1; 1; 1; 1]); (new_category "5" [1; 1; 1; 1; 1]); (new_category "6" [1; 1; 1; 1; 1; 1]); (new_category "7" [1; 1; 1; 1; 1; 1; 1]); (new_category "8" [1; 1; 1; 1; 1; 1; 1; 1]); (new_category "9" [1; 1; 1; 1; 1; 1; 1; 1; 1])] in t <- new_int_tree cats []%nat (SList [(SInt 8); (SList [(SInt 6); SNone])]) ;; l <- int_largest_categories cats []%nat t ;; Ok (snd l)) ;; Ok ((fun x => x) x)) = Ok [8]%nat.
Proof. vm_compute. reflexivity. Qed.
Example int_tree_509 : (x <- (let cats := [(new_category "0" []); (new_category "1" [1]); (new_category "2" [1; 1]); (new_category "3" [1; 1; 1]); (new_category "4" [1; 1; 1; 1]); (new_category "5" [1; 1; 1; 1; 1]); (new_category "6" [1; 1; 1; 1; 1; 1]); (new_category "7" [1; 1; 1; 1; 1; 1; 1]); (new_category "8" [1; 1; 1; 1; 1; 1; 1; 1]); (new_category "9" [1; 1; 1; 1; 1; 1; 1; 1; 1])] in t <- new_int_tree cats []%nat (SList [(SInt 6); (SList [(SInt 8); (SList [(SInt 7); SNone])])]) ;; l <- int_largest_categories cats []%nat t ;; Ok (snd l)) ;; Ok ((fun x => x) x)) = Ok [8]%nat.
Proof. vm_compute. reflexivity. Qed.
Example int_tree_511 : (x <- (let cats := [(new_category "0" []); (new_category "1" [1]); (new_category "2" [1; 1]); (new_category "3" [1; 1; 1]); (new_category "4" [1; 1; 1; 1]); (new_category "5" [1; 1; 1; 1; 1]); (new_category "6" [1; 1; 1; 1; 1; 1]); (new_category "7" [1; 1; 1; 1; 1; 1; 1]); (new_category "8" [1; 1; 1; 1; 1; 1; 1; 1]); (new_category "9" [1; 1; 1; 1; 1; 1; 1; 1; 1])] in t <- new_int_tree cats []%nat (SList [(SInt 7); (SList [(SInt 8); (SList [(SInt 6); SNone])])]) ;; l <- int_largest_categories cats []%nat t ;; Ok (snd l)) ;; Ok (negb (eqb_list Nat.eqb x [6]%nat))) = Ok true.
Proof. vm_compute. reflexivity. Qed.
Example int_tree_513 : (x <- (let cats := [(new_category "0" []); (new_category "1" [1]); (new_category "2" [1; 1]); (new_category "3" [1; 1; 1]); (new_category "4" [1; 1; 1; 1]); (new_category "5" [1; 1; 1; 1; 1]); (new_category "6" [1; 1; 1; 1; 1; 1]); (new_category "7" [1; 1; 1; 1; 1; 1; 1]); (new_category "8" [1; 1; 1; 1; 1; 1; 1; 1]); (new_category "9" [1; 1; 1; 1; 1; 1; 1; 1; 1])] in t <- new_int_tree cats []%nat (SList [(SInt 7); (SList [(SInt 8); (SList [(SInt 5); (SList [(SInt 6); SNone])])])]) ;; l <- int_largest_categories cats []%nat t ;; Ok (snd l)) ;; Ok (negb (eqb_list Nat.eqb x [5]%nat))) = Ok true.
Proof. vm_compute. reflexivity. Qed.
Example int_tree_515 : (x <- (let cats := [(new_category "0" []); (new_category "1" [1]); (new_category "2" [1; 1]); (new_category "3" [1; 1; 1]); (new_category "4" [1; 1; 1; 1]); (new_category "5" [1; 1; 1; 1; 1]); (new_category "6" [1; 1; 1; 1; 1; 1]); (new_category "7" [1; 1; 1; 1; 1; 1; 1]); (new_category "8" [1; 1; 1; 1; 1; 1; 1; 1]); (new_category "9" [1; 1; 1; 1; 1; 1; 1; 1; 1])] in t <- new_int_tree cats []%nat (SList [(SInt 6); (SList [(SInt 3); SNone; (SInt 4); (SList [(SInt 2); SNone])])]) ;; l <- int_largest_categories cats []%nat t ;; Ok (snd l)) ;; Ok ((fun x => x) x)) = Ok [3; 4]%nat.
Proof. vm_compute. reflexivity. Qed.
Example int_tree_517 : (x <- (let cats := [(new_category "0" []); (new_category "1" [1]); (new_category "2" [1; 1]); (new_category "3" [1; 1; 1]); (new_category "4" [1; 1; 1; 1]); (new_category "5" [1; 1; 1; 1; 1]); (new_category "6" [1; 1; 1; 1; 1; 1]); (new_category "7" [1; 1; 1; 1; 1; 1; 1]); (new_category "8" [1; 1; 1; 1; 1; 1; 1; 1]); (new_category "9" [1; 1; 1; 1; 1; 1; 1; 1; 1])] in t <- new_int_tree cats []%nat (SList [(SInt 6); (SList [(SInt 3); SNone; (SInt 2); (SList [(SInt 4); SNone])])]) ;; l <- int_largest_categories cats []%nat t ;; Ok (snd l)) ;; Ok ((fun x => x) x)) = Ok [6]%nat.
Proof. vm_compute. reflexivity. Qed.
Example int_tree_519 : (x <- (let cats := [(new_category "0" []); (new_category "1" [1]); (new_category "2" [1; 1]); (new_category "3" [1; 1; 1]); (new_category "4" [1; 1; 1; 1]); (new_category "5" [1; 1; 1; 1; 1]); (new_category "6" [1; 1; 1; 1; 1; 1]); (new_category "7" [1; 1; 1; 1; 1; 1; 1]); (new_category "8" [1; 1; 1; 1; 1; 1; 1; 1]); (new_category "9" [1; 1; 1; 1; 1; 1; 1; 1; 1])] in t <- new_int_tree cats []%nat (SList [(SInt 6); (SList [(SInt 3); SNone; (SInt 7); (SList [(SInt 5); SNone])])]) ;; l <- int_largest_categories cats []%nat t ;; Ok (snd l)) ;; Ok ((fun x => x) x)) = Ok [3; 7]%nat.
Proof. vm_compute. reflexivity. Qed.
Example int_tree_521 : (x <- (let cats := [(new_category "0" []); (new_category "1" [1]); (new_category "2" [1; 1]); (new_category "3" [1; 1; 1]); (new_category "4" [1; 1; 1; 1]); (new_category "5" [1; 1; 1; 1; 1]); (new_category "6" [1; 1; 1; 1; 1; 1]); (new_category "7" [1; 1; 1; 1; 1; 1; 1]); (new_category "8" [1; 1; 1; 1; 1; 1; 1; 1]); (new_category "9" [1; 1; 1; 1; 1; 1; 1; 1; 1])] in t <- new_int_tree cats []%nat (SList [(SInt 6); (SList [(SInt 3); SNone; (SInt 5); (SList [(SInt 7); SNone])])]) ;; l <- int_largest_categories cats []%nat t ;; Ok (snd l)) ;; Ok ((fun x => x) x)) = Ok [3; 7]%nat.
Proof. vm_compute. reflexivity. Qed.
Example int_tree_523 : (x <- (let cats := [(new_category "0" []); (new_category "1" [1]); (new_category "2" [1; 1]); (new_category "3" [1; 1; 1]); (new_category "4" [1; 1; 1; 1]); (new_category "5" [1; 1; 1; 1; 1]); (new_category "6" [1; 1; 1; 1; 1; 1]); (new_category "7" [1; 1; 1; 1; 1; 1; 1]); (new_category "8" [1; 1; 1; 1; 1; 1; 1; 1]); (new_category "9" [1; 1; 1; 1; 1; 1; 1; 1; 1])] in t <- new_int_tree cats []%nat (SList [(SInt 5); (SList [(SInt 6); (SList [(SInt 4); SNone]); (SInt 4); (SList [(SInt 6); SNone])])]) ;; l <- int_largest_categories cats []%nat t ;; Ok (snd l)) ;; Ok ((fun x => x) x)) = Ok [6; 6]%nat.
Proof. vm_compute. reflexivity. Qed.
Example int_tree_525 : (x <- (let cats := [(new_category "0" []); (new_category "1" [1]); (new_category "2" [1; 1]); (new_category "3" [1; 1; 1]); (new_category "4" [1; 1; 1; 1]); (new_category "5" [1; 1; 1; 1; 1]); (new_category "6" [1; 1; 1; 1; 1; 1]); (new_category "7" [1; 1; 1; 1; 1; 1; 1]); (new_category "8" [1; 1; 1; 1; 1; 1; 1; 1]); (new_category "9" [1; 1; 1; 1; 1; 1; 1; 1; 1])] in t <- new_int_tree cats []%nat (SList [(SInt 7); (SList [(SInt 6); (SList [(SInt 4); SNone]); (SInt 4); (SList [(SInt 6); SNone])])]) ;; l <- int_largest_categories cats []%nat t ;; Ok (snd l)) ;; Ok ((fun x => x) x)) = Ok [6; 6]%nat.
Proof. vm_compute. reflexivity. Qed.
Example int_tree_527 : (x <- (let cats := [(new_category "0" []); (new_category "1" [1]); (new_category "2" [1; 1]); (new_category "3" [1; 1; 1]); (new_category "4" [1; 1; 1; 1]); (new_category "5" [1; 1; 1; 1; 1]); (new_category "6" [1; 1; 1; 1; 1; 1]); (new_category "7" [1; 1; 1; 1; 1; 1; 1]); (new_category "8" [1; 1; 1; 1; 1; 1; 1; 1]); (new_category "9" [1; 1; 1; 1; 1; 1; 1; 1; 1])] in t <- new_int_tree cats []%nat (SList [(SInt 8); (SList [(SInt 6); (SList [(SInt 4); SNone]); (SInt 4); (SList [(SInt 6); SNone])])]) ;; l <- int_largest_categories cats []%nat t ;; Ok (snd l)) ;; Ok ((fun x => x) x)) = Ok [6; 6]%nat.
Proof. vm_compute. reflexivity. Qed.
Example int_tree_529 : (x <- (let cats := [(new_category "0" []); (new_category "1" [1]); (new_category "2" [1; 1]); (new_category "3" [1; 1; 1]); (new_category "4" [1; 1; 1; 1]); (new_category "5" [1; 1; 1; 1; 1]); (new_category "6" [1; 1; 1; 1; 1; 1]); (new_category "7" [1; 1; 1; 1; 1; 1; 1]); (new_category "8" [1; 1; 1; 1; 1; 1; 1; 1]); (new_category "9" [1; 1; 1; 1; 1; 1; 1; 1; 1])] in t <- new_int_tree cats []%nat (SList [(SInt 9); (SList [(SInt 6); (SList [(SInt 4); SNone]); (SInt 4); (SList [(SInt 6); SNone])])]) ;; l <- int_largest_categories cats []%nat t ;; Ok (snd l)) ;; Ok ((fun x => x) x)) = Ok [6; 6]%nat.
Proof. vm_compute. reflexivity. Qed.
Example int_tree_531 : (let cats := [(new_category "0" []); (new_category "1" [1]); (new_category "2" [1; 1]); (new_category "3" [1; 1; 1]); (new_category "4" [1; 1; 1; 1]); (new_category "5" [1; 1; 1; 1; 1]); (new_category "6" [1; 1; 1; 1; 1; 1]); (new_category "7" [1; 1; 1; 1; 1; 1; 1]); (new_category "8" [1; 1; 1; 1; 1; 1; 1; 1]); (new_category "9" [1; 1; 1; 1; 1; 1; 1; 1; 1])] in t <- new_int_tree cats []%nat (SList [(SInt 6); (SList [(SInt 0); SNone; (SInt 6); SNone])]) ;; l <- int_largest_categories cats []%nat t ;; Ok (Qred (fst (fst l)), Qred (snd (fst l)), snd l)) = Ok (6, 6, [0; 6]%nat).
Proof. vm_compute. reflexivity. Qed.
Example int_tree_533 : (let cats := [(new_category "0" []); (new_category "1" [1]); (new_category "2" [1; 1]); (new_category "3" [1; 1; 1]); (new_category "4" [1; 1; 1; 1]); (new_category "5" [1; 1; 1; 1; 1]); (new_category "6" [1; 1; 1; 1; 1; 1]); (new_category "7" [1; 1; 1; 1; 1; 1; 1]); (new_category "8" [1; 1; 1; 1; 1; 1; 1; 1]); (new_category "9" [1; 1; 1; 1; 1; 1; 1; 1; 1])] in t <- new_int_tree cats []%nat (SList [(SInt 6); (SList [(SInt 6); SNone; (SInt 0); SNone])]) ;; l <- int_largest_categories cats []%nat t ;; Ok (Qred (fst (fst l)), Qred (snd (fst l)), snd l)) = Ok (6, 6, [6; 0]%nat).
Proof. vm_compute. reflexivity. Qed.
Example int_tree_537 : (let cats := [(new_category "0" []); (new_category "1" [1]); (new_category "2" [1; 1]); (new_category "3" [1; 1; 1]); (new_category "4" [1; 1; 1; 1]); (new_category "5" [1; 1; 1; 1; 1]); (new_category "6" [1; 1; 1; 1; 1; 1]); (new_category "7" [1; 1; 1; 1; 1; 1; 1]); (new_category "8" [1; 1; 1; 1; 1; 1; 1; 1]); (new_category "9" [1; 1; 1; 1; 1; 1; 1; 1; 1])] in t <- new_int_tree cats [1; 1; 1; 2; 2; 2; 3; 3; 3; 4]%nat (SList [(SInt 6); SNone]) ;; l <- int_largest_categories cats [1; 1; 1; 2; 2; 2; 3; 3; 3; 4]%nat t ;; Ok (Qred (fst (fst l)), Qred (snd (fst l)), snd l)) = Ok (2, 2, [6]%nat).
Proof. vm_compute. reflexivity. Qed.
Example int_tree_539 : (x <- (let cats := [(new_category "0" []); (new_category "1" [1]); (new_category "2" [1; 1]); (new_category "3" [1; 1; 1]); (new_category "4" [1; 1; 1; 1]); (new_category "5" [1; 1; 1; 1; 1]); (new_category "6" [1; 1; 1; 1; 1; 1]); (new_category "7" [1; 1; 1; 1; 1; 1; 1]); (new_category "8" [1; 1; 1; 1; 1; 1; 1; 1]); (new_category "9" [1; 1; 1; 1; 1; 1; 1; 1; 1])] in t <- new_int_tree cats [1; 1; 1; 2; 2; 2; 3; 3; 3; 4]%nat (SList [(SInt 6); (SList [(SInt 8); SNone])]) ;; l <- int_largest_categories cats [1; 1; 1; 2; 2; 2; 3; 3; 3; 4]%nat t ;; Ok (snd l)) ;; Ok ((fun x => x) x)) = Ok [8]%nat.
Proof. vm_compute. reflexivity. Qed.
Example int_tree_541 : (x <- (let cats := [(new_category "0" []); (new_category "1" [1]); (new_category "2" [1; 1]); (new_category "3" [1; 1; 1]); (new_category "4" [1; 1; 1; 1]); (new_category "5" [1; 1; 1; 1; 1]); (new_category "6" [1; 1; 1; 1; 1; 1]); (new_category "7" [1; 1; 1; 1; 1; 1; 1]); (new_category "8" [1; 1; 1; 1; 1; 1; 1; 1]); (new_category "9" [1; 1; 1; 1; 1; 1; 1; 1; 1])] in t <- new_int_tree cats [1; 1; 1; 2; 2; 2; 3; 3; 3; 4]%nat (SList [(SInt 8); (SList [(SInt 6); SNone])]) ;; l <- int_largest_categories cats [1; 1; 1; 2; 2; 2; 3; 3; 3; 4]%nat t ;; Ok (snd l)) ;; Ok ((fun x => x) x)) = Ok [8]%nat.
Proof. vm_compute. reflexivity. Qed.
Example int_tree_543 : (x <- (let cats := [(new_category "0" []); (new_category "1" [1]); (new_category "2" [1; 1]); (new_category "3" [1; 1; 1]); (new_category "4" [1; 1; 1; 1]); (new_category "5" [1; 1; 1; 1; 1]); (new_category "6" [1; 1; 1; 1; 1; 1]); (new_category "7" [1; 1; 1; 1; 1; 1; 1]); (new_category "8" [1; 1; 1; 1; 1; 1; 1; 1]); (new_category "9" [1; 1; 1; 1; 1; 1; 1; 1; 1])] in t <- new_int_tree cats [1; 1; 1; 2; 2; 2; 3; 3; 3; 4]%nat (SList [(SInt 6); (SList [(SInt 8); (SList [(SInt 7); SNone])])]) ;; l <- int_largest_categories cats [1; 1; 1; 2; 2; 2; 3; 3; 3; 4]%nat t ;; Ok (snd l)) ;; Ok ((fun x => x) x)) = Ok [7]%nat.
Proof. vm_compute. reflexivity. Qed.
Example int_tree_545 : (x <- (let cats := [(new_category "0" []); (new_category "1" [1]); (new_category "2" [1; 1]); (new_category "3" [1; 1; 1]); (new_category "4" [1; 1; 1; 1]); (new_category "5" [1; 1; 1; 1; 1]); (new_category "6" [1; 1; 1; 1; 1; 1]); (new_category "7" [1; 1; 1; 1; 1; 1; 1]); (new_category "8" [1; 1; 1; 1; 1; 1; 1; 1]); (new_category "9" [1; 1; 1; 1; 1; 1; 1; 1; 1])] in t <- new_int_tree cats [1; 1; 1; 2; 2; 2; 3; 3; 3; 4]%nat (SList [(SInt 7); (SList [(SInt 8); (SList [(SInt 6); SNone])])]) ;; l <- int_largest_categories cats [1; 1; 1; 2; 2; 2; 3; 3; 3; 4]%nat t ;; Ok (snd l)) ;; Ok ((fun x => x) x)) = Ok [8]%nat.
Proof. vm_compute. reflexivity. Qed.
Example int_tree_547 : (x <- (let cats := [(new_category "0" []); (new_category "1" [1]); (new_category "2" [1; 1]); (new_category "3" [1; 1; 1]); (new_category "4" [1; 1; 1; 1]); (new_category "5" [1; 1; 1; 1; 1]); (new_category "6" [1; 1; 1; 1; 1; 1]); (new_category "7" [1; 1; 1; 1; 1; 1; 1]); (new_category "8" [1; 1; 1; 1; 1; 1; 1; 1]); (new_category "9" [1; 1; 1; 1; 1; 1; 1; 1; 1])] in t <- new_int_tree cats [1; 1; 1; 2; 2; 2; 3; 3; 3; 4]%nat (SList [(SInt 7); (SList [(SInt 8); (SList [(SInt 5); (SList [(SInt 6); SNone])])])]) ;; l <- int_largest_categories cats [1; 1; 1; 2; 2; 2; 3; 3; 3; 4]%nat t ;; Ok (snd l)) ;; Ok ((fun x => x) x)) = Ok [5]%nat.
Proof. vm_compute. reflexivity. Qed.
Example int_tree_549 : (x <- (let cats := [(new_category "0" []); (new_category "1" [1]); (new_category "2" [1; 1]); (new_category "3" [1; 1; 1]); (new_category "4" [1; 1; 1; 1]); (new_category "5" [1; 1; 1; 1; 1]); (new_category "6" [1; 1; 1; 1; 1; 1]); (new_category "7" [1; 1; 1; 1; 1; 1; 1]); (new_category "8" [1; 1; 1; 1; 1; 1; 1; 1]); (new_category "9" [1; 1; 1; 1; 1; 1; 1; 1; 1])] in t <- new_int_tree cats [1; 1; 1; 2; 2; 2; 3; 3; 3; 4]%nat (SList [(SInt 6); (SList [(SInt 3); SNone; (SInt 4); (SList [(SInt 2); SNone])])]) ;; l <- int_largest_categories cats [1; 1; 1; 2; 2; 2; 3; 3; 3; 4]%nat t ;; Ok (snd l)) ;; Ok ((fun x => x) x)) = Ok [3; 2]%nat.
Proof. vm_compute. reflexivity. Qed.
Example int_tree_551 : (x <- (let cats := [(new_category "0" []); (new_category "1" [1]); (new_category "2" [1; 1]); (new_category "3" [1; 1; 1]); (new_category "4" [1; 1; 1; 1]); (new_category "5" [1; 1; 1; 1; 1]); (new_category "6" [1; 1; 1; 1; 1; 1]); (new_category "7" [1; 1; 1; 1; 1; 1; 1]); (new_category "8" [1; 1; 1; 1; 1; 1; 1; 1]); (new_category "9" [1; 1; 1; 1; 1; 1; 1; 1; 1])] in t <- new_int_tree cats [1; 1; 1; 2; 2; 2; 3; 3; 3; 4]%nat (SList [(SInt 6); (SList [(SInt 3); SNone; (SInt 2); (SList [(SInt 4); SNone])])]) ;; l <- int_largest_categories cats [1; 1; 1; 2; 2; 2; 3; 3; 3; 4]%nat t ;; Ok (snd l)) ;; Ok ((fun x => x) x)) = Ok [3; 4]%nat.
Proof. vm_compute. reflexivity. Qed.
Example int_tree_553 : (x <- (let cats := [(new_category "0" []); (new_category "1" [1]); (new_category "2" [1; 1]); (new_category "3" [1; 1; 1]); (new_category "4" [1; 1; 1; 1]); (new_category "5" [1; 1; 1; 1; 1]); (new_category "6" [1; 1; 1; 1; 1; 1]); (new_category "7" [1; 1; 1; 1; 1; 1; 1]); (new_category "8" [1; 1; 1; 1; 1; 1; 1; 1]); (new_category "9" [1; 1; 1; 1; 1; 1; 1; 1; 1])] in t <- new_int_tree cats [1; 1; 1; 2; 2; 2; 3; 3; 3; 4]%nat (SList [(SInt 6); (SList [(SInt 3); SNone; (SInt 7); (SList [(SInt 5); SNone])])]) ;; l <- int_largest_categories cats [1; 1; 1; 2; 2; 2; 3; 3; 3; 4]%nat t ;; Ok (snd l)) ;; Ok ((fun x => x) x)) = Ok [3; 5]%nat.
Proof. vm_compute. reflexivity. Qed.
Example int_tree_555 : (x <- (let cats := [(new_category "0" []); (new_category "1" [1]); (new_category "2" [1; 1]); (new_category "3" [1; 1; 1]); (new_category "4" [1; 1; 1; 1]); (new_category "5" [1; 1; 1; 1; 1]); (new_category "6" [1; 1; 1; 1; 1; 1]); (new_category "7" [1; 1; 1; 1; 1; 1; 1]); (new_category "8" [1; 1; 1; 1; 1; 1; 1; 1]); (new_category "9" [1; 1; 1; 1; 1; 1; 1; 1; 1])] in t <- new_int_tree cats [1; 1; 1; 2; 2; 2; 3; 3; 3; 4]%nat (SList [(SInt 6); (SList [(SInt 3); SNone; (SInt 5); (SList [(SInt 7); SNone])])]) ;; l <- int_largest_categories cats [1; 1; 1; 2; 2; 2; 3; 3; 3; 4]%nat t ;; Ok (snd l)) ;; Ok ((fun x => x) x)) = Ok [3; 7]%nat.
Proof. vm_compute. reflexivity. Qed.
Example int_tree_557 : (x <- (let cats := [(new_category "0" []); (new_category "1" [1]); (new_category "2" [1; 1]); (new_category "3" [1; 1; 1]); (new_category "4" [1; 1; 1; 1]); (new_category "5" [1; 1; 1; 1; 1]); (new_category "6" [1; 1; 1; 1; 1; 1]); (new_category "7" [1; 1; 1; 1; 1; 1; 1]); (new_category "8" [1; 1; 1; 1; 1; 1; 1; 1]); (new_category "9" [1; 1; 1; 1; 1; 1; 1; 1; 1])] in t <- new_int_tree cats [1; 1; 1; 2; 2; 2; 3; 3; 3; 4]%nat (SList [(SInt 5); (SList [(SInt 6); (SList [(SInt 4); SNone]); (SInt 4); (SList [(SInt 6); SNone])])]) ;; l <- int_largest_categories cats [1; 1; 1; 2; 2; 2; 3; 3; 3; 4]%nat t ;; Ok (snd l)) ;; Ok ((fun x => x) x)) = Ok [4; 6]%nat.
Proof. vm_compute. reflexivity. Qed.
Example int_tree_559 : (x <- (let cats := [(new_category "0" []); (new_category "1" [1]); (new_category "2" [1; 1]); (new_category "3" [1; 1; 1]); (new_category "4" [1; 1; 1; 1]); (new_category "5" [1; 1; 1; 1; 1]); (new_category "6" [1; 1; 1; 1; 1; 1]); (new_category "7" [1; 1; 1; 1; 1; 1; 1]); (new_category "8" [1; 1; 1; 1; 1; 1; 1; 1]); (new_category "9" [1; 1; 1; 1; 1; 1; 1; 1; 1])] in t <- new_int_tree cats [1; 1; 1; 2; 2; 2; 3; 3; 3; 4]%nat (SList [(SInt 7); (SList [(SInt 6); (SList [(SInt 4); SNone]); (SInt 4); (SList [(SInt 6); SNone])])]) ;; l <- int_largest_categories cats [1; 1; 1; 2; 2; 2; 3; 3; 3; 4]%nat t ;; Ok (snd l)) ;; Ok ((fun x => x) x)) = Ok [4; 6]%nat.
Proof. vm_compute. reflexivity. Qed.
Example int_tree_561 : (x <- (let cats := [(new_category "0" []); (new_category "1" [1]); (new_category "2" [1; 1]); (new_category "3" [1; 1; 1]); (new_category "4" [1; 1; 1; 1]); (new_category "5" [1; 1; 1; 1; 1]); (new_category "6" [1; 1; 1; 1; 1; 1]); (new_category "7" [1; 1; 1; 1; 1; 1; 1]); (new_category "8" [1; 1; 1; 1; 1; 1; 1; 1]); (new_category "9" [1; 1; 1; 1; 1; 1; 1; 1; 1])] in t <- new_int_tree cats [1; 1; 1; 2; 2; 2; 3; 3; 3; 4]%nat (SList [(SInt 8); (SList [(SInt 6); (SList [(SInt 4); SNone]); (SInt 4); (SList [(SInt 6); SNone])])]) ;; l <- int_largest_categories cats [1; 1; 1; 2; 2; 2; 3; 3; 3; 4]%nat t ;; Ok (snd l)) ;; Ok ((fun x => x) x)) = Ok [4; 6]%nat.
Proof. vm_compute. reflexivity. Qed.
Example int_tree_563 : (x <- (let cats := [(new_category "0" []); (new_category "1" [1]); (new_category "2" [1; 1]); (new_category "3" [1; 1; 1]); (new_category "4" [1; 1; 1; 1]); (new_category "5" [1; 1; 1; 1; 1]); (new_category "6" [1; 1; 1; 1; 1; 1]); (new_category "7" [1; 1; 1; 1; 1; 1; 1]); (new_category "8" [1; 1; 1; 1; 1; 1; 1; 1]); (new_category "9" [1; 1; 1; 1; 1; 1; 1; 1; 1])] in t <- new_int_tree cats [1; 1; 1; 2; 2; 2; 3; 3; 3; 4]%nat (SList [(SInt 9); (SList [(SInt 6); (SList [(SInt 4); SNone]); (SInt 4); (SList [(SInt 6); SNone])])]) ;; l <- int_largest_categories cats [1; 1; 1; 2; 2; 2; 3; 3; 3; 4]%nat t ;; Ok (snd l)) ;; Ok ((fun x => x) x)) = Ok [4; 6]%nat.
Proof. vm_compute. reflexivity. Qed.
Example int_tree_565 : (let cats := [(new_category "0" []); (new_category "1" [1]); (new_category "2" [1; 1]); (new_category "3" [1; 1; 1]); (new_category "4" [1; 1; 1; 1]); (new_category "5" [1; 1; 1; 1; 1]); (new_category "6" [1; 1; 1; 1; 1; 1]); (new_category "7" [1; 1; 1; 1; 1; 1; 1]); (new_category "8" [1; 1; 1; 1; 1; 1; 1; 1]); (new_category "9" [1; 1; 1; 1; 1; 1; 1; 1; 1])] in t <- new_int_tree cats [1; 1; 1; 2; 2; 2; 3; 3; 3; 4]%nat (SList [(SInt 6); (SList [(SInt 0); SNone; (SInt 6); SNone])]) ;; l <- int_largest_categories cats [1; 1; 1; 2; 2; 2; 3; 3; 3; 4]%nat t ;; Ok (Qred (fst (fst l)), Qred (snd (fst l)), snd l)) = Ok (2, 2, [0; 6]%nat).
Proof. vm_compute. reflexivity. Qed.
Example int_tree_567 : (let cats := [(new_category "0" []); (new_category "1" [1]); (new_category "2" [1; 1]); (new_category "3" [1; 1; 1]); (new_category "4" [1; 1; 1; 1]); (new_category "5" [1; 1; 1; 1; 1]); (new_category "6" [1; 1; 1; 1; 1; 1]); (new_category "7" [1; 1; 1; 1; 1; 1; 1]); (new_category "8" [1; 1; 1; 1; 1; 1; 1; 1]); (new_category "9" [1; 1; 1; 1; 1; 1; 1; 1; 1])] in t <- new_int_tree cats [1; 1; 1; 2; 2; 2; 3; 3; 3; 4]%nat (SList [(SInt 6); (SList [(SInt 6); SNone; (SInt 0); SNone])]) ;; l <- int_largest_categories cats [1; 1; 1; 2; 2; 2; 3; 3; 3; 4]%nat t ;; Ok (Qred (fst (fst l)), Qred (snd (fst l)), snd l)) = Ok (2, 2, [6; 0]%nat).
Proof. vm_compute. reflexivity. Qed.
Example int_tree_572 : (x <- (let cats := [(new_category "0" [22; 11]); (new_category "1" [22; 11]); (new_category "2" [22; 11]); (new_category "3" [22; 11]); (new_category "4" [22; 11]); (new_category "5" [22; 11]); (new_category "6" [22; 11]); (new_category "7" [22; 11]); (new_category "8" [22; 11]); (new_category "9" [22; 11])] in t <- new_int_tree cats []%nat (SList [(SInt 0); (SList [(SInt 1); (SList [(SInt 2); (SList [(SInt 3); (SList [(SInt 4); SNone])])])])]) ;; l <- int_largest_categories cats []%nat t ;; Ok (snd l)) ;; Ok ((fun x => x) x)) = Ok [4]%nat.
Proof. vm_compute. reflexivity. Qed.
Example int_tree_575 : (x <- (let cats := [(new_category "0" [22; 11]); (new_category "1" [22; 11]); (new_category "2" [22; 11]); (new_category "3" [22; 11]); (mkCat "4" [22]); (new_category "5" [22; 11]); (new_category "6" [22; 11]); (new_category "7" [22; 11]); (new_category "8" [22; 11]); (new_category "9" [22; 11])] in t <- new_int_tree cats []%nat (SList [(SInt 0); (SList [(SInt 1); (SList [(SInt 2); (SList [(SInt 3); (SList [(SInt 4); SNone])])])])]) ;; l <- int_largest_categories cats []%nat t ;; Ok (snd l)) ;; Ok ((fun x => x) x)) = Ok [3]%nat.
Proof. vm_compute. reflexivity. Qed.
Example int_tree_578 : (x <- (let cats := [(new_category "0" [22; 11]); (new_category "1" [22; 11]); (new_category "2" [22; 11]); (mkCat "3" [22]); (mkCat "4" [22]); (new_category "5" [22; 11]); (new_category "6" [22; 11]); (new_category "7" [22; 11]); (new_category "8" [22; 11]); (new_category "9" [22; 11])] in t <- new_int_tree cats []%nat (SList [(SInt 0); (SList [(SInt 1); (SList [(SInt 2); (SList [(SInt 3); (SList [(SInt 4); SNone])])])])]) ;; l <- int_largest_categories cats []%nat t ;; Ok (snd l)) ;; Ok ((fun x => x) x)) = Ok [2]%nat.
Proof. vm_compute. reflexivity. Qed.
Example int_tree_581 : (x <- (let cats := [(new_category "0" [22; 11]); (new_category "1" [22; 11]); (mkCat "2" [22]); (mkCat "3" [22]); (mkCat "4" [22]); (new_category "5" [22; 11]); (new_category "6" [22; 11]); (new_category "7" [22; 11]); (new_category "8" [22; 11]); (new_category "9" [22; 11])] in t <- new_int_tree cats []%nat (SList [(SInt 0); (SList [(SInt 1); (SList [(SInt 2); (SList [(SInt 3); (SList [(SInt 4); SNone])])])])]) ;; l <- int_largest_categories cats []%nat t ;; Ok (snd l)) ;; Ok ((fun x => x) x)) = Ok [1]%nat.
Proof. vm_compute. reflexivity. Qed.
Example int_tree_584 : (x <- (let cats := [(new_category "0" [22; 11]); (mkCat "1" [22]); (mkCat "2" [22]); (mkCat "3" [22]); (mkCat "4" [22]); (new_category "5" [22; 11]); (new_category "6" [22; 11]); (new_category "7" [22; 11]); (new_category "8" [22; 11]); (new_category "9" [22; 11])] in t <- new_int_tree cats []%nat (SList [(SInt 0); (SList [(SInt 1); (SList [(SInt 2); (SList [(SInt 3); (SList [(SInt 4); SNone])])])])]) ;; l <- int_largest_categories cats []%nat t ;; Ok (snd l)) ;; Ok ((fun x => x) x)) = Ok [0]%nat.
Proof. vm_compute. reflexivity. Qed.
Example int_tree_587 : (x <- (let cats := [(mkCat "0" [22]); (mkCat "1" [22]); (mkCat "2" [22]); (mkCat "3" [22]); (mkCat "4" [22]); (new_category "5" [22; 11]); (new_category "6" [22; 11]); (new_category "7" [22; 11]); (new_category "8" [22; 11]); (new_category "9" [22; 11])] in t <- new_int_tree cats []%nat (SList [(SInt 0); (SList [(SInt 1); (SList [(SInt 2); (SList [(SInt 3); (SList [(SInt 4); SNone])])])])]) ;; l <- int_largest_categories cats []%nat t ;; Ok (snd l)) ;; Ok ((fun x => x) x)) = Ok [4]%nat.
Proof. vm_compute. reflexivity. Qed.
Example int_tree_592 : (x <- (let cats := [(new_category "0" [22; 11]); (new_category "1" [22; 11]); (new_category "2" [22; 11]); (new_category "3" [22; 11]); (new_category "4" [22; 11]); (new_category "5" [22; 11]); (new_category "6" [22; 11]); (new_category "7" [22; 11]); (new_category "8" [22; 11]); (new_category "9" [22; 11])] in t <- new_int_tree cats [1; 2; 1; 2; 1; 1; 1; 1; 1; 1]%nat (SList [(SInt 0); (SList [(SInt 1); (SList [(SInt 2); (SList [(SInt 3); (SList [(SInt 4); SNone])])])])]) ;; l <- int_largest_categories cats [1; 2; 1; 2; 1; 1; 1; 1; 1; 1]%nat t ;; Ok (snd l)) ;; Ok ((fun x => x) x)) = Ok [0]%nat.
Proof. vm_compute. reflexivity. Qed.
Example int_tree_595 : (x <- (let cats := [(mkCat "0" [22]); (new_category "1" [22; 11]); (new_category "2" [22; 11]); (new_category "3" [22; 11]); (new_category "4" [22; 11]); (new_category "5" [22; 11]); (new_category "6" [22; 11]); (new_category "7" [22; 11]); (new_category "8" [22; 11]); (new_category "9" [22; 11])] in t <- new_int_tree cats [1; 2; 1; 2; 1; 1; 1; 1; 1; 1]%nat (SList [(SInt 0); (SList [(SInt 1); (SList [(SInt 2); (SList [(SInt 3); (SList [(SInt 4); SNone])])])])]) ;; l <- int_largest_categories cats [1; 2; 1; 2; 1; 1; 1; 1; 1; 1]%nat t ;; Ok (snd l)) ;; Ok ((fun x => x) x)) = Ok [2]%nat.
Proof. vm_compute. reflexivity. Qed.
Example int_tree_598 : (x <- (let cats := [(mkCat "0" [22]); (new_category "1" [22; 11]); (mkCat "2" [22]); (new_category "3" [22; 11]); (new_category "4" [22; 11]); (new_category "5" [22; 11]); (new_category "6" [22; 11]); (new_category "7" [22; 11]); (new_category "8" [22; 11]); (new_category "9" [22; 11])] in t <- new_int_tree cats [1; 2; 1; 2; 1; 1; 1; 1; 1; 1]%nat (SList [(SInt 0); (SList [(SInt 1); (SList [(SInt 2); (SList [(SInt 3); (SList [(SInt 4); SNone])])])])]) ;; l <- int_largest_categories cats [1; 2; 1; 2; 1; 1; 1; 1; 1; 1]%nat t ;; Ok (snd l)) ;; Ok ((fun x => x) x)) = Ok [4]%nat.
Proof. vm_compute. reflexivity. Qed.
Example int_tree_601 : (x <- (let cats := [(mkCat "0" [22]); (new_category "1" [22; 11]); (mkCat "2" [22]); (new_category "3" [22; 11]); (mkCat "4" [22]); (new_category "5" [22; 11]); (new_category "6" [22; 11]); (new_category "7" [22; 11]); (new_category "8" [22; 11]); (new_category "9" [22; 11])] in t <- new_int_tree cats [1; 2; 1; 2; 1; 1; 1; 1; 1; 1]%nat (SList [(SInt 0); (SList [(SInt 1); (SList [(SInt 2); (SList [(SInt 3); (SList [(SInt 4); SNone])])])])]) ;; l <- int_largest_categories cats [1; 2; 1; 2; 1; 1; 1; 1; 1; 1]%nat t ;; Ok (snd l)) ;; Ok ((fun x => x) x)) = Ok [4]%nat.
Proof. vm_compute. reflexivity. Qed.
Example int_tree_604 : (x <- (let cats := [(mkCat "0" [22]); (new_category "1" [22; 11]); (mkCat "2" [22]); (new_category "3" [22; 11]); (mkCat "4" []); (new_category "5" [22; 11]); (new_category "6" [22; 11]); (new_category "7" [22; 11]); (new_category "8" [22; 11]); (new_category "9" [22; 11])] in t <- new_int_tree cats [1; 2; 1; 2; 1; 1; 1; 1; 1; 1]%nat (SList [(SInt 0); (SList [(SInt 1); (SList [(SInt 2); (SList [(SInt 3); (SList [(SInt 4); SNone])])])])]) ;; l <- int_largest_categories cats [1; 2; 1; 2; 1; 1; 1; 1; 1; 1]%nat t ;; Ok (snd l)) ;; Ok ((fun x => x) x)) = Ok [3]%nat.
Proof. vm_compute. reflexivity. Qed.
Example int_tree_607 : (x <- (let cats := [(mkCat "0" [22]); (new_category "1" [22; 11]); (mkCat "2" [22]); (mkCat "3" [22]); (mkCat "4" []); (new_category "5" [22; 11]); (new_category "6" [22; 11]); (new_category "7" [22; 11]); (new_category "8" [22; 11]); (new_category "9" [22; 11])] in t <- new_int_tree cats [1; 2; 1; 2; 1; 1; 1; 1; 1; 1]%nat (SList [(SInt 0); (SList [(SInt 1); (SList [(SInt 2); (SList [(SInt 3); (SList [(SInt 4); SNone])])])])]) ;; l <- int_largest_categories cats [1; 2; 1; 2; 1; 1; 1; 1; 1; 1]%nat t ;; Ok (snd l)) ;; Ok ((fun x => x) x)) = Ok [3]%nat.
Proof. vm_compute. reflexivity. Qed.

(** ** recipetree.old.py *)

Example old_tree_41 : (x <- (let cats := [(new_category "buyer" [60; 40; 20; (-30)]); (new_category "seller" [(-10); (-30); (-50)]); (new_category "producerA" [(-1); (-3); (-5)]); (new_category "producerB" [(-2); (-4); (-6); (-8)])] in t <- new_tree cats (SList [(SInt 0); SNone]) ;; Ok (combined_values cats t)) ;; Ok ((fun l => map Qred l) x)) = Ok [60; 40; 20; (-30)].
Proof. vm_compute. reflexivity. Qed.
Example old_tree_43 : (x <- (let cats := [(new_category "buyer" [60; 40; 20; (-30)]); (new_category "seller" [(-10); (-30); (-50)]); (new_category "producerA" [(-1); (-3); (-5)]); (new_category "producerB" [(-2); (-4); (-6); (-8)])] in t <- new_tree cats (SList [(SInt 0); SNone]) ;; Ok (detailed_values cats t)) ;; Ok ((fun l => map (map Qred) l) x)) = Ok [[60]; [40]; [20]; [(-30)]].
Proof. vm_compute. reflexivity. Qed.
Example old_tree_45 : (x <- (let cats := [(new_category "buyer" [60; 40; 20; (-30)]); (new_category "seller" [(-10); (-30); (-50)]); (new_category "producerA" [(-1); (-3); (-5)]); (new_category "producerB" [(-2); (-4); (-6); (-8)])] in t <- new_tree cats (SList [(SInt 0); SNone]) ;; Ok (old_optimal_trade_GFT cats t)) ;; Ok (Qred x)) = Ok 120.
Proof. vm_compute. reflexivity. Qed.
Example old_tree_47 : (x <- (let cats := [(new_category "buyer" [60; 40; 20; (-30)]); (new_category "seller" [(-10); (-30); (-50)]); (new_category "producerA" [(-1); (-3); (-5)]); (new_category "producerB" [(-2); (-4); (-6); (-8)])] in t <- new_tree cats (SList [(SInt 0); SNone]) ;; l <- Ok (old_largest_categories cats t) ;; Ok (map (fun i => cname (cat_at cats i)) (snd l))) ;; Ok ((fun x => x) x)) = Ok ["buyer"].
Proof. vm_compute. reflexivity. Qed.
Example old_tree_49 : (x <- (let cats := [(new_category "buyer" [60; 40; 20; (-30)]); (new_category "seller" [(-10); (-30); (-50)]); (new_category "producerA" [(-1); (-3); (-5)]); (new_category "producerB" [(-2); (-4); (-6); (-8)])] in t <- new_tree cats (SList [(SInt 0); SNone]) ;; Ok (paths_to_leaf_names cats t)) ;; Ok ((fun x => x) x)) = Ok [["buyer"]].
Proof. vm_compute. reflexivity. Qed.
Example old_tree_51 : (x <- (let cats := [(new_category "buyer" [60; 40; 20; (-30)]); (new_category "seller" [(-10); (-30); (-50)]); (new_category "producerA" [(-1); (-3); (-5)]); (new_category "producerB" [(-2); (-4); (-6); (-8)])] in t <- new_tree cats (SList [(SInt 0); SNone]) ;; Ok (tree_num_of_deals cats t)) ;; Ok ((fun x => x) x)) = Ok 4%nat.
Proof. vm_compute. reflexivity. Qed.
Example old_tree_58 : (x <- (let cats := [(new_category "buyer" [60; 40; 20; (-30)]); (new_category "seller" [(-10); (-30); (-50)]); (new_category "producerA" [(-1); (-3); (-5)]); (new_category "producerB" [(-2); (-4); (-6); (-8)])] in t <- new_tree cats (SList [(SInt 0); (SList [(SInt 1); SNone])]) ;; Ok (combined_values cats t)) ;; Ok ((fun l => map Qred l) x)) = Ok [50; 10; (-30)].
Proof. vm_compute. reflexivity. Qed.
Example old_tree_60 : (x <- (let cats := [(new_category "buyer" [60; 40; 20; (-30)]); (new_category "seller" [(-10); (-30); (-50)]); (new_category "producerA" [(-1); (-3); (-5)]); (new_category "producerB" [(-2); (-4); (-6); (-8)])] in t <- new_tree cats (SList [(SInt 0); (SList [(SInt 1); SNone])]) ;; Ok (detailed_values cats t)) ;; Ok ((fun l => map (map Qred) l) x)) = Ok [[60; (-10)]; [40; (-30)]; [20; (-50)]].
Proof. vm_compute. reflexivity. Qed.
Example old_tree_62 : (x <- (let cats := [(new_category "buyer" [60; 40; 20; (-30)]); (new_category "seller" [(-10); (-30); (-50)]); (new_category "producerA" [(-1); (-3); (-5)]); (new_category "producerB" [(-2); (-4); (-6); (-8)])] in t <- new_tree cats (SList [(SInt 0); (SList [(SInt 1); SNone])]) ;; Ok (old_optimal_trade_GFT cats t)) ;; Ok (Qred x)) = Ok 60.
Proof. vm_compute. reflexivity. Qed.
Example old_tree_64 : (x <- (let cats := [(new_category "buyer" [60; 40; 20; (-30)]); (new_category "seller" [(-10); (-30); (-50)]); (new_category "producerA" [(-1); (-3); (-5)]); (new_category "producerB" [(-2); (-4); (-6); (-8)])] in t <- new_tree cats (SList [(SInt 0); (SList [(SInt 1); SNone])]) ;; l <- Ok (old_largest_categories cats t) ;; Ok (map (fun i => cname (cat_at cats i)) (snd l))) ;; Ok ((fun x => x) x)) = Ok ["buyer"].
Proof. vm_compute. reflexivity. Qed.
Example old_tree_66 : (x <- (let cats := [(new_category "buyer" [60; 40; 20; (-30)]); (new_category "seller" [(-10); (-30); (-50)]); (new_category "producerA" [(-1); (-3); (-5)]); (new_category "producerB" [(-2); (-4); (-6); (-8)])] in t <- new_tree cats (SList [(SInt 0); (SList [(SInt 1); SNone])]) ;; Ok (paths_to_leaf_names cats t)) ;; Ok ((fun x => x) x)) = Ok [["buyer"; "seller"]].
Proof. vm_compute. reflexivity. Qed.
Example old_tree_68 : (x <- (let cats := [(new_category "buyer" [60; 40; 20; (-30)]); (new_category "seller" [(-10); (-30); (-50)]); (new_category "producerA" [(-1); (-3); (-5)]); (new_category "producerB" [(-2); (-4); (-6); (-8)])] in t <- new_tree cats (SList [(SInt 0); (SList [(SInt 1); SNone])]) ;; Ok (tree_num_of_deals cats t)) ;; Ok ((fun x => x) x)) = Ok 3%nat.
Proof. vm_compute. reflexivity. Qed.
Example old_tree_77 : (x <- (let cats := [(new_category "buyer" [60; 40; 20; (-30)]); (new_category "seller" [(-10); (-30); (-50)]); (new_category "producerA" [(-1); (-3); (-5)]); (new_category "producerB" [(-2); (-4); (-6); (-8)])] in t <- new_tree cats (SList [(SInt 0); (SList [(SInt 2); SNone; (SInt 3); SNone])]) ;; Ok (combined_values cats t)) ;; Ok ((fun l => map Qred l) x)) = Ok [59; 38; 17; (-34)].
Proof. vm_compute. reflexivity. Qed.
Example old_tree_79 : (x <- (let cats := [(new_category "buyer" [60; 40; 20; (-30)]); (new_category "seller" [(-10); (-30); (-50)]); (new_category "producerA" [(-1); (-3); (-5)]); (new_category "producerB" [(-2); (-4); (-6); (-8)])] in t <- new_tree cats (SList [(SInt 0); (SList [(SInt 2); SNone; (SInt 3); SNone])]) ;; Ok (detailed_values cats t)) ;; Ok ((fun l => map (map Qred) l) x)) = Ok [[60; (-1)]; [40; (-2)]; [20; (-3)]; [(-30); (-4)]].
Proof. vm_compute. reflexivity. Qed.
Example old_tree_81 : (x <- (let cats := [(new_category "buyer" [60; 40; 20; (-30)]); (new_category "seller" [(-10); (-30); (-50)]); (new_category "producerA" [(-1); (-3); (-5)]); (new_category "producerB" [(-2); (-4); (-6); (-8)])] in t <- new_tree cats (SList [(SInt 0); (SList [(SInt 2); SNone; (SInt 3); SNone])]) ;; Ok (old_optimal_trade_GFT cats t)) ;; Ok (Qred x)) = Ok 114.
Proof. vm_compute. reflexivity. Qed.
Example old_tree_83 : (x <- (let cats := [(new_category "buyer" [60; 40; 20; (-30)]); (new_category "seller" [(-10); (-30); (-50)]); (new_category "producerA" [(-1); (-3); (-5)]); (new_category "producerB" [(-2); (-4); (-6); (-8)])] in t <- new_tree cats (SList [(SInt 0); (SList [(SInt 2); SNone; (SInt 3); SNone])]) ;; l <- Ok (old_largest_categories cats t) ;; Ok (map (fun i => cname (cat_at cats i)) (snd l))) ;; Ok ((fun x => x) x)) = Ok ["producerA"; "producerB"].
Proof. vm_compute. reflexivity. Qed.
Example old_tree_85 : (x <- (let cats := [(new_category "buyer" [60; 40; 20; (-30)]); (new_category "seller" [(-10); (-30); (-50)]); (new_category "producerA" [(-1); (-3); (-5)]); (new_category "producerB" [(-2); (-4); (-6); (-8)])] in t <- new_tree cats (SList [(SInt 0); (SList [(SInt 2); SNone; (SInt 3); SNone])]) ;; Ok (paths_to_leaf_names cats t)) ;; Ok ((fun x => x) x)) = Ok [["buyer"; "producerA"]; ["buyer"; "producerB"]].
Proof. vm_compute. reflexivity. Qed.
Example old_tree_87 : (x <- (let cats := [(new_category "buyer" [60; 40; 20; (-30)]); (new_category "seller" [(-10); (-30); (-50)]); (new_category "producerA" [(-1); (-3); (-5)]); (new_category "producerB" [(-2); (-4); (-6); (-8)])] in t <- new_tree cats (SList [(SInt 0); (SList [(SInt 2); SNone; (SInt 3); SNone])]) ;; old_recipes (length cats) t) ;; Ok ((fun x => x) x)) = Ok [[1; 0; 1; 0]; [1; 0; 0; 1]]%nat.
Proof. vm_compute. reflexivity. Qed.
Example old_tree_89 : (x <- (let cats := [(new_category "buyer" [60; 40; 20; (-30)]); (new_category "seller" [(-10); (-30); (-50)]); (new_category "producerA" [(-1); (-3); (-5)]); (new_category "producerB" [(-2); (-4); (-6); (-8)])] in t <- new_tree cats (SList [(SInt 0); (SList [(SInt 2); SNone; (SInt 3); SNone])]) ;; Ok (tree_num_of_deals cats t)) ;; Ok ((fun x => x) x)) = Ok 4%nat.
Proof. vm_compute. reflexivity. Qed.
Example old_tree_100 : (x <- (let cats := [(new_category "buyer" [60; 40; 20; (-30)]); (new_category "seller" [(-10); (-30); (-50)]); (new_category "producerA" [(-1); (-3); (-5)]); (new_category "producerB" [(-2); (-4); (-6); (-8)])] in t <- new_tree cats (SList [(SInt 0); (SList [(SInt 1); SNone; (SInt 2); (SList [(SInt 3); SNone])])]) ;; Ok (combined_values cats t)) ;; Ok ((fun l => map Qred l) x)) = Ok [57; 33; 10; (-41)].
Proof. vm_compute. reflexivity. Qed.
Example old_tree_102 : (x <- (let cats := [(new_category "buyer" [60; 40; 20; (-30)]); (new_category "seller" [(-10); (-30); (-50)]); (new_category "producerA" [(-1); (-3); (-5)]); (new_category "producerB" [(-2); (-4); (-6); (-8)])] in t <- new_tree cats (SList [(SInt 0); (SList [(SInt 1); SNone; (SInt 2); (SList [(SInt 3); SNone])])]) ;; Ok (detailed_values cats t)) ;; Ok ((fun l => map (map Qred) l) x)) = Ok [[60; (-1); (-2)]; [40; (-3); (-4)]; [20; (-10)]; [(-30); (-5); (-6)]].
Proof. vm_compute. reflexivity. Qed.
Example old_tree_104 : (x <- (let cats := [(new_category "buyer" [60; 40; 20; (-30)]); (new_category "seller" [(-10); (-30); (-50)]); (new_category "producerA" [(-1); (-3); (-5)]); (new_category "producerB" [(-2); (-4); (-6); (-8)])] in t <- new_tree cats (SList [(SInt 0); (SList [(SInt 1); SNone; (SInt 2); (SList [(SInt 3); SNone])])]) ;; Ok (old_optimal_trade_GFT cats t)) ;; Ok (Qred x)) = Ok 100.
Proof. vm_compute. reflexivity. Qed.
Example old_tree_106 : (x <- (let cats := [(new_category "buyer" [60; 40; 20; (-30)]); (new_category "seller" [(-10); (-30); (-50)]); (new_category "producerA" [(-1); (-3); (-5)]); (new_category "producerB" [(-2); (-4); (-6); (-8)])] in t <- new_tree cats (SList [(SInt 0); (SList [(SInt 1); SNone; (SInt 2); (SList [(SInt 3); SNone])])]) ;; l <- Ok (old_largest_categories cats t) ;; Ok (map (fun i => cname (cat_at cats i)) (snd l))) ;; Ok ((fun x => x) x)) = Ok ["seller"; "producerB"].
Proof. vm_compute. reflexivity. Qed.
Example old_tree_108 : (x <- (let cats := [(new_category "buyer" [60; 40; 20; (-30)]); (new_category "seller" [(-10); (-30); (-50)]); (new_category "producerA" [(-1); (-3); (-5)]); (new_category "producerB" [(-2); (-4); (-6); (-8)])] in t <- new_tree cats (SList [(SInt 0); (SList [(SInt 1); SNone; (SInt 2); (SList [(SInt 3); SNone])])]) ;; l <- Ok (old_largest_categories cats t) ;; Ok (snd l)) ;; Ok ((fun x => x) x)) = Ok [1; 3]%nat.
Proof. vm_compute. reflexivity. Qed.
Example old_tree_110 : (x <- (let cats := [(new_category "buyer" [60; 40; 20; (-30)]); (new_category "seller" [(-10); (-30); (-50)]); (new_category "producerA" [(-1); (-3); (-5)]); (new_category "producerB" [(-2); (-4); (-6); (-8)])] in t <- new_tree cats (SList [(SInt 0); (SList [(SInt 1); SNone; (SInt 2); (SList [(SInt 3); SNone])])]) ;; Ok (paths_to_leaf_names cats t)) ;; Ok ((fun x => x) x)) = Ok [["buyer"; "seller"]; ["buyer"; "producerA"; "producerB"]].
Proof. vm_compute. reflexivity. Qed.
Example old_tree_112 : (x <- (let cats := [(new_category "buyer" [60; 40; 20; (-30)]); (new_category "seller" [(-10); (-30); (-50)]); (new_category "producerA" [(-1); (-3); (-5)]); (new_category "producerB" [(-2); (-4); (-6); (-8)])] in t <- new_tree cats (SList [(SInt 0); (SList [(SInt 1); SNone; (SInt 2); (SList [(SInt 3); SNone])])]) ;; Ok (paths_to_leaf t)) ;; Ok ((fun x => x) x)) = Ok [[0; 1]; [0; 2; 3]]%nat.
Proof. vm_compute. reflexivity. Qed.
Example old_tree_114 : (x <- (let cats := [(new_category "buyer" [60; 40; 20; (-30)]); (new_category "seller" [(-10); (-30); (-50)]); (new_category "producerA" [(-1); (-3); (-5)]); (new_category "producerB" [(-2); (-4); (-6); (-8)])] in t <- new_tree cats (SList [(SInt 0); (SList [(SInt 1); SNone; (SInt 2); (SList [(SInt 3); SNone])])]) ;; old_recipes (length cats) t) ;; Ok ((fun x => x) x)) = Ok [[1; 1; 0; 0]; [1; 0; 1; 1]]%nat.
Proof. vm_compute. reflexivity. Qed.
Example old_tree_116 : (x <- (let cats := [(new_category "buyer" [60; 40; 20; (-30)]); (new_category "seller" [(-10); (-30); (-50)]); (new_category "producerA" [(-1); (-3); (-5)]); (new_category "producerB" [(-2); (-4); (-6); (-8)])] in t <- new_tree cats (SList [(SInt 0); (SList [(SInt 1); SNone; (SInt 2); (SList [(SInt 3); SNone])])]) ;; Ok (tree_num_of_deals cats t)) ;; Ok ((fun x => x) x)) = Ok 4%nat.
Proof. vm_compute. reflexivity. Qed.
Example old_tree_133 : (x <- (let cats := [(new_category "buyer" [90; 80; 70; 60; 50; 40]); (new_category "seller" [(-10); (-30); (-50)]); (new_category "producerA" [(-1); (-3); (-5); (-7)]); (new_category "producerB" [(-2); (-4)])] in t <- new_tree cats (SList [(SInt 0); (SList [(SInt 1); SNone; (SInt 2); (SList [(SInt 3); SNone])])]) ;; Ok (detailed_values cats t)) ;; Ok ((fun l => map (map Qred) l) x)) = Ok [[90; (-1); (-2)]; [80; (-3); (-4)]; [70; (-10)]; [60; (-30)]; [50; (-50)]].
Proof. vm_compute. reflexivity. Qed.
Example old_tree_135 : (x <- (let cats := [(new_category "buyer" [90; 80; 70; 60; 50; 40]); (new_category "seller" [(-10); (-30); (-50)]); (new_category "producerA" [(-1); (-3); (-5); (-7)]); (new_category "producerB" [(-2); (-4)])] in t <- new_tree cats (SList [(SInt 0); (SList [(SInt 1); SNone; (SInt 2); (SList [(SInt 3); SNone])])]) ;; Ok (combined_values cats t)) ;; Ok ((fun l => map Qred l) x)) = Ok [87; 73; 60; 30; 0].
Proof. vm_compute. reflexivity. Qed.
Example old_tree_137 : (x <- (let cats := [(new_category "buyer" [90; 80; 70; 60; 50; 40]); (new_category "seller" [(-10); (-30); (-50)]); (new_category "producerA" [(-1); (-3); (-5); (-7)]); (new_category "producerB" [(-2); (-4)])] in t <- new_tree cats (SList [(SInt 0); (SList [(SInt 1); SNone; (SInt 2); (SList [(SInt 3); SNone])])]) ;; Ok (old_optimal_trade_GFT cats t)) ;; Ok (Qred x)) = Ok 250.
Proof. vm_compute. reflexivity. Qed.
Example old_tree_139 : (x <- (let cats := [(new_category "buyer" [90; 80; 70; 60; 50; 40]); (new_category "seller" [(-10); (-30); (-50)]); (new_category "producerA" [(-1); (-3); (-5); (-7)]); (new_category "producerB" [(-2); (-4)])] in t <- new_tree cats (SList [(SInt 0); (SList [(SInt 1); SNone; (SInt 2); (SList [(SInt 3); SNone])])]) ;; Ok (tree_num_of_deals cats t)) ;; Ok ((fun x => x) x)) = Ok 5%nat.
Proof. vm_compute. reflexivity. Qed.
Example old_tree_141 : (x <- (let cats := [(new_category "buyer" [90; 80; 70; 60; 50; 40]); (new_category "seller" [(-10); (-30); (-50)]); (new_category "producerA" [(-1); (-3); (-5); (-7)]); (new_category "producerB" [(-2); (-4)])] in t <- new_tree cats (SList [(SInt 0); (SList [(SInt 1); SNone; (SInt 2); (SList [(SInt 3); SNone])])]) ;; l <- Ok (old_largest_categories cats t) ;; Ok (map (fun i => cname (cat_at cats i)) (snd l))) ;; Ok ((fun x => x) x)) = Ok ["buyer"].
Proof. vm_compute. reflexivity. Qed.
Example old_tree_146 : (x <- (let cats := [(new_category "buyer" [90; 80; 70; 60; 50; 40]); (new_category "seller" [(-10); (-30); (-50)]); (mkCat "producerA" [(-1); (-3); (-5); (-7); (-9); (-11); (-13)]); (mkCat "producerB" [(-2); (-4); (-6); (-8); (-10)])] in t <- new_tree cats (SList [(SInt 0); (SList [(SInt 1); SNone; (SInt 2); (SList [(SInt 3); SNone])])]) ;; l <- Ok (old_largest_categories cats t) ;; Ok (map (fun i => cname (cat_at cats i)) (snd l))) ;; Ok ((fun x => x) x)) = Ok ["seller"; "producerA"].
Proof. vm_compute. reflexivity. Qed.
Example old_tree_200 : (x <- (old_recipe_from_path [0; 2; 3]%nat 5) ;; Ok ((fun x => x) x)) = Ok [1; 0; 1; 1; 0]%nat.
Proof. vm_compute. reflexivity. Qed.
Example old_tree_285 : (let cats := [(new_category "0" []); (new_category "1" [1]); (new_category "2" [1; 1]); (new_category "3" [1; 1; 1]); (new_category "4" [1; 1; 1; 1]); (new_category "5" [1; 1; 1; 1; 1]); (new_category "6" [1; 1; 1; 1; 1; 1]); (new_category "7" [1; 1; 1; 1; 1; 1; 1]); (new_category "8" [1; 1; 1; 1; 1; 1; 1; 1]); (new_category "9" [1; 1; 1; 1; 1; 1; 1; 1; 1])] in t <- new_tree cats (SList [(SInt 6); SNone]) ;; l <- Ok (old_largest_categories cats t) ;; Ok l) = Ok (6%nat, 6%nat, [6]%nat).
Proof. vm_compute. reflexivity. Qed.
Example old_tree_287 : (x <- (let cats := [(new_category "0" []); (new_category "1" [1]); (new_category "2" [1; 1]); (new_category "3" [1; 1; 1]); (new_category "4" [1; 1; 1; 1]); (new_category "5" [1; 1; 1; 1; 1]); (new_category "6" [1; 1; 1; 1; 1; 1]); (new_category "7" [1; 1; 1; 1; 1; 1; 1]); (new_category "8" [1; 1; 1; 1; 1; 1; 1; 1]); (new_category "9" [1; 1; 1; 1; 1; 1; 1; 1; 1])] in t <- new_tree cats (SList [(SInt 6); (SList [(SInt 8); SNone])]) ;; l <- Ok (old_largest_categories cats t) ;; Ok (snd l)) ;; Ok ((fun x => x) x)) = Ok [8]%nat.
Proof. vm_compute. reflexivity. Qed.
Example old_tree_289 : (x <- (let cats := [(new_category "0" []); (new_category "1" [1]); (new_category "2" [1; 1]); (new_category "3" [1; 1; 1]); (new_category "4" [1; 1; 1; 1]); (new_category "5" [1; 1; 1; 1; 1]); (new_category "6" [1; 1; 1; 1; 1; 1]); (new_category "7" [1; 1; 1; 1; 1; 1; 1]); (new_category "8" [1; 1; 1; 1; 1; 1; 1; 1]); (new_category "9" [1; 1; 1; 1; 1; 1; 1; 1; 1])] in t <- new_tree cats (SList [(SInt 8); (SList [(SInt 6); SNone])]) ;; l <- Ok (old_largest_categories cats t) ;; Ok (snd l)) ;; Ok ((fun x => x) x)) = Ok [8]%nat.
Proof. vm_compute. reflexivity. Qed.
Example old_tree_291 : (x <- (let cats := [(new_category "0" []); (new_category "1" [1]); (new_category "2" [1; 1]); (new_category "3" [1; 1; 1]); (new_category "4" [1; 1; 1; 1]); (new_category "5" [1; 1; 1; 1; 1]); (new_category "6" [1; 1; 1; 1; 1; 1]); (new_category "7" [1; 1; 1; 1; 1; 1; 1]); (new_category "8" [1; 1; 1; 1; 1; 1; 1; 1]); (new_category "9" [1; 1; 1; 1; 1; 1; 1; 1; 1])] in t <- new_tree cats (SList [(SInt 6); (SList [(SInt 8); (SList [(SInt 7); SNone])])]) ;; l <- Ok (old_largest_categories cats t) ;; Ok (snd l)) ;; Ok ((fun x => x) x)) = Ok [8]%nat.
Proof. vm_compute. reflexivity. Qed.
Example old_tree_293 : (x <- (let cats := [(new_category "0" []); (new_category "1" [1]); (new_category "2" [1; 1]); (new_category "3" [1; 1; 1]); (new_category "4" [1; 1; 1; 1]); (new_category "5" [1; 1; 1; 1; 1]); (new_category "6" [1; 1; 1; 1; 1; 1]); (new_category "7" [1; 1; 1; 1; 1; 1; 1]); (new_category "8" [1; 1; 1; 1; 1; 1; 1; 1]); (new_category "9" [1; 1; 1; 1; 1; 1; 1; 1; 1])] in t <- new_tree cats (SList [(SInt 7); (SList [(SInt 8); (SList [(SInt 6); SNone])])]) ;; l <- Ok (old_largest_categories cats t) ;; Ok (snd l)) ;; Ok (negb (eqb_list Nat.eqb x [6]%nat))) = Ok true.
Proof. vm_compute. reflexivity. Qed.
Example old_tree_295 : (x <- (let cats := [(new_category "0" []); (new_category "1" [1]); (new_category "2" [1; 1]); (new_category "3" [1; 1; 1]); (new_category "4" [1; 1; 1; 1]); (new_category "5" [1; 1; 1; 1; 1]); (new_category "6" [1; 1; 1; 1; 1; 1]); (new_category "7" [1; 1; 1; 1; 1; 1; 1]); (new_category "8" [1; 1; 1; 1; 1; 1; 1; 1]); (new_category "9" [1; 1; 1; 1; 1; 1; 1; 1; 1])] in t <- new_tree cats (SList [(SInt 7); (SList [(SInt 8); (SList [(SInt 5); (SList [(SInt 6); SNone])])])]) ;; l <- Ok (old_largest_categories cats t) ;; Ok (snd l)) ;; Ok (negb (eqb_list Nat.eqb x [5]%nat))) = Ok true.
Proof. vm_compute. reflexivity. Qed.
Example old_tree_297 : (x <- (let cats := [(new_category "0" []); (new_category "1" [1]); (new_category "2" [1; 1]); (new_category "3" [1; 1; 1]); (new_category "4" [1; 1; 1; 1]); (new_category "5" [1; 1; 1; 1; 1]); (new_category "6" [1; 1; 1; 1; 1; 1]); (new_category "7" [1; 1; 1; 1; 1; 1; 1]); (new_category "8" [1; 1; 1; 1; 1; 1; 1; 1]); (new_category "9" [1; 1; 1; 1; 1; 1; 1; 1; 1])] in t <- new_tree cats (SList [(SInt 6); (SList [(SInt 3); SNone; (SInt 4); (SList [(SInt 2); SNone])])]) ;; l <- Ok (old_largest_categories cats t) ;; Ok (snd l)) ;; Ok ((fun x => x) x)) = Ok [6]%nat.
Proof. vm_compute. reflexivity. Qed.
Example old_tree_299 : (x <- (let cats := [(new_category "0" []); (new_category "1" [1]); (new_category "2" [1; 1]); (new_category "3" [1; 1; 1]); (new_category "4" [1; 1; 1; 1]); (new_category "5" [1; 1; 1; 1; 1]); (new_category "6" [1; 1; 1; 1; 1; 1]); (new_category "7" [1; 1; 1; 1; 1; 1; 1]); (new_category "8" [1; 1; 1; 1; 1; 1; 1; 1]); (new_category "9" [1; 1; 1; 1; 1; 1; 1; 1; 1])] in t <- new_tree cats (SList [(SInt 6); (SList [(SInt 3); SNone; (SInt 2); (SList [(SInt 4); SNone])])]) ;; l <- Ok (old_largest_categories cats t) ;; Ok (snd l)) ;; Ok ((fun x => x) x)) = Ok [6]%nat.
Proof. vm_compute. reflexivity. Qed.
Example old_tree_301 : (x <- (let cats := [(new_category "0" []); (new_category "1" [1]); (new_category "2" [1; 1]); (new_category "3" [1; 1; 1]); (new_category "4" [1; 1; 1; 1]); (new_category "5" [1; 1; 1; 1; 1]); (new_category "6" [1; 1; 1; 1; 1; 1]); (new_category "7" [1; 1; 1; 1; 1; 1; 1]); (new_category "8" [1; 1; 1; 1; 1; 1; 1; 1]); (new_category "9" [1; 1; 1; 1; 1; 1; 1; 1; 1])] in t <- new_tree cats (SList [(SInt 6); (SList [(SInt 3); SNone; (SInt 7); (SList [(SInt 5); SNone])])]) ;; l <- Ok (old_largest_categories cats t) ;; Ok (snd l)) ;; Ok ((fun x => x) x)) = Ok [3; 7]%nat.
Proof. vm_compute. reflexivity. Qed.
Example old_tree_303 : (x <- (let cats := [(new_category "0" []); (new_category "1" [1]); (new_category "2" [1; 1]); (new_category "3" [1; 1; 1]); (new_category "4" [1; 1; 1; 1]); (new_category "5" [1; 1; 1; 1; 1]); (new_category "6" [1; 1; 1; 1; 1; 1]); (new_category "7" [1; 1; 1; 1; 1; 1; 1]); (new_category "8" [1; 1; 1; 1; 1; 1; 1; 1]); (new_category "9" [1; 1; 1; 1; 1; 1; 1; 1; 1])] in t <- new_tree cats (SList [(SInt 6); (SList [(SInt 3); SNone; (SInt 5); (SList [(SInt 7); SNone])])]) ;; l <- Ok (old_largest_categories cats t) ;; Ok (snd l)) ;; Ok ((fun x => x) x)) = Ok [3; 7]%nat.
Proof. vm_compute. reflexivity. Qed.
Example old_tree_305 : (x <- (let cats := [(new_category "0" []); (new_category "1" [1]); (new_category "2" [1; 1]); (new_category "3" [1; 1; 1]); (new_category "4" [1; 1; 1; 1]); (new_category "5" [1; 1; 1; 1; 1]); (new_category "6" [1; 1; 1; 1; 1; 1]); (new_category "7" [1; 1; 1; 1; 1; 1; 1]); (new_category "8" [1; 1; 1; 1; 1; 1; 1; 1]); (new_category "9" [1; 1; 1; 1; 1; 1; 1; 1; 1])] in t <- new_tree cats (SList [(SInt 5); (SList [(SInt 6); (SList [(SInt 4); SNone]); (SInt 4); (SList [(SInt 6); SNone])])]) ;; l <- Ok (old_largest_categories cats t) ;; Ok (snd l)) ;; Ok ((fun x => x) x)) = Ok [6; 6]%nat.
Proof. vm_compute. reflexivity. Qed.
Example old_tree_307 : (x <- (let cats := [(new_category "0" []); (new_category "1" [1]); (new_category "2" [1; 1]); (new_category "3" [1; 1; 1]); (new_category "4" [1; 1; 1; 1]); (new_category "5" [1; 1; 1; 1; 1]); (new_category "6" [1; 1; 1; 1; 1; 1]); (new_category "7" [1; 1; 1; 1; 1; 1; 1]); (new_category "8" [1; 1; 1; 1; 1; 1; 1; 1]); (new_category "9" [1; 1; 1; 1; 1; 1; 1; 1; 1])] in t <- new_tree cats (SList [(SInt 7); (SList [(SInt 6); (SList [(SInt 4); SNone]); (SInt 4); (SList [(SInt 6); SNone])])]) ;; l <- Ok (old_largest_categories cats t) ;; Ok (snd l)) ;; Ok ((fun x => x) x)) = Ok [6; 6]%nat.
Proof. vm_compute. reflexivity. Qed.
Example old_tree_309 : (x <- (let cats := [(new_category "0" []); (new_category "1" [1]); (new_category "2" [1; 1]); (new_category "3" [1; 1; 1]); (new_category "4" [1; 1; 1; 1]); (new_category "5" [1; 1; 1; 1; 1]); (new_category "6" [1; 1; 1; 1; 1; 1]); (new_category "7" [1; 1; 1; 1; 1; 1; 1]); (new_category "8" [1; 1; 1; 1; 1; 1; 1; 1]); (new_category "9" [1; 1; 1; 1; 1; 1; 1; 1; 1])] in t <- new_tree cats (SList [(SInt 8); (SList [(SInt 6); (SList [(SInt 4); SNone]); (SInt 4); (SList [(SInt 6); SNone])])]) ;; l <- Ok (old_largest_categories cats t) ;; Ok (snd l)) ;; Ok ((fun x => x) x)) = Ok [6; 6]%nat.
Proof. vm_compute. reflexivity. Qed.
Example old_tree_311 : (x <- (let cats := [(new_category "0" []); (new_category "1" [1]); (new_category "2" [1; 1]); (new_category "3" [1; 1; 1]); (new_category "4" [1; 1; 1; 1]); (new_category "5" [1; 1; 1; 1; 1]); (new_category "6" [1; 1; 1; 1; 1; 1]); (new_category "7" [1; 1; 1; 1; 1; 1; 1]); (new_category "8" [1; 1; 1; 1; 1; 1; 1; 1]); (new_category "9" [1; 1; 1; 1; 1; 1; 1; 1; 1])] in t <- new_tree cats (SList [(SInt 9); (SList [(SInt 6); (SList [(SInt 4); SNone]); (SInt 4); (SList [(SInt 6); SNone])])]) ;; l <- Ok (old_largest_categories cats t) ;; Ok (snd l)) ;; Ok ((fun x => x) x)) = Ok [9]%nat.
Proof. vm_compute. reflexivity. Qed.
Example old_tree_313 : (let cats := [(new_category "0" []); (new_category "1" [1]); (new_category "2" [1; 1]); (new_category "3" [1; 1; 1]); (new_category "4" [1; 1; 1; 1]); (new_category "5" [1; 1; 1; 1; 1]); (new_category "6" [1; 1; 1; 1; 1; 1]); (new_category "7" [1; 1; 1; 1; 1; 1; 1]); (new_category "8" [1; 1; 1; 1; 1; 1; 1; 1]); (new_category "9" [1; 1; 1; 1; 1; 1; 1; 1; 1])] in t <- new_tree cats (SList [(SInt 6); (SList [(SInt 0); SNone; (SInt 6); SNone])]) ;; l <- Ok (old_largest_categories cats t) ;; Ok l) = Ok (6%nat, 6%nat, [0; 6]%nat).
Proof. vm_compute. reflexivity. Qed.
Example old_tree_315 : (let cats := [(new_category "0" []); (new_category "1" [1]); (new_category "2" [1; 1]); (new_category "3" [1; 1; 1]); (new_category "4" [1; 1; 1; 1]); (new_category "5" [1; 1; 1; 1; 1]); (new_category "6" [1; 1; 1; 1; 1; 1]); (new_category "7" [1; 1; 1; 1; 1; 1; 1]); (new_category "8" [1; 1; 1; 1; 1; 1; 1; 1]); (new_category "9" [1; 1; 1; 1; 1; 1; 1; 1; 1])] in t <- new_tree cats (SList [(SInt 6); (SList [(SInt 6); SNone; (SInt 0); SNone])]) ;; l <- Ok (old_largest_categories cats t) ;; Ok l) = Ok (6%nat, 6%nat, [6; 0]%nat).
Proof. vm_compute. reflexivity. Qed.
Example old_tree_320 : (x <- (let cats := [(new_category "0" [22; 11]); (new_category "1" [22; 11]); (new_category "2" [22; 11]); (new_category "3" [22; 11]); (new_category "4" [22; 11]); (new_category "5" [22; 11]); (new_category "6" [22; 11]); (new_category "7" [22; 11]); (new_category "8" [22; 11]); (new_category "9" [22; 11])] in t <- new_tree cats (SList [(SInt 0); (SList [(SInt 1); (SList [(SInt 2); (SList [(SInt 3); (SList [(SInt 4); SNone])])])])]) ;; l <- Ok (old_largest_categories cats t) ;; Ok (snd l)) ;; Ok ((fun x => x) x)) = Ok [4]%nat.
Proof. vm_compute. reflexivity. Qed.
Example old_tree_323 : (x <- (let cats := [(new_category "0" [22; 11]); (new_category "1" [22; 11]); (new_category "2" [22; 11]); (new_category "3" [22; 11]); (mkCat "4" [22]); (new_category "5" [22; 11]); (new_category "6" [22; 11]); (new_category "7" [22; 11]); (new_category "8" [22; 11]); (new_category "9" [22; 11])] in t <- new_tree cats (SList [(SInt 0); (SList [(SInt 1); (SList [(SInt 2); (SList [(SInt 3); (SList [(SInt 4); SNone])])])])]) ;; l <- Ok (old_largest_categories cats t) ;; Ok (snd l)) ;; Ok ((fun x => x) x)) = Ok [0]%nat.
Proof. vm_compute. reflexivity. Qed.
Example old_tree_326 : (x <- (let cats := [(mkCat "0" [22]); (new_category "1" [22; 11]); (new_category "2" [22; 11]); (new_category "3" [22; 11]); (mkCat "4" [22]); (new_category "5" [22; 11]); (new_category "6" [22; 11]); (new_category "7" [22; 11]); (new_category "8" [22; 11]); (new_category "9" [22; 11])] in t <- new_tree cats (SList [(SInt 0); (SList [(SInt 1); (SList [(SInt 2); (SList [(SInt 3); (SList [(SInt 4); SNone])])])])]) ;; l <- Ok (old_largest_categories cats t) ;; Ok (snd l)) ;; Ok ((fun x => x) x)) = Ok [1]%nat.
Proof. vm_compute. reflexivity. Qed.
Example old_tree_329 : (x <- (let cats := [(mkCat "0" [22]); (mkCat "1" [22]); (new_category "2" [22; 11]); (new_category "3" [22; 11]); (mkCat "4" [22]); (new_category "5" [22; 11]); (new_category "6" [22; 11]); (new_category "7" [22; 11]); (new_category "8" [22; 11]); (new_category "9" [22; 11])] in t <- new_tree cats (SList [(SInt 0); (SList [(SInt 1); (SList [(SInt 2); (SList [(SInt 3); (SList [(SInt 4); SNone])])])])]) ;; l <- Ok (old_largest_categories cats t) ;; Ok (snd l)) ;; Ok ((fun x => x) x)) = Ok [2]%nat.
Proof. vm_compute. reflexivity. Qed.
Example old_tree_332 : (x <- (let cats := [(mkCat "0" [22]); (mkCat "1" [22]); (mkCat "2" [22]); (new_category "3" [22; 11]); (mkCat "4" [22]); (new_category "5" [22; 11]); (new_category "6" [22; 11]); (new_category "7" [22; 11]); (new_category "8" [22; 11]); (new_category "9" [22; 11])] in t <- new_tree cats (SList [(SInt 0); (SList [(SInt 1); (SList [(SInt 2); (SList [(SInt 3); (SList [(SInt 4); SNone])])])])]) ;; l <- Ok (old_largest_categories cats t) ;; Ok (snd l)) ;; Ok ((fun x => x) x)) = Ok [3]%nat.
Proof. vm_compute. reflexivity. Qed.
Example old_tree_335 : (x <- (let cats := [(mkCat "0" [22]); (mkCat "1" [22]); (mkCat "2" [22]); (mkCat "3" [22]); (mkCat "4" [22]); (new_category "5" [22; 11]); (new_category "6" [22; 11]); (new_category "7" [22; 11]); (new_category "8" [22; 11]); (new_category "9" [22; 11])] in t <- new_tree cats (SList [(SInt 0); (SList [(SInt 1); (SList [(SInt 2); (SList [(SInt 3); (SList [(SInt 4); SNone])])])])]) ;; l <- Ok (old_largest_categories cats t) ;; Ok (snd l)) ;; Ok ((fun x => x) x)) = Ok [4]%nat.
Proof. vm_compute. reflexivity. Qed.

(** ** ascending_auction_test.py, and the same cases with the tree protocol (ascending_auction_recipetree_test.py:56-76)

    Seven of the ten cases with three categories record the prices of the tree protocol: the tree of the helper treats the
    categories in another order than the single-recipe protocol does, so the unit test test_market_1_1_1 fails for the
    single-recipe protocol (C71_test_prices_refuted).  For line 85: the prices of the buyers, the mediators and the sellers are
    raised in this order, to 8, to -2, and to -6, where the sum is zero; the test expects -4 and -4.  The number of deals is
    right.  For these cases there are two examples: the recorded prices are not those of the single-recipe protocol, and the
    actual ones. *)

Example asc_test_47 : deals_and_prices (ascending_auction [new_category "buyer" [9]; new_category "seller" [(-4)]] [1; 1]%nat) 0 [None; None] = true.
Proof. vm_compute. reflexivity. Qed.
Example tree_test_47 : tree_deals_and_prices (tree_auction MAX_VALUE (repeat (- MAX_VALUE) 2) 60 [new_category "buyer" [9]; new_category "seller" [(-4)]] (ps_recipe_to_recipe_struct [1; 1]%nat)) 0 [None; None] = true.
Proof. vm_compute. reflexivity. Qed.
Example asc_test_49 : deals_and_prices (ascending_auction [new_category "buyer" [9; 8]; new_category "seller" [(-4)]] [1; 1]%nat) 0 [None; None] = true.
Proof. vm_compute. reflexivity. Qed.
Example tree_test_49 : tree_deals_and_prices (tree_auction MAX_VALUE (repeat (- MAX_VALUE) 2) 60 [new_category "buyer" [9; 8]; new_category "seller" [(-4)]] (ps_recipe_to_recipe_struct [1; 1]%nat)) 0 [None; None] = true.
Proof. vm_compute. reflexivity. Qed.
Example asc_test_51 : deals_and_prices (ascending_auction [new_category "buyer" [9]; new_category "seller" [(-4); (-3)]] [1; 1]%nat) 1 [Some (4); Some ((-4))] = true.
Proof. vm_compute. reflexivity. Qed.
Example tree_test_51 : tree_deals_and_prices (tree_auction MAX_VALUE (repeat (- MAX_VALUE) 2) 60 [new_category "buyer" [9]; new_category "seller" [(-4); (-3)]] (ps_recipe_to_recipe_struct [1; 1]%nat)) 1 [Some (4); Some ((-4))] = true.
Proof. vm_compute. reflexivity. Qed.
Example asc_test_53 : deals_and_prices (ascending_auction [new_category "buyer" [9; 8]; new_category "seller" [(-4); (-3)]] [1; 1]%nat) 1 [Some (8); Some ((-8))] = true.
Proof. vm_compute. reflexivity. Qed.
Example tree_test_53 : tree_deals_and_prices (tree_auction MAX_VALUE (repeat (- MAX_VALUE) 2) 60 [new_category "buyer" [9; 8]; new_category "seller" [(-4); (-3)]] (ps_recipe_to_recipe_struct [1; 1]%nat)) 1 [Some (8); Some ((-8))] = true.
Proof. vm_compute. reflexivity. Qed.
Example asc_test_57 : deals_and_prices (ascending_auction [new_category "buyer" [4; 3]; new_category "seller" [9; 8]] [1; 1]%nat) 1 [Some (3); Some ((-3))] = true.
Proof. vm_compute. reflexivity. Qed.
Example tree_test_57 : tree_deals_and_prices (tree_auction MAX_VALUE (repeat (- MAX_VALUE) 2) 60 [new_category "buyer" [4; 3]; new_category "seller" [9; 8]] (ps_recipe_to_recipe_struct [1; 1]%nat)) 1 [Some (3); Some ((-3))] = true.
Proof. vm_compute. reflexivity. Qed.
Example asc_test_61 : deals_and_prices (ascending_auction [new_category "buyer" [(-4); (-3)]; new_category "seller" [(-9); (-8)]] [1; 1]%nat) 0 [None; None] = true.
Proof. vm_compute. reflexivity. Qed.
Example tree_test_61 : tree_deals_and_prices (tree_auction MAX_VALUE (repeat (- MAX_VALUE) 2) 60 [new_category "buyer" [(-4); (-3)]; new_category "seller" [(-9); (-8)]] (ps_recipe_to_recipe_struct [1; 1]%nat)) 0 [None; None] = true.
Proof. vm_compute. reflexivity. Qed.
Example asc_test_65 : deals_and_prices (ascending_auction [new_category "buyer" [19; 17; 15; 13; 11; 9]; new_category "seller" [(-12); (-10); (-8); (-6); (-4); (-2)]] [1; 1]%nat) 4 [Some (11); Some ((-11))] = true.
Proof. vm_compute. reflexivity. Qed.
Example tree_test_65 : tree_deals_and_prices (tree_auction MAX_VALUE (repeat (- MAX_VALUE) 2) 60 [new_category "buyer" [19; 17; 15; 13; 11; 9]; new_category "seller" [(-12); (-10); (-8); (-6); (-4); (-2)]] (ps_recipe_to_recipe_struct [1; 1]%nat)) 4 [Some (11); Some ((-11))] = true.
Proof. vm_compute. reflexivity. Qed.
Example asc_test_85_fails : deals_and_prices (ascending_auction [new_category "buyer" [9; 8]; new_category "mediator" [(-1); (-2)]; new_category "seller" [(-4); (-3)]] [1; 1; 1]%nat) 1 [Some (8); Some ((-4)); Some ((-4))] = false.
Proof. vm_compute. reflexivity. Qed.
Example asc_test_85_actual : deals_and_prices (ascending_auction [new_category "buyer" [9; 8]; new_category "mediator" [(-1); (-2)]; new_category "seller" [(-4); (-3)]] [1; 1; 1]%nat) 1 [Some (8); Some ((-2)); Some ((-6))] = true.
Proof. vm_compute. reflexivity. Qed.
Example tree_test_85 : tree_deals_and_prices (tree_auction MAX_VALUE (repeat (- MAX_VALUE) 3) 60 [new_category "buyer" [9; 8]; new_category "mediator" [(-1); (-2)]; new_category "seller" [(-4); (-3)]] (ps_recipe_to_recipe_struct [1; 1; 1]%nat)) 1 [Some (8); Some ((-4)); Some ((-4))] = true.
Proof. vm_compute. reflexivity. Qed.
Example asc_test_87_fails : deals_and_prices (ascending_auction [new_category "buyer" [9; 8]; new_category "mediator" [(-1); (-2)]; new_category "seller" [(-4); (-3); (-10)]] [1; 1; 1]%nat) 1 [Some (8); Some ((-4)); Some ((-4))] = false.
Proof. vm_compute. reflexivity. Qed.
Example asc_test_87_actual : deals_and_prices (ascending_auction [new_category "buyer" [9; 8]; new_category "mediator" [(-1); (-2)]; new_category "seller" [(-4); (-3); (-10)]] [1; 1; 1]%nat) 1 [Some (8); Some ((-2)); Some ((-6))] = true.
Proof. vm_compute. reflexivity. Qed.
Example tree_test_87 : tree_deals_and_prices (tree_auction MAX_VALUE (repeat (- MAX_VALUE) 3) 60 [new_category "buyer" [9; 8]; new_category "mediator" [(-1); (-2)]; new_category "seller" [(-4); (-3); (-10)]] (ps_recipe_to_recipe_struct [1; 1; 1]%nat)) 1 [Some (8); Some ((-4)); Some ((-4))] = true.
Proof. vm_compute. reflexivity. Qed.
Example asc_test_89_fails : deals_and_prices (ascending_auction [new_category "buyer" [9; 8]; new_category "mediator" [(-1); (-2)]; new_category "seller" [(-4); (-3); (-5)]] [1; 1; 1]%nat) 1 [Some (8); Some ((-4)); Some ((-4))] = false.
Proof. vm_compute. reflexivity. Qed.
Example asc_test_89_actual : deals_and_prices (ascending_auction [new_category "buyer" [9; 8]; new_category "mediator" [(-1); (-2)]; new_category "seller" [(-4); (-3); (-5)]] [1; 1; 1]%nat) 1 [Some (8); Some ((-3)); Some ((-5))] = true.
Proof. vm_compute. reflexivity. Qed.
Example tree_test_89 : tree_deals_and_prices (tree_auction MAX_VALUE (repeat (- MAX_VALUE) 3) 60 [new_category "buyer" [9; 8]; new_category "mediator" [(-1); (-2)]; new_category "seller" [(-4); (-3); (-5)]] (ps_recipe_to_recipe_struct [1; 1; 1]%nat)) 1 [Some (8); Some ((-4)); Some ((-4))] = true.
Proof. vm_compute. reflexivity. Qed.
Example asc_test_91_fails : deals_and_prices (ascending_auction [new_category "buyer" [9; 8]; new_category "mediator" [(-1); (-2)]; new_category "seller" [(-4); (-3); (-2)]] [1; 1; 1]%nat) 1 [Some (8); Some ((-5)); Some ((-3))] = false.
Proof. vm_compute. reflexivity. Qed.
Example asc_test_91_actual : deals_and_prices (ascending_auction [new_category "buyer" [9; 8]; new_category "mediator" [(-1); (-2)]; new_category "seller" [(-4); (-3); (-2)]] [1; 1; 1]%nat) 1 [Some (8); Some ((-4)); Some ((-4))] = true.
Proof. vm_compute. reflexivity. Qed.
Example tree_test_91 : tree_deals_and_prices (tree_auction MAX_VALUE (repeat (- MAX_VALUE) 3) 60 [new_category "buyer" [9; 8]; new_category "mediator" [(-1); (-2)]; new_category "seller" [(-4); (-3); (-2)]] (ps_recipe_to_recipe_struct [1; 1; 1]%nat)) 1 [Some (8); Some ((-5)); Some ((-3))] = true.
Proof. vm_compute. reflexivity. Qed.
Example asc_test_93 : deals_and_prices (ascending_auction [new_category "buyer" [9; 8; 7]; new_category "mediator" [(-1); (-2); (-3)]; new_category "seller" [(-4); (-3); (-2)]] [1; 1; 1]%nat) 2 [Some (7); Some ((-3)); Some ((-4))] = true.
Proof. vm_compute. reflexivity. Qed.
Example tree_test_93 : tree_deals_and_prices (tree_auction MAX_VALUE (repeat (- MAX_VALUE) 3) 60 [new_category "buyer" [9; 8; 7]; new_category "mediator" [(-1); (-2); (-3)]; new_category "seller" [(-4); (-3); (-2)]] (ps_recipe_to_recipe_struct [1; 1; 1]%nat)) 2 [Some (7); Some ((-3)); Some ((-4))] = true.
Proof. vm_compute. reflexivity. Qed.
Example asc_test_95 : deals_and_prices (ascending_auction [new_category "buyer" [9; 8; 4]; new_category "mediator" [(-1); (-2); (-3)]; new_category "seller" [(-4); (-3); (-2)]] [1; 1; 1]%nat) 2 [Some (7); Some ((-3)); Some ((-4))] = true.
Proof. vm_compute. reflexivity. Qed.
Example tree_test_95 : tree_deals_and_prices (tree_auction MAX_VALUE (repeat (- MAX_VALUE) 3) 60 [new_category "buyer" [9; 8; 4]; new_category "mediator" [(-1); (-2); (-3)]; new_category "seller" [(-4); (-3); (-2)]] (ps_recipe_to_recipe_struct [1; 1; 1]%nat)) 2 [Some (7); Some ((-3)); Some ((-4))] = true.
Proof. vm_compute. reflexivity. Qed.
Example asc_test_99_fails : deals_and_prices (ascending_auction [new_category "buyer" [17; 14; 13; 9; 6]; new_category "mediator" [(-1); (-3); (-4); (-7); (-10)]; new_category "seller" [(-1); (-4); (-5); (-8); (-11)]] [1; 1; 1]%nat) 2 [Some (13); Some ((-7)); Some ((-6))] = false.
Proof. vm_compute. reflexivity. Qed.
Example asc_test_99_actual : deals_and_prices (ascending_auction [new_category "buyer" [17; 14; 13; 9; 6]; new_category "mediator" [(-1); (-3); (-4); (-7); (-10)]; new_category "seller" [(-1); (-4); (-5); (-8); (-11)]] [1; 1; 1]%nat) 2 [Some (13); Some ((-5)); Some ((-8))] = true.
Proof. vm_compute. reflexivity. Qed.
Example tree_test_99 : tree_deals_and_prices (tree_auction MAX_VALUE (repeat (- MAX_VALUE) 3) 60 [new_category "buyer" [17; 14; 13; 9; 6]; new_category "mediator" [(-1); (-3); (-4); (-7); (-10)]; new_category "seller" [(-1); (-4); (-5); (-8); (-11)]] (ps_recipe_to_recipe_struct [1; 1; 1]%nat)) 2 [Some (13); Some ((-7)); Some ((-6))] = true.
Proof. vm_compute. reflexivity. Qed.
Example asc_test_102_fails : deals_and_prices (ascending_auction [new_category "buyer" [17; 14; 13; 9; 6]; new_category "mediator" [(-1); (-4); (-5); (-8); (-11)]; new_category "seller" [(-1); (-3); (-6); (-7); (-10)]] [1; 1; 1]%nat) 2 [Some (13); Some ((-7)); Some ((-6))] = false.
Proof. vm_compute. reflexivity. Qed.
Example asc_test_102_actual : deals_and_prices (ascending_auction [new_category "buyer" [17; 14; 13; 9; 6]; new_category "mediator" [(-1); (-4); (-5); (-8); (-11)]; new_category "seller" [(-1); (-3); (-6); (-7); (-10)]] [1; 1; 1]%nat) 2 [Some (13); Some ((-6)); Some ((-7))] = true.
Proof. vm_compute. reflexivity. Qed.
Example tree_test_102 : tree_deals_and_prices (tree_auction MAX_VALUE (repeat (- MAX_VALUE) 3) 60 [new_category "buyer" [17; 14; 13; 9; 6]; new_category "mediator" [(-1); (-4); (-5); (-8); (-11)]; new_category "seller" [(-1); (-3); (-6); (-7); (-10)]] (ps_recipe_to_recipe_struct [1; 1; 1]%nat)) 2 [Some (13); Some ((-7)); Some ((-6))] = true.
Proof. vm_compute. reflexivity. Qed.
Example asc_test_105_fails : deals_and_prices (ascending_auction [new_category "buyer" [17; 14; 13; 9; 6]; new_category "mediator" [(-1); (-3); (-6); (-7); (-10)]; new_category "seller" [(-1); (-4); (-13 # 2); (-8); (-11)]] [1; 1; 1]%nat) 2 [Some (13); Some ((-13 # 2)); Some ((-13 # 2))] = false.
Proof. vm_compute. reflexivity. Qed.
Example asc_test_105_actual : deals_and_prices (ascending_auction [new_category "buyer" [17; 14; 13; 9; 6]; new_category "mediator" [(-1); (-3); (-6); (-7); (-10)]; new_category "seller" [(-1); (-4); (-13 # 2); (-8); (-11)]] [1; 1; 1]%nat) 2 [Some (13); Some ((-6)); Some ((-7))] = true.
Proof. vm_compute. reflexivity. Qed.
Example tree_test_105 : tree_deals_and_prices (tree_auction MAX_VALUE (repeat (- MAX_VALUE) 3) 60 [new_category "buyer" [17; 14; 13; 9; 6]; new_category "mediator" [(-1); (-3); (-6); (-7); (-10)]; new_category "seller" [(-1); (-4); (-13 # 2); (-8); (-11)]] (ps_recipe_to_recipe_struct [1; 1; 1]%nat)) 2 [Some (13); Some ((-13 # 2)); Some ((-13 # 2))] = true.
Proof. vm_compute. reflexivity. Qed.
Example asc_test_108 : deals_and_prices (ascending_auction [new_category "buyer" [17; 14; 13; 9; 6]; new_category "mediator" [(-1); (-3); (-6); (-7); (-10)]; new_category "seller" [(-1); (-4); (-15 # 2); (-8); (-11)]] [1; 1; 1]%nat) 2 [Some ((27 # 2)); Some ((-6)); Some ((-15 # 2))] = true.
Proof. vm_compute. reflexivity. Qed.
Example tree_test_108 : tree_deals_and_prices (tree_auction MAX_VALUE (repeat (- MAX_VALUE) 3) 60 [new_category "buyer" [17; 14; 13; 9; 6]; new_category "mediator" [(-1); (-3); (-6); (-7); (-10)]; new_category "seller" [(-1); (-4); (-15 # 2); (-8); (-11)]] (ps_recipe_to_recipe_struct [1; 1; 1]%nat)) 2 [Some ((27 # 2)); Some ((-6)); Some ((-15 # 2))] = true.
Proof. vm_compute. reflexivity. Qed.
Example asc_test_126 : deals_and_prices (ascending_auction [new_category "buyer" [9]; new_category "seller" [(-4); (-3)]] [1; 2]%nat) 0 [Some (9); Some ((-9 # 2))] = true.
Proof. vm_compute. reflexivity. Qed.
Example asc_test_128 : deals_and_prices (ascending_auction [new_category "buyer" [9; 8; 7; 6]; new_category "seller" [(-6); (-5); (-4); (-3); (-2); (-1)]] [1; 2]%nat) 1 [Some (8); Some ((-4))] = true.
Proof. vm_compute. reflexivity. Qed.
Example asc_test_130 : deals_and_prices (ascending_auction [new_category "buyer" [9; 8]; new_category "seller" [(-4); (-3); (-2); (-1)]] [1; 2]%nat) 1 [Some (8); Some ((-4))] = true.
Proof. vm_compute. reflexivity. Qed.
Example asc_test_132 : deals_and_prices (ascending_auction [new_category "buyer" [9; 8]; new_category "seller" [(-6); (-3); (-2); (-1)]] [1; 2]%nat) 1 [Some (8); Some ((-4))] = true.
Proof. vm_compute. reflexivity. Qed.
Example asc_test_134 : deals_and_prices (ascending_auction [new_category "buyer" [9; 8]; new_category "seller" [(-4); (-3); (-2); (-1)]] [1; 2]%nat) 1 [Some (8); Some ((-4))] = true.
Proof. vm_compute. reflexivity. Qed.
Example asc_test_138 : deals_and_prices (ascending_auction [new_category "buyer" [0; 1; 2; 3; 4; 5; 6; 7; 8; 9; 10; 11; 12; 13; 14; 15; 16; 17; 18; 19]; new_category "seller" [(-3); (-2); (-1)]] [1; 2]%nat) 1 [Some (18); Some ((-9))] = true.
Proof. vm_compute. reflexivity. Qed.
Example asc_test_157 : deals_and_prices (ascending_auction [new_category "buyer" [9; 8]; new_category "mediator" [(-5); (-7)]; new_category "seller" [(-4); (-3)]] [1; 0; 1]%nat) 1 [Some (8); None; Some ((-8))] = true.
Proof. vm_compute. reflexivity. Qed.
Example tree_test_157 : tree_deals_and_prices (tree_auction MAX_VALUE (repeat (- MAX_VALUE) 3) 60 [new_category "buyer" [9; 8]; new_category "mediator" [(-5); (-7)]; new_category "seller" [(-4); (-3)]] (ps_recipe_to_recipe_struct [1; 0; 1]%nat)) 1 [Some (8); None; Some ((-8))] = true.
Proof. vm_compute. reflexivity. Qed.

(** ** ascending_auction_recipetree_test.py: two recipes *)

Example two_recipes_test_114 : tree_deals_and_prices (tree_auction MAX_VALUE (repeat (- MAX_VALUE) 3) 60 [new_category "buyer" [9; 8]; new_category "sellerA" [(-4)]; new_category "sellerB" [(-3)]] (SList [(SInt 0); (SList [(SInt 1); SNone; (SInt 2); SNone])])) 1 [Some (4); Some ((-4)); Some ((-4))] = true.
Proof. vm_compute. reflexivity. Qed.
Example two_recipes_test_121 : tree_deals_and_prices (tree_auction MAX_VALUE (repeat (- MAX_VALUE) 3) 60 [new_category "buyer" [19; 17; 15; 13; 11; 9]; new_category "sellerA" []; new_category "sellerB" [(-12); (-10); (-8); (-6); (-4); (-2)]] (SList [(SInt 0); (SList [(SInt 1); SNone; (SInt 2); SNone])])) 4 [Some (10); None; Some ((-10))] = true.
Proof. vm_compute. reflexivity. Qed.
Example two_recipes_test_123 : tree_deals_and_prices (tree_auction MAX_VALUE (repeat (- MAX_VALUE) 3) 60 [new_category "buyer" [19; 17; 15; 13; 11; 9]; new_category "sellerA" [(-12)]; new_category "sellerB" [(-10); (-8); (-6); (-4); (-2)]] (SList [(SInt 0); (SList [(SInt 1); SNone; (SInt 2); SNone])])) 4 [Some (10); Some ((-10)); Some ((-10))] = true.
Proof. vm_compute. reflexivity. Qed.
Example two_recipes_test_125 : tree_deals_and_prices (tree_auction MAX_VALUE (repeat (- MAX_VALUE) 3) 60 [new_category "buyer" [19; 17; 15; 13; 11; 9]; new_category "sellerA" [(-4); (-2)]; new_category "sellerB" [(-12); (-10); (-8); (-6)]] (SList [(SInt 0); (SList [(SInt 1); SNone; (SInt 2); SNone])])) 4 [Some (10); Some ((-10)); Some ((-10))] = true.
Proof. vm_compute. reflexivity. Qed.
Example two_recipes_test_127 : tree_deals_and_prices (tree_auction MAX_VALUE (repeat (- MAX_VALUE) 3) 60 [new_category "buyer" [19; 17; 15; 13; 11; 9]; new_category "sellerA" [(-10); (-4)]; new_category "sellerB" [(-12); (-8); (-6); (-2)]] (SList [(SInt 0); (SList [(SInt 1); SNone; (SInt 2); SNone])])) 4 [Some (10); Some ((-10)); Some ((-10))] = true.
Proof. vm_compute. reflexivity. Qed.
Example two_recipes_test_129 : tree_deals_and_prices (tree_auction MAX_VALUE (repeat (- MAX_VALUE) 3) 60 [new_category "buyer" [19; 17; 15; 13; 11; 9]; new_category "sellerA" [(-12); (-10); (-8); (-6); (-4); (-2)]; new_category "sellerB" []] (SList [(SInt 0); (SList [(SInt 1); SNone; (SInt 2); SNone])])) 4 [Some (10); Some ((-10)); None] = true.
Proof. vm_compute. reflexivity. Qed.
Example two_recipes_test_152 : tree_deals_and_prices (tree_auction MAX_VALUE [-MAX_VALUE; -(2 * MAX_VALUE); -MAX_VALUE; -MAX_VALUE] 60 [new_category "buyer" [19; 17; 15; 13; 11; 9]; new_category "seller" [(-12); (-10); (-8); (-6); (-4); (-2)]; new_category "producer" []; new_category "mover" []] (SList [(SInt 0); (SList [(SInt 1); SNone; (SInt 2); (SList [(SInt 3); SNone])])])) 4 [Some (10); Some ((-10)); None; None] = true.
Proof. vm_compute. reflexivity. Qed.
Example two_recipes_test_155 : tree_deals_and_prices (tree_auction MAX_VALUE [-MAX_VALUE; -(2 * MAX_VALUE); -MAX_VALUE; -MAX_VALUE] 60 [new_category "buyer" [19; 17; 15; 13; 11; 9]; new_category "seller" []; new_category "producer" [(-6); (-5); (-4); (-3); (-2); (-1)]; new_category "mover" [(-6); (-5); (-4); (-3); (-2); (-1)]] (SList [(SInt 0); (SList [(SInt 1); SNone; (SInt 2); (SList [(SInt 3); SNone])])])) 4 [Some (10); None; Some ((-5)); Some ((-5))] = true.
Proof. vm_compute. reflexivity. Qed.
Example two_recipes_test_179 : tree_deals_and_prices (tree_auction MAX_VALUE (repeat (- MAX_VALUE) 5) 60 [new_category "buyer" [400; 300; 200; 100]; new_category "seller1" [(-1); (-2)]; new_category "seller2" [(-3); (-4)]; new_category "producer1" [(-5); (-6)]; new_category "producer2" [(-7); (-8)]] (SList [(SInt 0); (SList [(SInt 1); (SList [(SInt 2); SNone]); (SInt 3); (SList [(SInt 4); SNone])])])) 2 [None; None; None; None; None] = true.
Proof. vm_compute. reflexivity. Qed.

(** ** old/ascending_auction_multirecipe_protocol.py *)

Definition old_auction (m : market) : result (nat * list (string * list Q) * list Q) :=
  t <- fst (multi_auction 2 MAX_VALUE (fun rs => Ok (repeat (- MAX_VALUE) 2)) (fun l => l) 60 m [[1; 1]]%nat) ;;
  Ok (mt_deals t, market_data (mt_cats t), map Qred (mt_prices t)).
Example old_multi_118 : (r <- old_auction [new_category "buyer" [9]; new_category "seller" [(-4)]] ;; Ok (fst (fst r))) = Ok 0%nat.
Proof. vm_compute. reflexivity. Qed.
Example old_multi_123 : (r <- old_auction [new_category "buyer" [9; 8]; new_category "seller" [(-4)]] ;; Ok (fst (fst r))) = Ok 0%nat.
Proof. vm_compute. reflexivity. Qed.
Example old_multi_129 : old_auction [new_category "buyer" [9]; new_category "seller" [(-4); (-3)]]
  = Ok (1%nat, [("buyer", [9]); ("seller", [(-3)])], [4; (-4)]).
Proof. vm_compute. reflexivity. Qed.
Example old_multi_135 : old_auction [new_category "buyer" [9; 8]; new_category "seller" [(-4); (-3)]]
  = Ok (1%nat, [("buyer", [9]); ("seller", [(-3); (-4)])], [8; (-8)]).
Proof. vm_compute. reflexivity. Qed.
Example old_multi_251 : map (containing [[1; 1; 0]]%nat) (seq 0 3) = [[0]; [0]; []]%nat /\ analyze_recipes 3 [[1; 1; 0]]%nat = Ok ([], [[0; 1]])%nat.
Proof. vm_compute. repeat split. Qed.
Example old_multi_258 : map (containing [[1; 1; 0]; [1; 0; 1]]%nat) (seq 0 3) = [[0; 1]; [0]; [1]]%nat
  /\ analyze_recipes 3 [[1; 1; 0]; [1; 0; 1]]%nat = Ok ([0], [[1]; [2]])%nat.
Proof. vm_compute. repeat split. Qed.
Example old_multi_265 : map (containing [[1; 1; 0; 0; 0]; [1; 0; 1; 1; 0]]%nat) (seq 0 5) = [[0; 1]; [0]; [1]; [1]; []]%nat
  /\ analyze_recipes 5 [[1; 1; 0; 0; 0]; [1; 0; 1; 1; 0]]%nat = Ok ([0], [[1]; [2; 3]])%nat.
Proof. vm_compute. repeat split. Qed.
