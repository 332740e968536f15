(** * The recorded outputs of the demonstration programs, run on the model

    Like Conformance.v: not theorems about all inputs, but evidence that the definitions in Model_*.v describe the code.
    The files results/*_demo_*.txt of the repository record what the demonstration programs printed.  They were made by
    earlier versions of the programs: a deal with gain 0 did not count then (including_gft_0 = False today), and for
    recipes that are not vectors of ones the ascending auction first balanced the numbers of deals ("Phase 1"), which the
    present code does not do any more.  The example name gives the file and the line; the examples are translations of the
    texts made by a script.  Left out: the outcomes of the auctions at ascending_auction_demo_12.txt:44 and
    ascending_auction_demo_23.txt:2, which show the earlier algorithm; the price 5.333333333372138 at
    ascending_auction_demo_23.txt:37 shows its rounding (the exact price is 16/3, see the last section).
    The other examples below are statements in comments and headings of the demonstration programs. *)

From Coq Require Import String List Arith QArith.
From Verif Require Import Base Model_Agents Model_Market Model_Trade Model_Prices Model_Ascending Model_McAfee Model_TradeReduction Conformance.
Import ListNotations.
Open Scope string_scope.
Open Scope Q_scope.

Definition optimal_data0 (m : market) (recipe : list nat) : result (material_trade * list (string * list Q)) :=
  r <- optimal_trade default_max_iterations m recipe false ;; Ok (fst r, market_data (snd r)).

(** ** results/ascending_auction_demo_111.txt *)

Definition asc_demo_111_3_market : market := [new_category "buyer" [17; 14; 13; 9; 6]; new_category "seller" [-(1); -(4); -(5); -(8); -(11)]; new_category "mediator" [-(1); -(3); -(4); -(7); -(10)]].
Example asc_demo_111_3_optimal : (x <- optimal_data0 asc_demo_111_3_market [1; 1; 1]%nat ;; Ok (fst x)) = Ok [[13; -(5); -(4)]; [14; -(4); -(3)]; [17; -(1); -(1)]].
Proof. vm_compute. reflexivity. Qed.
Example asc_demo_111_3 : agrees (ascending_auction asc_demo_111_3_market [1; 1; 1]%nat) [("buyer", [17; 14], 2%nat, 2%nat, 13); ("seller", [-(1); -(4); -(5)], 2%nat, 3%nat, -(6)); ("mediator", [-(1); -(3); -(4)], 2%nat, 3%nat, -(7))] = true.
Proof. vm_compute. reflexivity. Qed.
Definition asc_demo_111_51_market : market := [new_category "buyer" [17; 14; 13; 9; 6]; new_category "seller" [-(1); -(4); -(5); -(8); -(11)]; new_category "mediator" [-(1); -(3); -(6); -(7); -(10)]].
Example asc_demo_111_51_optimal : (x <- optimal_data0 asc_demo_111_51_market [1; 1; 1]%nat ;; Ok (fst x)) = Ok [[13; -(5); -(6)]; [14; -(4); -(3)]; [17; -(1); -(1)]].
Proof. vm_compute. reflexivity. Qed.
Example asc_demo_111_51 : agrees (ascending_auction asc_demo_111_51_market [1; 1; 1]%nat) [("buyer", [17; 14], 2%nat, 2%nat, 13); ("seller", [-(1); -(4); -(5)], 2%nat, 3%nat, -(6)); ("mediator", [-(1); -(3); -(6)], 2%nat, 3%nat, -(7))] = true.
Proof. vm_compute. reflexivity. Qed.
Definition asc_demo_111_99_market : market := [new_category "buyer" [17; 14; 13; 9; 6]; new_category "seller" [-(1); -(4); (-13 # 2); -(8); -(11)]; new_category "mediator" [-(1); -(3); -(6); -(7); -(10)]].
Example asc_demo_111_99_optimal : (x <- optimal_data0 asc_demo_111_99_market [1; 1; 1]%nat ;; Ok (fst x)) = Ok [[13; (-13 # 2); -(6)]; [14; -(4); -(3)]; [17; -(1); -(1)]].
Proof. vm_compute. reflexivity. Qed.
Example asc_demo_111_99 : agrees (ascending_auction asc_demo_111_99_market [1; 1; 1]%nat) [("buyer", [17; 14], 2%nat, 2%nat, 13); ("seller", [-(1); -(4)], 2%nat, 2%nat, (-13 # 2)); ("mediator", [-(1); -(3); -(6)], 2%nat, 3%nat, (-13 # 2))] = true.
Proof. vm_compute. reflexivity. Qed.
Definition asc_demo_111_150_market : market := [new_category "buyer" [17; 14; 13; 9; 6]; new_category "seller" [-(1); -(4); (-15 # 2); -(8); -(11)]; new_category "mediator" [-(1); -(3); -(6); -(7); -(10)]].
Example asc_demo_111_150_optimal : (x <- optimal_data0 asc_demo_111_150_market [1; 1; 1]%nat ;; Ok (fst x)) = Ok [[14; -(4); -(3)]; [17; -(1); -(1)]].
Proof. vm_compute. reflexivity. Qed.
Example asc_demo_111_150 : agrees (ascending_auction asc_demo_111_150_market [1; 1; 1]%nat) [("buyer", [17; 14], 2%nat, 2%nat, (27 # 2)); ("seller", [-(1); -(4)], 2%nat, 2%nat, (-15 # 2)); ("mediator", [-(1); -(3)], 2%nat, 2%nat, -(6))] = true.
Proof. vm_compute. reflexivity. Qed.
(** ** results/ascending_auction_demo_12.txt *)

Definition asc_demo_12_3_market : market := [new_category "buyer" [17; 14; 13; 9; 6]; new_category "seller" [-(1); -(2); -(3); -(4); -(5); -(7); -(8); -(10); -(11)]].
Example asc_demo_12_3_optimal : (x <- optimal_data0 asc_demo_12_3_market [1; 2]%nat ;; Ok (fst x)) = Ok [[13; -(5); -(7)]; [14; -(3); -(4)]; [17; -(1); -(2)]].
Proof. vm_compute. reflexivity. Qed.
Example asc_demo_12_3 : agrees (ascending_auction asc_demo_12_3_market [1; 2]%nat) [("buyer", [17; 14], 2%nat, 2%nat, 13); ("seller", [-(1); -(2); -(3); -(4); -(5)], 4%nat, 5%nat, (-13 # 2))] = true.
Proof. vm_compute. reflexivity. Qed.
Definition asc_demo_12_44_market : market := [new_category "seller" [-(1); -(2); -(3); -(4); -(5); -(7); -(8); -(10); -(11)]; new_category "buyer" [17; 14; 13; 9; 6]].
Example asc_demo_12_44_optimal : (x <- optimal_data0 asc_demo_12_44_market [2; 1]%nat ;; Ok (fst x)) = Ok [[-(5); -(7); 13]; [-(3); -(4); 14]; [-(1); -(2); 17]].
Proof. vm_compute. reflexivity. Qed.
(** ** results/ascending_auction_demo_23.txt *)

Definition asc_demo_23_2_market : market := [new_category "buyer" [20; 18; 16; 14; 12]; new_category "seller" [-(2); -(4); -(6); -(8); -(10); -(12); -(14)]].
Example asc_demo_23_2_optimal : (x <- optimal_data0 asc_demo_23_2_market [2; 3]%nat ;; Ok (fst x)) = Ok [[20; 18; -(2); -(4); -(6)]].
Proof. vm_compute. reflexivity. Qed.
Definition asc_demo_23_37_market : market := [new_category "buyer" [20; 18; 16; 14; 12]; new_category "seller" [-(2); -(4); -(6); -(8); -(10); -(12); -(14)]].
Example asc_demo_23_37_optimal : (x <- optimal_data0 asc_demo_23_37_market [3; 2]%nat ;; Ok (fst x)) = Ok [[20; 18; 16; -(2); -(4)]].
Proof. vm_compute. reflexivity. Qed.
(** ** results/trade_reduction_demo_111.txt *)

Definition tr_demo_111_3_market : market := [new_category "buyer" [17; 14; 13; 9; 6]; new_category "seller" [-(1); -(4); -(5); -(8); -(11)]; new_category "mediator" [-(1); -(3); -(4); -(7); -(10)]].
Example tr_demo_111_3_optimal : optimal_data0 tr_demo_111_3_market [1; 1; 1]%nat = Ok ([[13; -(5); -(4)]; [14; -(4); -(3)]; [17; -(1); -(1)]], [("buyer", [9; 6]); ("seller", [-(8); -(11)]); ("mediator", [-(7); -(10)])]).
Proof. vm_compute. reflexivity. Qed.
Example tr_demo_111_3 : agrees (trade_reduction tr_demo_111_3_market [1; 1; 1]%nat false) [("buyer", [17; 14], 2%nat, 2%nat, 13); ("seller", [-(1); -(4); -(5)], 2%nat, 3%nat, -(6)); ("mediator", [-(1); -(3); -(4)], 2%nat, 3%nat, -(7))] = true.
Proof. vm_compute. reflexivity. Qed.
Definition tr_demo_111_30_market : market := [new_category "buyer" [17; 14; 13; 9; 6]; new_category "mediator" [-(1); -(3); -(4); -(7); -(10)]; new_category "seller" [-(1); -(4); -(5); -(8); -(11)]].
Example tr_demo_111_30_optimal : optimal_data0 tr_demo_111_30_market [1; 1; 1]%nat = Ok ([[13; -(4); -(5)]; [14; -(3); -(4)]; [17; -(1); -(1)]], [("buyer", [9; 6]); ("mediator", [-(7); -(10)]); ("seller", [-(8); -(11)])]).
Proof. vm_compute. reflexivity. Qed.
Example tr_demo_111_30 : agrees (trade_reduction tr_demo_111_30_market [1; 1; 1]%nat false) [("buyer", [17; 14], 2%nat, 2%nat, 13); ("mediator", [-(1); -(3); -(4)], 2%nat, 3%nat, -(5)); ("seller", [-(1); -(4); -(5)], 2%nat, 3%nat, -(8))] = true.
Proof. vm_compute. reflexivity. Qed.
Definition tr_demo_111_57_market : market := [new_category "seller" [-(1); -(4); -(5); -(8); -(11)]; new_category "buyer" [17; 14; 13; 9; 6]; new_category "mediator" [-(1); -(3); -(4); -(7); -(10)]].
Example tr_demo_111_57_optimal : optimal_data0 tr_demo_111_57_market [1; 1; 1]%nat = Ok ([[-(5); 13; -(4)]; [-(4); 14; -(3)]; [-(1); 17; -(1)]], [("seller", [-(8); -(11)]); ("buyer", [9; 6]); ("mediator", [-(7); -(10)])]).
Proof. vm_compute. reflexivity. Qed.
Example tr_demo_111_57 : agrees (trade_reduction tr_demo_111_57_market [1; 1; 1]%nat false) [("seller", [-(1); -(4)], 2%nat, 2%nat, -(5)); ("buyer", [17; 14; 13], 2%nat, 3%nat, 12); ("mediator", [-(1); -(3); -(4)], 2%nat, 3%nat, -(7))] = true.
Proof. vm_compute. reflexivity. Qed.
Definition tr_demo_111_84_market : market := [new_category "seller" [-(1); -(4); -(5); -(8); -(11)]; new_category "mediator" [-(1); -(3); -(4); -(7); -(10)]; new_category "buyer" [17; 14; 13; 9; 6]].
Example tr_demo_111_84_optimal : optimal_data0 tr_demo_111_84_market [1; 1; 1]%nat = Ok ([[-(5); -(4); 13]; [-(4); -(3); 14]; [-(1); -(1); 17]], [("seller", [-(8); -(11)]); ("mediator", [-(7); -(10)]); ("buyer", [9; 6])]).
Proof. vm_compute. reflexivity. Qed.
Example tr_demo_111_84 : agrees (trade_reduction tr_demo_111_84_market [1; 1; 1]%nat false) [("seller", [-(1); -(4)], 2%nat, 2%nat, -(5)); ("mediator", [-(1); -(3)], 2%nat, 2%nat, -(4)); ("buyer", [17; 14; 13], 2%nat, 3%nat, 9)] = true.
Proof. vm_compute. reflexivity. Qed.
Definition tr_demo_111_115_market : market := [new_category "mediator" [-(1); -(3); -(4); -(7); -(10)]; new_category "seller" [-(1); -(4); -(5); -(8); -(11)]; new_category "buyer" [17; 14; 13; 9; 6]].
Example tr_demo_111_115_optimal : optimal_data0 tr_demo_111_115_market [1; 1; 1]%nat = Ok ([[-(4); -(5); 13]; [-(3); -(4); 14]; [-(1); -(1); 17]], [("mediator", [-(7); -(10)]); ("seller", [-(8); -(11)]); ("buyer", [9; 6])]).
Proof. vm_compute. reflexivity. Qed.
Example tr_demo_111_115 : agrees (trade_reduction tr_demo_111_115_market [1; 1; 1]%nat false) [("mediator", [-(1); -(3)], 2%nat, 2%nat, -(4)); ("seller", [-(1); -(4)], 2%nat, 2%nat, -(5)); ("buyer", [17; 14; 13], 2%nat, 3%nat, 9)] = true.
Proof. vm_compute. reflexivity. Qed.
Definition tr_demo_111_146_market : market := [new_category "mediator" [-(1); -(3); -(4); -(7); -(10)]; new_category "buyer" [17; 14; 13; 9; 6]; new_category "seller" [-(1); -(4); -(5); -(8); -(11)]].
Example tr_demo_111_146_optimal : optimal_data0 tr_demo_111_146_market [1; 1; 1]%nat = Ok ([[-(4); 13; -(5)]; [-(3); 14; -(4)]; [-(1); 17; -(1)]], [("mediator", [-(7); -(10)]); ("buyer", [9; 6]); ("seller", [-(8); -(11)])]).
Proof. vm_compute. reflexivity. Qed.
Example tr_demo_111_146 : agrees (trade_reduction tr_demo_111_146_market [1; 1; 1]%nat false) [("mediator", [-(1); -(3)], 2%nat, 2%nat, -(4)); ("buyer", [17; 14; 13], 2%nat, 3%nat, 12); ("seller", [-(1); -(4); -(5)], 2%nat, 3%nat, -(8))] = true.
Proof. vm_compute. reflexivity. Qed.
(** ** results/trade_reduction_demo_lemonade.txt *)

Definition tr_demo_lemonade_3_market : market := [new_category "squeezer" [-(1); -(3); -(6)]; new_category "picker" [-(3); -(6); -(7)]; new_category "drinker" [12; 11; 7]].
Example tr_demo_lemonade_3_optimal : optimal_data0 tr_demo_lemonade_3_market [1; 1; 1]%nat = Ok ([[-(3); -(6); 11]; [-(1); -(3); 12]], [("squeezer", [-(6)]); ("picker", [-(7)]); ("drinker", [7])]).
Proof. vm_compute. reflexivity. Qed.
Example tr_demo_lemonade_3 : agrees (trade_reduction tr_demo_lemonade_3_market [1; 1; 1]%nat false) [("squeezer", [-(1)], 1%nat, 1%nat, -(3)); ("picker", [-(3)], 1%nat, 1%nat, -(6)); ("drinker", [12; 11], 1%nat, 2%nat, 9)] = true.
Proof. vm_compute. reflexivity. Qed.
Definition tr_demo_lemonade_35_market : market := [new_category "virtual-lemon-buyer" [11; 8; 1]; new_category "picker" [-(3); -(6); -(7)]].
Example tr_demo_lemonade_35_optimal : optimal_data0 tr_demo_lemonade_35_market [1; 1]%nat = Ok ([[8; -(6)]; [11; -(3)]], [("virtual-lemon-buyer", [1]); ("picker", [-(7)])]).
Proof. vm_compute. reflexivity. Qed.
Example tr_demo_lemonade_35 : agrees (trade_reduction tr_demo_lemonade_35_market [1; 1]%nat false) [("virtual-lemon-buyer", [11; 8], 2%nat, 2%nat, 7); ("picker", [-(3); -(6)], 2%nat, 2%nat, -(7))] = true.
Proof. vm_compute. reflexivity. Qed.
Definition tr_demo_lemonade_55_market : market := [new_category "virtual-squeezing-buyer" [9; 5; 0]; new_category "squeezer" [-(1); -(3); -(6)]].
Example tr_demo_lemonade_55_optimal : optimal_data0 tr_demo_lemonade_55_market [1; 1]%nat = Ok ([[5; -(3)]; [9; -(1)]], [("virtual-squeezing-buyer", [0]); ("squeezer", [-(6)])]).
Proof. vm_compute. reflexivity. Qed.
Example tr_demo_lemonade_55 : agrees (trade_reduction tr_demo_lemonade_55_market [1; 1]%nat false) [("virtual-squeezing-buyer", [9], 1%nat, 1%nat, 5); ("squeezer", [-(1); -(3)], 1%nat, 2%nat, -(5))] = true.
Proof. vm_compute. reflexivity. Qed.
Definition tr_demo_lemonade_79_market : market := [new_category "drinker" [12; 11; 7]; new_category "virtual-juice-seller" [-(4); -(9); -(13)]].
Example tr_demo_lemonade_79_optimal : optimal_data0 tr_demo_lemonade_79_market [1; 1]%nat = Ok ([[11; -(9)]; [12; -(4)]], [("drinker", [7]); ("virtual-juice-seller", [-(13)])]).
Proof. vm_compute. reflexivity. Qed.
Example tr_demo_lemonade_79 : agrees (trade_reduction tr_demo_lemonade_79_market [1; 1]%nat false) [("drinker", [12], 1%nat, 1%nat, 11); ("virtual-juice-seller", [-(4); -(9)], 1%nat, 2%nat, -(11))] = true.
Proof. vm_compute. reflexivity. Qed.

(** ** Statements in the demonstration programs *)

Definition deals_of (r : result trade) : result nat := t <- r ;; Ok (num_of_deals t).
Definition sizes_of (r : result trade) : result (list nat) := t <- r ;; Ok (map csize (tcats t)).
Definition prices_of (r : result trade) : result (option (list Q)) := t <- r ;; Ok (option_map (map Qred) (tprices t)).
Definition optimal_deals (m : market) (recipe : list nat) : result nat :=
  x <- optimal_trade default_max_iterations m recipe true ;; Ok (List.length (fst x)).

(** ascending_auction_demo_12.py:42-76: the headings announce the number [k] of optimal deals (checked), and where the price stops
    (which was said of the earlier algorithm; the prices below are those of the present one). *)
Definition demo12_sellers : category := new_category "seller" [-(1); -(2); -(3); -(4); -(5); -(8); -(10); -(11)].
Definition demo12 (buyers : list Q) : market := [demo12_sellers; new_category "buyer" buyers].
Example demo_12_42 : optimal_deals (demo12 [20; 19; 18; 17; 9; 6]) [2; 1]%nat = Ok 3%nat
  /\ prices_of (ascending_auction (demo12 [20; 19; 18; 17; 9; 6]) [2; 1]%nat) = Ok (Some [-17 # 2; 17]).
Proof. split; vm_compute; reflexivity. Qed.
Example demo_12_49 : optimal_deals (demo12 [17; 15; 14; 11; 9; 6]) [2; 1]%nat = Ok 3%nat
  /\ prices_of (ascending_auction (demo12 [17; 15; 14; 11; 9; 6]) [2; 1]%nat) = Ok (Some [-(7); 14]).
Proof. split; vm_compute; reflexivity. Qed.
Example demo_12_56 : optimal_deals (demo12 [17; 15; 12; 11; 9; 6]) [2; 1]%nat = Ok 2%nat
  /\ prices_of (ascending_auction (demo12 [17; 15; 12; 11; 9; 6]) [2; 1]%nat) = Ok (Some [-(6); 12]).
Proof. split; vm_compute; reflexivity. Qed.
Example demo_12_63 : optimal_deals (demo12 [17; 15; 14; 19 # 2; 9; 6]) [2; 1]%nat = Ok 3%nat.
Proof. vm_compute. reflexivity. Qed.
Example demo_12_70 : optimal_deals (demo12 [17; 15; 12; 19 # 2; 9; 6]) [2; 1]%nat = Ok 2%nat.
Proof. vm_compute. reflexivity. Qed.

(** ascending_auction_demo_23.py:22-33: "k=1, and the final trade involves 2 buyers and 5 sellers", resp. "5 buyers and 3
    sellers".  The first part holds.  The second is not true of the data and the code of today (3 buyers and 4 sellers,
    4 buyers and 2 sellers remain); for the data of the recorded output the second auction does end so, at price 16/3. *)
Definition demo23 : market := [new_category "buyer" [20; 18; 16; 9; 2; 1]; new_category "seller" [-(2); -(4); -(6); -(8); -(10); -(12); -(14)]].
Example demo_23_25 : optimal_deals demo23 [2; 3]%nat = Ok 1%nat /\ sizes_of (ascending_auction demo23 [2; 3]%nat) = Ok [3; 4]%nat.
Proof. split; vm_compute; reflexivity. Qed.
Example demo_23_29 : optimal_deals demo23 [3; 2]%nat = Ok 1%nat /\ sizes_of (ascending_auction demo23 [3; 2]%nat) = Ok [4; 2]%nat.
Proof. split; vm_compute; reflexivity. Qed.
Example demo_23_recorded : sizes_of (ascending_auction asc_demo_23_37_market [3; 2]%nat) = Ok [5; 3]%nat
  /\ prices_of (ascending_auction asc_demo_23_37_market [3; 2]%nat) = Ok (Some [16 # 3; -(8)]).
Proof. split; vm_compute; reflexivity. Qed.

(** mcafee_demo.py:24-38: without and with trade reduction. *)
Definition mcafee_demo (last : Q) : market := [new_category "buyer" [17; 14; 13; 9; 6]; new_category "seller" [-(1); -(4); -(5); -(8); last]].
Example mcafee_demo_24 : optimal_deals (mcafee_demo (-(11))) [1; 1]%nat = Ok 4%nat /\ deals_of (mcafee (mcafee_demo (-(11))) [1; 1]%nat true) = Ok 4%nat.
Proof. split; vm_compute; reflexivity. Qed.
Example mcafee_demo_33 : optimal_deals (mcafee_demo (-(13))) [1; 1]%nat = Ok 4%nat /\ deals_of (mcafee (mcafee_demo (-(13))) [1; 1]%nat true) = Ok 3%nat.
Proof. split; vm_compute; reflexivity. Qed.

(** ascending_auction_demo_11.py, trade_reduction_demo_11.py: "example of PS with GFT=0". *)
Definition zero_demo : market := [new_category "buyer" [1; 1; 1; 1; 1]; new_category "seller" [-(1); -(1); -(1); -(1); -(1)]].
Example demo_11_asc : optimal_deals zero_demo [1; 1]%nat = Ok 5%nat /\ deals_of (ascending_auction zero_demo [1; 1]%nat) = Ok 4%nat.
Proof. split; vm_compute; reflexivity. Qed.
Example demo_11_tr : deals_of (trade_reduction zero_demo [1; 1]%nat true) = Ok 4%nat /\ deals_of (trade_reduction zero_demo [1; 1]%nat false) = Ok 0%nat.
Proof. split; vm_compute; reflexivity. Qed.

(** ascending_auction_demo_111.py prints what is recorded in results/ascending_auction_demo_111.txt (above).
    ascending_auction_demo_223.py:27-34 has no recorded output; two procurement-sets are worth while, one is traded. *)
Definition demo223 : market :=
  [new_category "buyer" [17; 16; 15; 14; 13; 12; 10; 6]; new_category "mediator" [-(3); -(4); -(5); -(6); -(7); -(8); -(9); -(10)];
   new_category "seller" [-(1); -(2); -(3); -(4); -(5); -(6); -(7); -(8)]].
Example demo_223_34 : optimal_deals demo223 [2; 2; 3]%nat = Ok 2%nat /\ sizes_of (ascending_auction demo223 [2; 2; 3]%nat) = Ok [3; 3; 5]%nat
  /\ deals_of (ascending_auction demo223 [2; 2; 3]%nat) = Ok 1%nat
  /\ prices_of (ascending_auction demo223 [2; 2; 3]%nat) = Ok (Some [14; -(6); -16 # 3]).
Proof. repeat split; vm_compute; reflexivity. Qed.

(** stock/ascending_auction_demo_bad.py:22-46: no recorded output. In exact arithmetic both optimal deals are done, at the price 44.4
    for the buyers and 11.1 for the sellers. *)
Definition demo_bad : market :=
  [new_category "buyer" [1; 444 # 10; 50];
   new_category "seller" [-111 # 10; -111 # 10; -111 # 10; -111 # 10; -111 # 10; -(1); -(1); -(1); -(1)]].
Example demo_bad_38 : optimal_deals demo_bad [1; 4]%nat = Ok 2%nat /\ deals_of (ascending_auction demo_bad [1; 4]%nat) = Ok 2%nat
  /\ prices_of (ascending_auction demo_bad [1; 4]%nat) = Ok (Some [222 # 5; -111 # 10]).
Proof. repeat split; vm_compute; reflexivity. Qed.
