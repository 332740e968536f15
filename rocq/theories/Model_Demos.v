(** * Model of trade_reduction_demo_lemonade.py

    The script builds four markets from three lists of values and runs the trade-reduction auction
    on each of them.  The three lists and the flag [buyerFirst] are constants of the script; here they
    are arguments. *)

From Coq Require Import List Arith QArith String.
From Verif Require Import Base Model_Agents Model_Trade Model_Prices Model_Market Model_TradeReduction Model_RecipeTree.
Import ListNotations.
Open Scope Q_scope.

(** trade_reduction_demo_lemonade.py:36-40: one market for the whole industry. *)
Definition lemonade_industry (pickers squeezers drinkers : list Q) : market :=
  [new_category "squeezer" squeezers; new_category "picker" pickers; new_category "drinker" drinkers].

(** trade_reduction_demo_lemonade.py:43: [[x+y for (x,y) in zip(drinkers,squeezers)]]. *)
Definition virtual_lemon_buyers (squeezers drinkers : list Q) : list Q := zip_add drinkers squeezers.

(** trade_reduction_demo_lemonade.py:44. *)
Definition virtual_squeezing_buyers (pickers drinkers : list Q) : list Q := zip_add drinkers pickers.

(** trade_reduction_demo_lemonade.py:45. *)
Definition virtual_juice_sellers (pickers squeezers : list Q) : list Q := zip_add pickers squeezers.

(** trade_reduction_demo_lemonade.py:52, 74: the order of the two categories of a sub-market. *)
Definition two_sides (buyerFirst : bool) (buyer seller : category) : market :=
  if buyerFirst then [buyer; seller] else [seller; buyer].

(** trade_reduction_demo_lemonade.py:54-57 and 77-80. *)
Definition lemon_submarket (buyerFirst : bool) (pickers squeezers drinkers : list Q) : market :=
  two_sides buyerFirst (new_category "virtual-lemon-buyer" (virtual_lemon_buyers squeezers drinkers))
            (new_category "picker" pickers).

(** trade_reduction_demo_lemonade.py:61-64 and 84-87. *)
Definition squeezing_submarket (buyerFirst : bool) (pickers squeezers drinkers : list Q) : market :=
  two_sides buyerFirst (new_category "virtual-squeezing-buyer" (virtual_squeezing_buyers pickers drinkers))
            (new_category "squeezer" squeezers).

(** trade_reduction_demo_lemonade.py:68-71 and 91-94. *)
Definition juice_submarket (buyerFirst : bool) (pickers squeezers drinkers : list Q) : market :=
  two_sides buyerFirst (new_category "drinker" drinkers)
            (new_category "virtual-juice-seller" (virtual_juice_sellers pickers squeezers)).

(** trade_reduction_demo_lemonade.py:30-32. *)
Definition demo_pickers : list Q := [-(3); -(6); -(7)].
Definition demo_squeezers : list Q := [-(1); -(3); -(6)].
Definition demo_drinkers : list Q := [12; 11; 7].
