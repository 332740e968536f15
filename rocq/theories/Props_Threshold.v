(** * C95: an agent who trades cannot influence the outcome

    C14, C20 and C39 say that no agent gains by misreporting.  Here is why, as statements about the outcomes themselves: whatever he
    reports, an agent who stays in gets the same prices, the same number of deals and the same partners (so his own report never
    decides what he pays, nor what anybody else pays); a better report never throws him out; and the price he faces lies between every
    report with which he is out and every report with which he is in: it is his threshold. *)

From Coq Require Import String List Arith Lia QArith Lqa.
From Verif Require Import Base Model_Agents Model_Trade Model_Prices Model_Market Model_Ascending Model_TradeReduction Model_McAfee
  Model_RecipeTree Model_TreeAuction Spec_Market Spec_Trade Spec_Ascending Spec_TradeReduction Spec_RecipeTree Spec_TreeAuction
  Spec_Threshold Proof_Threshold Proof_Threshold2 Proof_Threshold3 Proof_Threshold4.
From Verif Require Props_Ascending Props_TreeAuction Props_TradeReduction2.
Import ListNotations.
Open Scope string_scope.
Open Scope Q_scope.

(** ** The ascending auction, for every recipe *)

Theorem C95_ascending_winner : forall M rounds m recipe i name pre post v v' pos pos' t t' P P', 0 < M -> (i < length m)%nat ->
  possible_position (pre ++ post) v pos -> possible_position (pre ++ post) v' pos' ->
  ascending_auction_M M rounds (set_nth i (mkCat name (pre ++ v :: post)%list) m) recipe = Ok t ->
  ascending_auction_M M rounds (set_nth i (mkCat name (pre ++ v' :: post)%list) m) recipe = Ok t' ->
  tprices t = Some P -> tprices t' = Some P' ->
  still_in (tcats t) i pos -> still_in (tcats t') i pos' ->
  num_of_deals t = num_of_deals t' /\ same_outcome i pos pos' (tcats t) (tcats t') P P'.
Proof. exact asc_winner_same. Qed.
Print Assumptions C95_ascending_winner.

Theorem C95_ascending_monotone : forall M rounds m recipe i name pre post v v' pos pos' t t', 0 < M -> (i < length m)%nat ->
  possible_position (pre ++ post) v pos -> possible_position (pre ++ post) v' pos' -> v < v' ->
  ascending_auction_M M rounds (set_nth i (mkCat name (pre ++ v :: post)%list) m) recipe = Ok t ->
  ascending_auction_M M rounds (set_nth i (mkCat name (pre ++ v' :: post)%list) m) recipe = Ok t' ->
  still_in (tcats t) i pos -> still_in (tcats t') i pos'.
Proof. exact asc_monotone. Qed.
Print Assumptions C95_ascending_monotone.

Theorem C95_ascending_threshold : forall M rounds m recipe i name pre post v v' pos pos' t t' P', 0 < M -> (i < length m)%nat ->
  possible_position (pre ++ post) v pos -> possible_position (pre ++ post) v' pos' ->
  ascending_auction_M M rounds (set_nth i (mkCat name (pre ++ v :: post)%list) m) recipe = Ok t ->
  ascending_auction_M M rounds (set_nth i (mkCat name (pre ++ v' :: post)%list) m) recipe = Ok t' ->
  tprices t' = Some P' ->
  ~ still_in (tcats t) i pos -> still_in (tcats t') i pos' -> v <= nth i P' 0 <= v'.
Proof. exact asc_threshold. Qed.
Print Assumptions C95_ascending_threshold.

(** ** The recipe-tree auction *)

Theorem C95_tree_winner : forall M p0 m st i name pre post v v' pos pos' fuel fuel' r r' rs, 0 < M -> (i < length m)%nat ->
  possible_position (pre ++ post) v pos -> possible_position (pre ++ post) v' pos' ->
  values_within M (set_nth i (mkCat name (pre ++ v :: post)%list) m) ->
  values_within M (set_nth i (mkCat name (pre ++ v' :: post)%list) m) ->
  tree_auction M p0 fuel (set_nth i (mkCat name (pre ++ v :: post)%list) m) st = Ok r ->
  tree_auction M p0 fuel' (set_nth i (mkCat name (pre ++ v' :: post)%list) m) st = Ok r' ->
  recipes (length m) (tt_tree r) = Ok rs -> initial_prices_ok (length m) rs (- M) p0 ->
  still_in (tt_cats r) i pos -> still_in (tt_cats r') i pos' ->
  tt_deals r = tt_deals r' /\ same_outcome i pos pos' (tt_cats r) (tt_cats r') (tt_prices r) (tt_prices r').
Proof. exact tree_winner_same. Qed.
Print Assumptions C95_tree_winner.

Theorem C95_tree_monotone : forall M p0 m st i name pre post v v' pos pos' fuel fuel' r r' rs, 0 < M -> (i < length m)%nat ->
  possible_position (pre ++ post) v pos -> possible_position (pre ++ post) v' pos' ->
  values_within M (set_nth i (mkCat name (pre ++ v :: post)%list) m) ->
  values_within M (set_nth i (mkCat name (pre ++ v' :: post)%list) m) ->
  tree_auction M p0 fuel (set_nth i (mkCat name (pre ++ v :: post)%list) m) st = Ok r ->
  tree_auction M p0 fuel' (set_nth i (mkCat name (pre ++ v' :: post)%list) m) st = Ok r' ->
  recipes (length m) (tt_tree r) = Ok rs -> initial_prices_ok (length m) rs (- M) p0 -> v < v' ->
  still_in (tt_cats r) i pos -> still_in (tt_cats r') i pos'.
Proof. exact tree_monotone. Qed.
Print Assumptions C95_tree_monotone.

Theorem C95_tree_threshold : forall M p0 m st i name pre post v v' pos pos' fuel fuel' r r' rs, 0 < M -> (i < length m)%nat ->
  possible_position (pre ++ post) v pos -> possible_position (pre ++ post) v' pos' ->
  values_within M (set_nth i (mkCat name (pre ++ v :: post)%list) m) ->
  values_within M (set_nth i (mkCat name (pre ++ v' :: post)%list) m) ->
  tree_auction M p0 fuel (set_nth i (mkCat name (pre ++ v :: post)%list) m) st = Ok r ->
  tree_auction M p0 fuel' (set_nth i (mkCat name (pre ++ v' :: post)%list) m) st = Ok r' ->
  recipes (length m) (tt_tree r) = Ok rs -> initial_prices_ok (length m) rs (- M) p0 ->
  ~ still_in (tt_cats r) i pos -> still_in (tt_cats r') i pos' -> v <= nth i (tt_prices r') 0 <= v'.
Proof. exact tree_threshold. Qed.
Print Assumptions C95_tree_threshold.

(** ** Trade reduction, where it is truthful (C20): no spare agents in the scarcest category *)

Theorem C95_reduction_winner : forall M cap m recipe z i name pre post v v' pos pos' t t' P P', 0 < M -> all_positive recipe ->
  (i < length m)%nat -> possible_position (pre ++ post) v pos -> possible_position (pre ++ post) v' pos' ->
  let first := set_nth i (mkCat name (pre ++ v :: post)%list) m in
  let second := set_nth i (mkCat name (pre ++ v' :: post)%list) m in
  no_spare first recipe -> values_small M recipe first -> values_small M recipe second ->
  cap_suffices cap first recipe -> cap_suffices cap second recipe ->
  trade_reduction_M M cap first recipe z = Ok t -> trade_reduction_M M cap second recipe z = Ok t' ->
  tprices t = Some P -> tprices t' = Some P' ->
  wins t i pos -> wins t' i pos' ->
  num_of_deals t = num_of_deals t' /\ same_outcome i pos pos' (tcats t) (tcats t') P P'.
Proof. exact tr_winner_same. Qed.
Print Assumptions C95_reduction_winner.

Theorem C95_reduction_monotone : forall M cap m recipe z i name pre post v v' pos pos' t t' P P', 0 < M -> all_positive recipe ->
  (i < length m)%nat -> possible_position (pre ++ post) v pos -> possible_position (pre ++ post) v' pos' ->
  let first := set_nth i (mkCat name (pre ++ v :: post)%list) m in
  let second := set_nth i (mkCat name (pre ++ v' :: post)%list) m in
  no_spare first recipe -> values_small M recipe first -> values_small M recipe second ->
  cap_suffices cap first recipe -> cap_suffices cap second recipe ->
  trade_reduction_M M cap first recipe z = Ok t -> trade_reduction_M M cap second recipe z = Ok t' ->
  tprices t = Some P -> tprices t' = Some P' -> v < v' ->
  wins t i pos -> wins t' i pos'.
Proof. exact tr_monotone. Qed.
Print Assumptions C95_reduction_monotone.

Theorem C95_reduction_threshold : forall M cap m recipe z i name pre post v v' pos pos' t t' P P', 0 < M -> all_positive recipe ->
  (i < length m)%nat -> possible_position (pre ++ post) v pos -> possible_position (pre ++ post) v' pos' ->
  let first := set_nth i (mkCat name (pre ++ v :: post)%list) m in
  let second := set_nth i (mkCat name (pre ++ v' :: post)%list) m in
  no_spare first recipe -> values_small M recipe first -> values_small M recipe second ->
  cap_suffices cap first recipe -> cap_suffices cap second recipe ->
  trade_reduction_M M cap first recipe z = Ok t -> trade_reduction_M M cap second recipe z = Ok t' ->
  tprices t = Some P -> tprices t' = Some P' ->
  ~ wins t i pos -> wins t' i pos' -> v <= nth i P' 0 <= v'.
Proof. exact tr_threshold. Qed.
Print Assumptions C95_reduction_threshold.

(** ** McAfee's protocol without the heuristic price, for any number of categories *)

Theorem C95_mcafee_winner : forall M cap m recipe i name pre post v v' pos pos' t t' P P',
  (i < length m)%nat -> possible_position (pre ++ post) v pos -> possible_position (pre ++ post) v' pos' ->
  let first := set_nth i (mkCat name (pre ++ v :: post)%list) m in
  let second := set_nth i (mkCat name (pre ++ v' :: post)%list) m in
  cap_suffices cap first recipe -> cap_suffices cap second recipe ->
  mcafee_M M cap first recipe false = Ok t -> mcafee_M M cap second recipe false = Ok t' ->
  tprices t = Some P -> tprices t' = Some P' ->
  still_in (tcats t) i pos -> still_in (tcats t') i pos' ->
  num_of_deals t = num_of_deals t' /\ same_outcome i pos pos' (tcats t) (tcats t') P P'.
Proof. exact mc_winner_same. Qed.
Print Assumptions C95_mcafee_winner.

Theorem C95_mcafee_monotone : forall M cap m recipe i name pre post v v' pos pos' t t' P P',
  (i < length m)%nat -> possible_position (pre ++ post) v pos -> possible_position (pre ++ post) v' pos' ->
  let first := set_nth i (mkCat name (pre ++ v :: post)%list) m in
  let second := set_nth i (mkCat name (pre ++ v' :: post)%list) m in
  cap_suffices cap first recipe -> cap_suffices cap second recipe ->
  mcafee_M M cap first recipe false = Ok t -> mcafee_M M cap second recipe false = Ok t' ->
  tprices t = Some P -> tprices t' = Some P' ->
  v < v' -> still_in (tcats t) i pos -> still_in (tcats t') i pos'.
Proof. exact mc_monotone. Qed.
Print Assumptions C95_mcafee_monotone.

Theorem C95_mcafee_threshold : forall M cap m recipe i name pre post v v' pos pos' t t' P P',
  (i < length m)%nat -> possible_position (pre ++ post) v pos -> possible_position (pre ++ post) v' pos' ->
  let first := set_nth i (mkCat name (pre ++ v :: post)%list) m in
  let second := set_nth i (mkCat name (pre ++ v' :: post)%list) m in
  cap_suffices cap first recipe -> cap_suffices cap second recipe ->
  mcafee_M M cap first recipe false = Ok t -> mcafee_M M cap second recipe false = Ok t' ->
  tprices t = Some P -> tprices t' = Some P' ->
  ~ still_in (tcats t) i pos -> still_in (tcats t') i pos' -> v <= nth i P' 0 <= v'.
Proof. exact mc_threshold. Qed.
Print Assumptions C95_mcafee_threshold.

(** ** Non-vacuity *)

(** The seller of value -2 stays in with the report -3.5; with -10 he is out, and his threshold is -11/2, the price. *)
Definition report (v : Q) : market :=
  set_nth 1 (mkCat "seller" ([-(1)] ++ v :: [-(3); -(4); -(9)])%list) Props_Ascending.ex_market.

Example C95_ascending_witness : exists t t' t'' P P' P'',
  ascending_auction_M MAX_VALUE 50 (report (-(2))) Props_Ascending.ex_recipe = Ok t /\ tprices t = Some P
  /\ ascending_auction_M MAX_VALUE 50 (report (-(7#2))) Props_Ascending.ex_recipe = Ok t' /\ tprices t' = Some P'
  /\ ascending_auction_M MAX_VALUE 50 (report (-(10))) Props_Ascending.ex_recipe = Ok t'' /\ tprices t'' = Some P''
  /\ possible_position ([-(1)] ++ [-(3); -(4); -(9)])%list (-(2)) 1
  /\ possible_position ([-(1)] ++ [-(3); -(4); -(9)])%list (-(7#2)) 2
  /\ possible_position ([-(1)] ++ [-(3); -(4); -(9)])%list (-(10)) 4
  /\ still_in (tcats t) 1 1 /\ still_in (tcats t') 1 2 /\ ~ still_in (tcats t'') 1 4
  /\ nth 1 P 0 == -(11#2) /\ nth 1 P' 0 == -(11#2) /\ num_of_deals t = 1%nat.
Proof.
  do 6 eexists. do 6 (split; [vm_compute; reflexivity|]).
  split; [vm_compute; lia|]. split; [vm_compute; lia|]. split; [vm_compute; lia|].
  split; [eexists; split; [reflexivity|vm_compute; lia]|]. split; [eexists; split; [reflexivity|vm_compute; lia]|].
  split; [intros (c & E & H); injection E; intros <-; vm_compute in H; lia|].
  split; [vm_compute; reflexivity|]. split; [vm_compute; reflexivity|]. reflexivity.
Qed.

(** The claim is about the agents who are in.  An agent who is out decides the price of others: the seller of value -17 is out, and
    also with the report -16, and the prices are 17 and -17 with the first report and 16 and -16 with the second. *)
Theorem C95_loser_refuted : exists m recipe i name pre post v v' pos pos' t t' P P', (i < length m)%nat
  /\ possible_position (pre ++ post) v pos /\ possible_position (pre ++ post) v' pos'
  /\ ascending_auction_M MAX_VALUE 50 (set_nth i (mkCat name (pre ++ v :: post)%list) m) recipe = Ok t
  /\ ascending_auction_M MAX_VALUE 50 (set_nth i (mkCat name (pre ++ v' :: post)%list) m) recipe = Ok t'
  /\ tprices t = Some P /\ tprices t' = Some P' /\ ~ still_in (tcats t) i pos /\ ~ still_in (tcats t') i pos'
  /\ ~ Forall2 Qeq P P'.
Proof.
  exists [mkCat "buyer" [20; 15]; mkCat "seller" [-(1); -(17)]], [1; 1]%nat, 1%nat, "seller", [-(1)], [], (-(17)), (-(16)), 1%nat, 1%nat.
  do 4 eexists. split; [simpl; lia|]. split; [vm_compute; lia|]. split; [vm_compute; lia|].
  do 4 (split; [vm_compute; reflexivity|]).
  split; [intros (c & E & H); injection E; intros <-; vm_compute in H; lia|].
  split; [intros (c & E & H); injection E; intros <-; vm_compute in H; lia|].
  intros H. inversion H; subst. match goal with X : _ == _ |- _ => vm_compute in X; discriminate X end.
Qed.
Print Assumptions C95_loser_refuted.

(** The recipe-tree auction: the buyer of value 17 stays in with the report 100 and is out with the report 2. *)
Example C95_tree_witness :
  let run v := tree_auction MAX_VALUE Props_TreeAuction.ex_p0 20
                 (set_nth 0 (mkCat "buyer" ([27; 21] ++ v :: [11; 3])%list) Props_TreeAuction.ex_market) Props_TreeAuction.ex_struct in
  exists r r' r'', run 17 = Ok r /\ run 100 = Ok r' /\ run 2 = Ok r''
  /\ still_in (tt_cats r) 0 2 /\ still_in (tt_cats r') 0 0 /\ ~ still_in (tt_cats r'') 0 4
  /\ nth 0 (tt_prices r) 0 == 5 /\ nth 0 (tt_prices r') 0 == 5.
Proof.
  cbv zeta. do 3 eexists. do 3 (split; [vm_compute; reflexivity|]).
  split; [eexists; split; [reflexivity|vm_compute; lia]|]. split; [eexists; split; [reflexivity|vm_compute; lia]|].
  split; [intros (c & E & H); injection E; intros <-; vm_compute in H; lia|].
  split; vm_compute; reflexivity.
Qed.

(** Trade reduction, on the market of C20_no_spare_witness (which shows the other hypotheses): in with -4, out with -6. *)
Example C95_reduction_witness : exists t t', 
  trade_reduction_M MAX_VALUE 10 Props_TradeReduction2.no_spare_market [2; 1]%nat true = Ok t
  /\ trade_reduction_M MAX_VALUE 10 Props_TradeReduction2.no_spare_lie [2; 1]%nat true = Ok t'
  /\ wins t 0 3 /\ ~ wins t' 0 4.
Proof.
  eexists. eexists. split; [vm_compute; reflexivity|]. split; [vm_compute; reflexivity|].
  split; [split; [eexists; split; [reflexivity|vm_compute; lia]|vm_compute; lia]|].
  intros [(c & E & H) _]. injection E; intros <-. vm_compute in H. lia.
Qed.

(** McAfee: the seller of value -4 is out; with the report -2 he is in, at the price -3 (his threshold), and likewise with -1. *)
Definition mc_report (v : Q) : market := [mkCat "buyer" [9; 8; 3]; mkCat "seller" ([-(3)] ++ v :: [-(6)])%list].
Example C95_mcafee_witness : exists t t' t'' P' P'',
  mcafee_M MAX_VALUE 10 (mc_report (-(4))) [1; 1]%nat false = Ok t
  /\ mcafee_M MAX_VALUE 10 (mc_report (-(2))) [1; 1]%nat false = Ok t' /\ tprices t' = Some P'
  /\ mcafee_M MAX_VALUE 10 (mc_report (-(1))) [1; 1]%nat false = Ok t'' /\ tprices t'' = Some P''
  /\ ~ still_in (tcats t) 1 1 /\ still_in (tcats t') 1 0 /\ still_in (tcats t'') 1 0
  /\ nth 1 P' 0 == -(3) /\ nth 1 P'' 0 == -(3) /\ num_of_deals t' = 1%nat.
Proof.
  do 5 eexists. do 5 (split; [vm_compute; reflexivity|]).
  split; [intros (c & E & H); injection E; intros <-; vm_compute in H; lia|].
  split; [eexists; split; [reflexivity|vm_compute; lia]|]. split; [eexists; split; [reflexivity|vm_compute; lia]|].
  split; [vm_compute; reflexivity|]. split; vm_compute; reflexivity.
Qed.
