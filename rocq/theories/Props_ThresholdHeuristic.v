(** * C119: an agent who trades cannot influence the outcome of McAfee's protocol with the heuristic price

    C95 says this of the protocol without the heuristic price.  With it (and for both values [h] of price_heuristic) an agent who
    trades gets the same prices, the same number of deals and the same partners whatever he reports, for any number of categories, and
    a better report never throws him out, provided that the values of his own category are all buyers' or all sellers' values.  In
    two-sided markets the price he faces is his threshold. *)

From Coq Require Import String List Arith Lia QArith Lqa.
From Verif Require Import Base Model_Agents Model_Trade Model_Prices Model_Market Model_TradeReduction Model_McAfee
  Spec_Market Spec_Trade Spec_Ascending Spec_Threshold Spec_ThresholdHeuristic Proof_Threshold5.
Import ListNotations.
Open Scope string_scope.
Open Scope Q_scope.

Theorem C119_winner : forall M cap m recipe h i name pre post v v' pos pos' t t' P P',
  (i < length m)%nat -> possible_position (pre ++ post) v pos -> possible_position (pre ++ post) v' pos' ->
  let first := set_nth i (mkCat name (pre ++ v :: post)%list) m in
  let second := set_nth i (mkCat name (pre ++ v' :: post)%list) m in
  one_side (v :: v' :: pre ++ post)%list ->
  cap_suffices cap first recipe -> cap_suffices cap second recipe ->
  mcafee_M M cap first recipe h = Ok t -> mcafee_M M cap second recipe h = Ok t' ->
  tprices t = Some P -> tprices t' = Some P' ->
  still_in (tcats t) i pos -> still_in (tcats t') i pos' ->
  num_of_deals t = num_of_deals t' /\ same_outcome i pos pos' (tcats t) (tcats t') P P'.
Proof. exact hmc_winner_same. Qed.
Print Assumptions C119_winner.

Theorem C119_monotone : forall M cap m recipe h i name pre post v v' pos pos' t t' P P',
  (i < length m)%nat -> possible_position (pre ++ post) v pos -> possible_position (pre ++ post) v' pos' ->
  one_side (v :: v' :: pre ++ post)%list ->
  let first := set_nth i (mkCat name (pre ++ v :: post)%list) m in
  let second := set_nth i (mkCat name (pre ++ v' :: post)%list) m in
  cap_suffices cap first recipe -> cap_suffices cap second recipe ->
  mcafee_M M cap first recipe h = Ok t -> mcafee_M M cap second recipe h = Ok t' ->
  tprices t = Some P -> tprices t' = Some P' ->
  v < v' -> still_in (tcats t) i pos -> still_in (tcats t') i pos'.
Proof. exact hmc_monotone. Qed.
Print Assumptions C119_monotone.

(** Two categories, one of buyers and one of sellers. *)
Theorem C119_threshold : forall M cap m recipe i name pre post other v v' pos pos' t t' P P', 0 < M ->
  length m = 2%nat -> (i < length m)%nat ->
  possible_position (pre ++ post) v pos -> possible_position (pre ++ post) v' pos' ->
  let first := set_nth i (mkCat name (pre ++ v :: post)%list) m in
  let second := set_nth i (mkCat name (pre ++ v' :: post)%list) m in
  nth_error m (1 - i) = Some other -> opposite_sides (v :: pre ++ post)%list (cvalues other) ->
  Forall (fun x => 2 * x < M) ((pre ++ post) ++ cvalues other)%list ->
  cap_suffices cap first recipe -> cap_suffices cap second recipe ->
  mcafee_M M cap first recipe true = Ok t -> mcafee_M M cap second recipe true = Ok t' ->
  tprices t = Some P -> tprices t' = Some P' ->
  ~ still_in (tcats t) i pos -> still_in (tcats t') i pos' -> v <= nth i P' 0 <= v'.
Proof. exact hmc_threshold. Qed.
Print Assumptions C119_threshold.

(** ** The hypotheses are needed *)

(** In a category with both signs a better report throws an agent out: with -2 he trades at the price -3; the report 1 is a buyer's
    value, the price 3 is too high for it, and there is no deal. *)
Theorem C119_mixed_signs_refuted : exists m i name post v v' t t' P P', (i < length m)%nat
  /\ possible_position post v 0 /\ possible_position post v' 0 /\ v < v'
  /\ mcafee (set_nth i (mkCat name (v :: post)) m) [1; 1]%nat true = Ok t
  /\ mcafee (set_nth i (mkCat name (v' :: post)) m) [1; 1]%nat true = Ok t'
  /\ tprices t = Some P /\ tprices t' = Some P'
  /\ still_in (tcats t) i 0 /\ nth i P 0 == -(3) /\ ~ still_in (tcats t') i 0 /\ num_of_deals t' = 0%nat.
Proof.
  exists [mkCat "a" []; mkCat "b" [10; -(1)]], 0%nat, "a", [-(5)], (-(2)), 1. do 4 eexists.
  split; [simpl; lia|]. split; [vm_compute; lia|]. split; [vm_compute; lia|]. split; [reflexivity|].
  do 4 (split; [vm_compute; reflexivity|]).
  split; [eexists; split; [reflexivity|vm_compute; lia]|]. split; [vm_compute; reflexivity|].
  split; [intros (c & E & H); injection E; intros <-; vm_compute in H; lia|]. reflexivity.
Qed.
Print Assumptions C119_mixed_signs_refuted.

(** With three categories the price is not the threshold: the buyer of value 7 is out, and with the report 8 he is in, at 19/3. *)
Theorem C119_three_categories_refuted : exists m name post v v' t t' P P',
  possible_position post v 0 /\ possible_position post v' 0 /\ Forall (fun x => 0 <= x) (v :: v' :: post)
  /\ mcafee (mkCat name (v :: post) :: m) [1; 1; 1]%nat true = Ok t
  /\ mcafee (mkCat name (v' :: post) :: m) [1; 1; 1]%nat true = Ok t'
  /\ tprices t = Some P /\ tprices t' = Some P'
  /\ ~ still_in (tcats t) 0 0 /\ still_in (tcats t') 0 0 /\ nth 0 P' 0 < v.
Proof.
  exists [mkCat "seller" [-(4); -(9)]; mkCat "mediator" [-(4); -(9)]], "buyer", [1], 7, 8. do 4 eexists.
  split; [vm_compute; lia|]. split; [vm_compute; lia|].
  split; [repeat (constructor; [vm_compute; discriminate|]); constructor|].
  do 4 (split; [vm_compute; reflexivity|]).
  split; [intros (c & E & H); injection E; intros <-; vm_compute in H; lia|].
  split; [eexists; split; [reflexivity|vm_compute; lia]|]. vm_compute. reflexivity.
Qed.
Print Assumptions C119_three_categories_refuted.

(** ** Non-vacuity *)

(** The seller of value -4 trades at -5, the heuristic price; likewise with the report -2; with -11/2 he is out: -5 is his threshold. *)
Definition heur_report (v : Q) : market :=
  set_nth 1 (mkCat "seller" ([-(3)] ++ v :: [-(6)])%list) [mkCat "buyer" [9; 8; 4]; mkCat "seller" []].
Example C119_witness : exists t t' t'' P P' P'',
  mcafee_M MAX_VALUE 10 (heur_report (-(4))) [1; 1]%nat true = Ok t /\ tprices t = Some P
  /\ mcafee_M MAX_VALUE 10 (heur_report (-(2))) [1; 1]%nat true = Ok t' /\ tprices t' = Some P'
  /\ mcafee_M MAX_VALUE 10 (heur_report (-(11#2))) [1; 1]%nat true = Ok t'' /\ tprices t'' = Some P''
  /\ possible_position ([-(3)] ++ [-(6)])%list (-(4)) 1 /\ possible_position ([-(3)] ++ [-(6)])%list (-(2)) 0
  /\ possible_position ([-(3)] ++ [-(6)])%list (-(11#2)) 1
  /\ still_in (tcats t) 1 1 /\ still_in (tcats t') 1 0 /\ ~ still_in (tcats t'') 1 1
  /\ nth 1 P 0 == -(5) /\ nth 1 P' 0 == -(5) /\ num_of_deals t = 2%nat
  /\ one_side (-(4) :: -(2) :: [-(3)] ++ [-(6)])%list
  /\ opposite_sides (-(11#2) :: [-(3)] ++ [-(6)])%list [9; 8; 4]
  /\ Forall (fun x => 2 * x < MAX_VALUE) (([-(3)] ++ [-(6)]) ++ [9; 8; 4])%list
  /\ cap_suffices 10 (heur_report (-(4))) [1; 1]%nat.
Proof.
  do 6 eexists. do 6 (split; [vm_compute; reflexivity|]).
  split; [vm_compute; lia|]. split; [vm_compute; lia|]. split; [vm_compute; lia|].
  split; [eexists; split; [reflexivity|vm_compute; lia]|]. split; [eexists; split; [reflexivity|vm_compute; lia]|].
  split; [intros (c & E & H); injection E; intros <-; vm_compute in H; lia|].
  split; [vm_compute; reflexivity|]. split; [vm_compute; reflexivity|]. split; [vm_compute; reflexivity|].
  split; [right; cbn [app]; repeat (constructor; [reflexivity|]); constructor|].
  split; [right; split; cbn [app]; [repeat (constructor; [reflexivity|]); constructor|repeat (constructor; [vm_compute; discriminate|]); constructor]|].
  split; [cbn [app]; repeat (constructor; [vm_compute; reflexivity|]); constructor|].
  exists 0%nat. do 2 eexists. split; [reflexivity|]. split; [reflexivity|]. vm_compute. lia.
Qed.

(** Three categories, the heuristic price accepted: the buyer of value 9 trades at 19/3, and with the report 20 as well. *)
Example C119_three_witness : exists t t' P P',
  mcafee_M MAX_VALUE 10 [mkCat "buyer" [9; 1]; mkCat "seller" [-(4); -(9)]; mkCat "mediator" [-(4); -(9)]] [1; 1; 1]%nat true = Ok t
  /\ mcafee_M MAX_VALUE 10 [mkCat "buyer" [20; 1]; mkCat "seller" [-(4); -(9)]; mkCat "mediator" [-(4); -(9)]] [1; 1; 1]%nat true = Ok t'
  /\ tprices t = Some P /\ tprices t' = Some P' /\ still_in (tcats t) 0 0 /\ still_in (tcats t') 0 0
  /\ num_of_deals t = 1%nat /\ nth 0 P 0 == 19 # 3 /\ nth 0 P' 0 == 19 # 3.
Proof.
  do 4 eexists. do 4 (split; [vm_compute; reflexivity|]).
  split; [eexists; split; [reflexivity|vm_compute; lia]|]. split; [eexists; split; [reflexivity|vm_compute; lia]|].
  split; [reflexivity|]. split; vm_compute; reflexivity.
Qed.
