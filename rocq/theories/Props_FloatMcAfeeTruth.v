(** * C116: with doubles, McAfee's protocol is truthful up to the rounding without the heuristic, and not with it *)

From Coq Require Import String List Arith ZArith QArith Lia Permutation.
From Coq Require Import SpecFloat.
From Verif Require Import Base Model_Float Model_FloatMcAfee Spec_Float Spec_FloatMcAfee Spec_FloatMcAfeeTruth Proof_FMT.
Import ListNotations.
Open Scope Q_scope.

(** A buyer has the true value [v]; it may report any other number [v']. The buyers' true values are between 0 and [B] and the sellers' are not
    positive. Without the heuristic, whichever of the agents with the same report it is in the two runs, a false report raises its gain by at
    most [B * 2^-52]. *)
Theorem C116_buyer : forall it pre post ss v v' tb ts p1 p2 tb' ts' p1' p2' u u' B,
  Forall finite_double (pre ++ v :: post) -> finite_double v' -> Forall finite_double ss ->
  Forall (fun b => 0 <= dval b <= B) (pre ++ v :: post) -> Forall (fun s => dval s <= 0) ss ->
  (length (pre ++ v :: post) <= it \/ length ss <= it)%nat ->
  f_mcafee it [pre ++ v :: post; ss] false = Ok ([tb; ts], [p1; p2]) -> f_mcafee it [pre ++ v' :: post; ss] false = Ok ([tb'; ts'], [p1'; p2']) ->
  possible_gain (pre ++ v :: post) tb p1 v v u -> possible_gain (pre ++ v' :: post) tb' p1' v' v u' ->
  u' <= u + (1 # 4503599627370496) * B.
Proof. exact buyer_near_truth. Qed.
Print Assumptions C116_buyer.

(** The same for a seller. *)
Theorem C116_seller : forall it bs pre post v v' tb ts p1 p2 tb' ts' p1' p2' u u' B, 0 <= B ->
  Forall finite_double bs -> Forall finite_double (pre ++ v :: post) -> finite_double v' ->
  Forall (fun b => 0 <= dval b <= B) bs -> Forall (fun s => dval s <= 0) (pre ++ v :: post) ->
  (length bs <= it \/ length (pre ++ v :: post) <= it)%nat ->
  f_mcafee it [bs; pre ++ v :: post] false = Ok ([tb; ts], [p1; p2]) -> f_mcafee it [bs; pre ++ v' :: post] false = Ok ([tb'; ts'], [p1'; p2']) ->
  possible_gain (pre ++ v :: post) ts p2 v v u -> possible_gain (pre ++ v' :: post) ts' p2' v' v u' ->
  u' <= u + (1 # 4503599627370496) * B.
Proof. exact seller_near_truth. Qed.
Print Assumptions C116_seller.

(** ** Not exactly: the seller whose cost is 0.10000000000000002 trades at 0.1, because the gains of the deals are rounded to the same number
    (C100); had it asked for 0.2, it would not have traded. *)
Definition more : double := lit (-10000000000000002) 100000000000000000.

Theorem C116_exactly_truthful_refuted : exists tb ts p1 p2 tb' ts' p1' p2' u u',
  Forall finite_double [fint 4; fint 4] /\ Forall finite_double [lit (-1) 10; more]
  /\ f_mcafee 100 [[fint 4; fint 4]; [lit (-1) 10] ++ more :: []] false = Ok ([tb; ts], [p1; p2])
  /\ f_mcafee 100 [[fint 4; fint 4]; [lit (-1) 10] ++ lit (-2) 10 :: []] false = Ok ([tb'; ts'], [p1'; p2'])
  /\ possible_gain ([lit (-1) 10] ++ more :: []) ts p2 more more u /\ possible_gain ([lit (-1) 10] ++ lit (-2) 10 :: []) ts' p2' (lit (-2) 10) more u'
  /\ u < 0 /\ u' == 0.
Proof.
  do 8 eexists. exists (dval more - dval (lit (-1) 10)), 0. split; [repeat constructor|]. split; [repeat constructor|].
  split; [vm_compute; reflexivity|]. split; [vm_compute; reflexivity|].
  split; [left; split; [left; vm_compute; reflexivity|reflexivity]|].
  split; [right; split; [exists [lit (-2) 10]; split; [vm_compute; apply Permutation_refl|left; reflexivity]|reflexivity]|].
  split; vm_compute; reflexivity.
Qed.
Print Assumptions C116_exactly_truthful_refuted.

(** ** With the heuristic the rounding can decide whether the candidate price is accepted, and the gain of a lie is not small: buyers 4, 3.99 and
    0.05, sellers 0.1, 0.10000000000000002 and 0.15; the candidate price is 0.1. The buyer 3.99 is in the last deal, whose seller refuses the
    price; so this deal is cancelled. Had the buyer reported 4, the two deals would have the same rounded gain, the first of them would
    count as the last one, its seller would accept, and the buyer would get its 3.99 for 0.1. *)
Definition three_sellers : list double := [lit (-1) 10; more; lit (-15) 100].

Theorem C116_heuristic_refuted : exists tb ts p1 p2 tb' ts' p1' p2' u u',
  Forall finite_double [fint 4; lit 399 100; lit 5 100] /\ Forall finite_double three_sellers
  /\ f_mcafee 100 [[fint 4] ++ lit 399 100 :: [lit 5 100]; three_sellers] true = Ok ([tb; ts], [p1; p2])
  /\ f_mcafee 100 [[fint 4] ++ fint 4 :: [lit 5 100]; three_sellers] true = Ok ([tb'; ts'], [p1'; p2'])
  /\ possible_gain ([fint 4] ++ lit 399 100 :: [lit 5 100]) tb p1 (lit 399 100) (lit 399 100) u
  /\ possible_gain ([fint 4] ++ fint 4 :: [lit 5 100]) tb' p1' (fint 4) (lit 399 100) u'
  /\ u == 0 /\ 38 # 10 < u' /\ tb' = [fint 4; fint 4].
Proof.
  do 8 eexists. exists 0, (dval (lit 399 100) - dval (lit 1 10)). split; [repeat constructor|]. split; [repeat constructor|].
  split; [vm_compute; reflexivity|]. split; [vm_compute; reflexivity|].
  split; [right; split; [exists [lit 399 100; lit 5 100]; split; [vm_compute; apply Permutation_refl|left; reflexivity]|reflexivity]|].
  split; [left; split; [left; vm_compute; reflexivity|vm_compute; reflexivity]|].
  split; [reflexivity|]. split; vm_compute; reflexivity.
Qed.
Print Assumptions C116_heuristic_refuted.

(** ** Witnesses *)

(** Buyers 9, 8 and 4, sellers 3, 4 and 6: one deal, at 8 and 4. The buyer 9 gains 1; the buyer 8 gains nothing, and would lose 1 with the report 10. *)
Example C116_buyer_witness : exists tb ts p1 p2 tb' ts' p1' p2' u u',
  let bs := [fint 9] ++ fint 8 :: [fint 4] in let ss := [fint (-3); fint (-4); fint (-6)] in
  Forall finite_double bs /\ finite_double (fint 10) /\ Forall finite_double ss
  /\ Forall (fun b => 0 <= dval b <= 9) bs /\ Forall (fun s => dval s <= 0) ss
  /\ f_mcafee 100 [bs; ss] false = Ok ([tb; ts], [p1; p2]) /\ f_mcafee 100 [[fint 9] ++ fint 10 :: [fint 4]; ss] false = Ok ([tb'; ts'], [p1'; p2'])
  /\ possible_gain bs tb p1 (fint 8) (fint 8) u /\ possible_gain ([fint 9] ++ fint 10 :: [fint 4]) tb' p1' (fint 10) (fint 8) u' /\ u == 0 /\ u' == -(1).
Proof.
  do 8 eexists. exists 0, (dval (fint 8) - dval (fint 9)). cbv zeta. split; [repeat constructor|]. split; [repeat constructor|]. split; [repeat constructor|].
  split; [repeat constructor; vm_compute; discriminate|]. split; [repeat constructor; vm_compute; discriminate|].
  split; [vm_compute; reflexivity|]. split; [vm_compute; reflexivity|].
  split; [right; split; [exists [fint 8; fint 4]; split; [vm_compute; apply Permutation_refl|left; reflexivity]|reflexivity]|].
  split; [left; split; [left; vm_compute; reflexivity|reflexivity]|]. split; vm_compute; reflexivity.
Qed.

(** The seller 3 gains 1, and as much when it asks for 1. *)
Example C116_seller_witness : exists tb ts p1 p2 tb' ts' p1' p2' u u',
  let bs := [fint 9; fint 8; fint 4] in let ss := [] ++ fint (-3) :: [fint (-4); fint (-6)] in
  Forall finite_double bs /\ Forall finite_double ss /\ finite_double (fint (-1))
  /\ Forall (fun b => 0 <= dval b <= 9) bs /\ Forall (fun s => dval s <= 0) ss
  /\ f_mcafee 100 [bs; ss] false = Ok ([tb; ts], [p1; p2]) /\ f_mcafee 100 [bs; [] ++ fint (-1) :: [fint (-4); fint (-6)]] false = Ok ([tb'; ts'], [p1'; p2'])
  /\ possible_gain ss ts p2 (fint (-3)) (fint (-3)) u /\ possible_gain ([] ++ fint (-1) :: [fint (-4); fint (-6)]) ts' p2' (fint (-1)) (fint (-3)) u' /\ u == 1 /\ u' == 1.
Proof.
  do 8 eexists. exists 1, 1. cbv zeta. split; [repeat constructor|]. split; [repeat constructor|]. split; [repeat constructor|].
  split; [repeat constructor; vm_compute; discriminate|]. split; [repeat constructor; vm_compute; discriminate|].
  split; [vm_compute; reflexivity|]. split; [vm_compute; reflexivity|].
  split; [left; split; [left; vm_compute; reflexivity|vm_compute; reflexivity]|].
  split; [left; split; [left; vm_compute; reflexivity|vm_compute; reflexivity]|]. split; reflexivity.
Qed.
