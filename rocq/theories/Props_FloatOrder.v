(** * C118: with doubles, McAfee's protocol does not depend on which of two sides is listed first; with three categories the order matters *)

From Coq Require Import String List Arith ZArith QArith Lia Permutation.
From Coq Require Import SpecFloat.
From Verif Require Import Base Model_Float Model_FloatMcAfee Spec_Float Spec_FloatMcAfee Spec_FloatMcAfeeTruth Props_FloatMcAfee Proof_FMT Proof_FMS.
Import ListNotations.
Open Scope Q_scope.

(** For all doubles (also infinities and NaN), with and without the heuristic: listing the other side first gives the same traders and the same prices, in
    the other order. *)
Theorem C118_two_sides : forall it bs ss heuristic tb ts p1 p2,
  f_mcafee it [bs; ss] heuristic = Ok ([tb; ts], [p1; p2]) <-> f_mcafee it [ss; bs] heuristic = Ok ([ts; tb], [p2; p1]).
Proof. exact two_sides. Qed.
Print Assumptions C118_two_sides.

(** Hence C100 and C116 hold with the sellers first. *)
Theorem C118_no_deficit : forall it bs ss heuristic, Forall finite_double bs -> Forall finite_double ss ->
  exists tb ts p1 p2, f_mcafee it [ss; bs] heuristic = Ok ([ts; tb], [p2; p1]) /\ finite_double p1 /\ finite_double p2 /\ 0 <= dval p1 + dval p2.
Proof.
  intros it bs ss h Fb Fs. destruct (C100_no_deficit it bs ss h Fb Fs) as (tb & ts & p1 & p2 & H & R). exists tb, ts, p1, p2. split; [apply two_sides; exact H|exact R].
Qed.
Print Assumptions C118_no_deficit.

Theorem C118_buyer : forall it pre post ss v v' tb ts p1 p2 tb' ts' p1' p2' u u' B,
  Forall finite_double (pre ++ v :: post) -> finite_double v' -> Forall finite_double ss ->
  Forall (fun b => 0 <= dval b <= B) (pre ++ v :: post) -> Forall (fun s => dval s <= 0) ss ->
  (length (pre ++ v :: post) <= it \/ length ss <= it)%nat ->
  f_mcafee it [ss; pre ++ v :: post] false = Ok ([ts; tb], [p2; p1]) -> f_mcafee it [ss; pre ++ v' :: post] false = Ok ([ts'; tb'], [p2'; p1']) ->
  possible_gain (pre ++ v :: post) tb p1 v v u -> possible_gain (pre ++ v' :: post) tb' p1' v' v u' ->
  u' <= u + (1 # 4503599627370496) * B.
Proof.
  intros it pre post ss v v' tb ts p1 p2 tb' ts' p1' p2' u u' B F Fv FS VB VS CAP H H' G G'. apply two_sides in H. apply two_sides in H'.
  apply (buyer_near_truth it pre post ss v v' tb ts p1 p2 tb' ts' p1' p2' u u' B); assumption.
Qed.
Print Assumptions C118_buyer.

Theorem C118_seller : forall it bs pre post v v' tb ts p1 p2 tb' ts' p1' p2' u u' B, 0 <= B ->
  Forall finite_double bs -> Forall finite_double (pre ++ v :: post) -> finite_double v' ->
  Forall (fun b => 0 <= dval b <= B) bs -> Forall (fun s => dval s <= 0) (pre ++ v :: post) ->
  (length bs <= it \/ length (pre ++ v :: post) <= it)%nat ->
  f_mcafee it [pre ++ v :: post; bs] false = Ok ([ts; tb], [p2; p1]) -> f_mcafee it [pre ++ v' :: post; bs] false = Ok ([ts'; tb'], [p2'; p1']) ->
  possible_gain (pre ++ v :: post) ts p2 v v u -> possible_gain (pre ++ v' :: post) ts' p2' v' v u' ->
  u' <= u + (1 # 4503599627370496) * B.
Proof.
  intros it bs pre post v v' tb ts p1 p2 tb' ts' p1' p2' u u' B B0 FB F Fv VB VS CAP H H' G G'. apply two_sides in H. apply two_sides in H'.
  apply (seller_near_truth it bs pre post v v' tb ts p1 p2 tb' ts' p1' p2' u u' B); assumption.
Qed.
Print Assumptions C118_seller.

(** ** With three categories the order of the sum decides: (0.01 + 0.03) - 0.04 is 0, but (0.03 - 0.04) + 0.01 is negative. The same agents make a deal in
    one order and none in the other. *)
Definition ca : list double := [fint 1; lit 1 100].
Definition cb : list double := [lit 3 100; lit 3 100].
Definition cc : list double := [lit (-4) 100; lit (-4) 100].

Theorem C118_three_refuted :
  f_mcafee 100 [ca; cb; cc] false = Ok ([[fint 1]; [lit 3 100]; [lit (-4) 100]], [lit 1 100; lit 3 100; lit (-4) 100])
  /\ f_mcafee 100 [cb; cc; ca] false = Ok ([[]; []; []], [lit 3 100; lit (-4) 100; fint 1]).
Proof. split; vm_compute; reflexivity. Qed.
Print Assumptions C118_three_refuted.

(** ** Witness: a market in both orders, with the heuristic (the candidate price 5.0 is accepted) and without. *)
Example C118_witness :
  f_mcafee 100 [[fint 9; fint 8; fint 4]; [fint (-3); fint (-4); fint (-6)]] true = Ok ([[fint 9; fint 8]; [fint (-3); fint (-4)]], [fint 5; fint (-5)])
  /\ f_mcafee 100 [[fint (-3); fint (-4); fint (-6)]; [fint 9; fint 8; fint 4]] true = Ok ([[fint (-3); fint (-4)]; [fint 9; fint 8]], [fint (-5); fint 5])
  /\ f_mcafee 100 [[fint (-3); fint (-4); fint (-6)]; [fint 9; fint 8; fint 4]] false = Ok ([[fint (-3)]; [fint 9]], [fint (-4); fint 8]).
Proof. split; [|split]; vm_compute; reflexivity. Qed.
