(** * C120: with doubles, an agent who trades in McAfee's protocol changes the prices by roundings only (without the heuristic)

    The exact statement is C95 (C119 with the heuristic). *)

From Coq Require Import String List Arith ZArith QArith Qabs Lia Permutation.
From Coq Require Import SpecFloat.
From Verif Require Import Base Model_Float Model_FloatMcAfee Model_FloatTradeReduction Spec_Float Spec_FloatMcAfee Proof_FMW Proof_FTW.
Import ListNotations.
Open Scope Q_scope.

(** A buyer trades with the report [v] and with the report [v']: the number of deals is the same, and the two prices differ by at most
    [B * 2^-52] each, where [B] bounds the buyers' values. *)
Theorem C120_buyer : forall it pre post ss v v' tb ts p1 p2 tb' ts' p1' p2' B,
  Forall finite_double (v' :: pre ++ v :: post) -> Forall finite_double ss ->
  Forall (fun b => 0 <= dval b <= B) (v' :: pre ++ v :: post) -> Forall (fun s => dval s <= 0) ss ->
  (length (pre ++ v :: post) <= it \/ length ss <= it)%nat ->
  f_mcafee it [pre ++ v :: post; ss] false = Ok ([tb; ts], [p1; p2]) -> f_mcafee it [pre ++ v' :: post; ss] false = Ok ([tb'; ts'], [p1'; p2']) ->
  In v tb -> In v' tb' ->
  length tb = length tb' /\ length ts = length ts'
  /\ Qabs (dval p1 - dval p1') <= (1 # 4503599627370496) * B /\ Qabs (dval p2 - dval p2') <= (1 # 4503599627370496) * B.
Proof. exact Proof_FMW.buyer_no_influence. Qed.
Print Assumptions C120_buyer.

(** The same for a seller. *)
Theorem C120_seller : forall it bs pre post v v' tb ts p1 p2 tb' ts' p1' p2' B, 0 <= B ->
  Forall finite_double bs -> Forall finite_double (v' :: pre ++ v :: post) ->
  Forall (fun b => 0 <= dval b <= B) bs -> Forall (fun s => dval s <= 0) (v' :: pre ++ v :: post) ->
  (length bs <= it \/ length (pre ++ v :: post) <= it)%nat ->
  f_mcafee it [bs; pre ++ v :: post] false = Ok ([tb; ts], [p1; p2]) -> f_mcafee it [bs; pre ++ v' :: post] false = Ok ([tb'; ts'], [p1'; p2']) ->
  In v ts -> In v' ts' ->
  length tb = length tb' /\ length ts = length ts'
  /\ Qabs (dval p1 - dval p1') <= (1 # 4503599627370496) * B /\ Qabs (dval p2 - dval p2') <= (1 # 4503599627370496) * B.
Proof. exact Proof_FMW.seller_no_influence. Qed.
Print Assumptions C120_seller.

(** ** Not exactly: one of two buyers of value 4 trades, and the sellers' price is 0.1; with the report 5 it trades too, the two deals no longer
    have the same rounded gain, and the sellers' price is 0.10000000000000002, asked by the seller who traded before. *)
Definition tiny_more : double := lit (-10000000000000002) 100000000000000000.

Theorem C120_exact_refuted : exists tb ts p1 p2 tb' ts' p1' p2',
  Forall finite_double [fint 4; fint 5] /\ Forall finite_double [lit (-1) 10; tiny_more]
  /\ f_mcafee 100 [[fint 4] ++ fint 4 :: []; [lit (-1) 10; tiny_more]] false = Ok ([tb; ts], [p1; p2])
  /\ f_mcafee 100 [[fint 4] ++ fint 5 :: []; [lit (-1) 10; tiny_more]] false = Ok ([tb'; ts'], [p1'; p2'])
  /\ In (fint 4) tb /\ In (fint 5) tb' /\ dval p1 == dval p1' /\ dval p2' < dval p2 /\ ts = [tiny_more] /\ ts' = [lit (-1) 10].
Proof.
  do 8 eexists. split; [repeat constructor|]. split; [repeat constructor|]. split; [vm_compute; reflexivity|]. split; [vm_compute; reflexivity|].
  split; [left; vm_compute; reflexivity|]. split; [left; vm_compute; reflexivity|].
  split; [vm_compute; reflexivity|]. split; [vm_compute; reflexivity|]. split; vm_compute; reflexivity.
Qed.
Print Assumptions C120_exact_refuted.

(** ** And a better report can throw an agent out: the seller who asks for 0.10000000000000002 trades (the deals have the same rounded gain,
    so the first one counts as the last and is cancelled), but if it asks for 0.09999999999999999 its own deal is the first, and is
    cancelled.  (With exact numbers C95 excludes this.) *)
Definition tiny_less : double := lit (-9999999999999999) 100000000000000000.

Theorem C120_monotone_refuted : exists tb ts p1 p2 tb' ts' p1' p2',
  Forall finite_double [lit (-1) 10; tiny_more; tiny_less] /\ dval tiny_more < dval tiny_less
  /\ f_mcafee 100 [[fint 4; fint 4]; [lit (-1) 10] ++ tiny_more :: []] false = Ok ([tb; ts], [p1; p2])
  /\ f_mcafee 100 [[fint 4; fint 4]; [lit (-1) 10] ++ tiny_less :: []] false = Ok ([tb'; ts'], [p1'; p2'])
  /\ ts = [tiny_more] /\ ts' = [lit (-1) 10] /\ p2' = tiny_less.
Proof.
  do 8 eexists. split; [repeat constructor|]. split; [vm_compute; reflexivity|]. split; [vm_compute; reflexivity|]. split; [vm_compute; reflexivity|].
  split; [vm_compute; reflexivity|]. split; vm_compute; reflexivity.
Qed.
Print Assumptions C120_monotone_refuted.

(** ** With the heuristic the influence is not small: buyers 4, 3.99 and 0.05, sellers 0.1, 0.10000000000000002 and 0.15.  The buyer of value 4
    trades, at the price 3.99 (one deal).  Had it reported 3.99, it would trade at 0.1 (two deals): the two deals have the same rounded
    gain, and the seller of the other one accepts the candidate price. *)
Definition three_asks : list double := [lit (-1) 10; tiny_more; lit (-15) 100].

Theorem C120_heuristic_refuted : exists tb ts p1 p2 tb' ts' p1' p2',
  Forall finite_double [fint 4; lit 399 100; lit 5 100] /\ Forall finite_double three_asks
  /\ f_mcafee 100 [[] ++ fint 4 :: [lit 399 100; lit 5 100]; three_asks] true = Ok ([tb; ts], [p1; p2])
  /\ f_mcafee 100 [[] ++ lit 399 100 :: [lit 399 100; lit 5 100]; three_asks] true = Ok ([tb'; ts'], [p1'; p2'])
  /\ In (fint 4) tb /\ In (lit 399 100) tb' /\ length tb = 1%nat /\ length tb' = 2%nat
  /\ p1 = lit 399 100 /\ p1' = lit 1 10.
Proof.
  do 8 eexists. split; [repeat constructor|]. split; [repeat constructor|]. split; [vm_compute; reflexivity|]. split; [vm_compute; reflexivity|].
  split; [left; vm_compute; reflexivity|]. split; [left; vm_compute; reflexivity|].
  split; [reflexivity|]. split; [reflexivity|]. split; vm_compute; reflexivity.
Qed.
Print Assumptions C120_heuristic_refuted.

(** ** Non-vacuity: the run of [C120_exact_refuted] meets the hypotheses of [C120_buyer], with [B = 5]; and a seller's case: the seller of cost
    3 trades at the price 4, with the report 2 as well. *)
Example C120_case : Forall (fun b => 0 <= dval b <= 5) (fint 5 :: [fint 4] ++ fint 4 :: []) /\ Forall (fun s => dval s <= 0) [lit (-1) 10; tiny_more].
Proof. split; repeat constructor; vm_compute; discriminate. Qed.

Example C120_seller_case : exists tb ts p1 p2 tb' ts' p1' p2',
  f_mcafee 100 [[fint 9; fint 8; fint 2]; [fint (-4)] ++ fint (-3) :: [fint (-6)]] false = Ok ([tb; ts], [p1; p2])
  /\ f_mcafee 100 [[fint 9; fint 8; fint 2]; [fint (-4)] ++ fint (-2) :: [fint (-6)]] false = Ok ([tb'; ts'], [p1'; p2'])
  /\ In (fint (-3)) ts /\ In (fint (-2)) ts' /\ p2 = fint (-4) /\ p2' = fint (-4) /\ length ts = 1%nat.
Proof.
  do 8 eexists. split; [vm_compute; reflexivity|]. split; [vm_compute; reflexivity|].
  split; [left; vm_compute; reflexivity|]. split; [left; vm_compute; reflexivity|]. split; [vm_compute; reflexivity|]. split; vm_compute; reflexivity.
Qed.

(** ** The trade-reduction protocol: whoever trades with two reports changes the prices by at most [6 * B * 2^-52] *)

Theorem C120_reduction_buyer : forall it including_gft_0 pre post ss v v' B tb ts P tb' ts' P',
  Forall finite_double (v' :: pre ++ v :: post) -> Forall finite_double ss ->
  Forall (fun b => 0 <= dval b <= B) (v' :: pre ++ v :: post) -> Forall (fun s => -100000000 <= dval s <= 0) ss -> B < 100000000 ->
  (length (pre ++ v :: post) < it)%nat ->
  f_trade_reduction it [pre ++ v :: post; ss] including_gft_0 = Ok ([tb; ts], P) -> f_trade_reduction it [pre ++ v' :: post; ss] including_gft_0 = Ok ([tb'; ts'], P') ->
  In v tb -> In v' tb' -> exists p1 p2 p1' p2', P = Some [p1; p2] /\ P' = Some [p1'; p2']
  /\ Qabs (dval p1 - dval p1') <= 6 * ((1 # 4503599627370496) * B) /\ Qabs (dval p2 - dval p2') <= 6 * ((1 # 4503599627370496) * B).
Proof. exact Proof_FTW.buyer_no_influence. Qed.
Print Assumptions C120_reduction_buyer.

Theorem C120_reduction_seller : forall it including_gft_0 bs pre post v v' B tb ts P tb' ts' P', 0 <= B ->
  Forall finite_double bs -> Forall finite_double (v' :: pre ++ v :: post) ->
  Forall (fun b => 0 <= dval b <= B) bs -> Forall (fun s => -100000000 <= dval s <= 0) (v' :: pre ++ v :: post) -> B < 100000000 ->
  (length bs < it)%nat ->
  f_trade_reduction it [bs; pre ++ v :: post] including_gft_0 = Ok ([tb; ts], P) -> f_trade_reduction it [bs; pre ++ v' :: post] including_gft_0 = Ok ([tb'; ts'], P') ->
  In v ts -> In v' ts' -> exists p1 p2 p1' p2', P = Some [p1; p2] /\ P' = Some [p1'; p2']
  /\ Qabs (dval p1 - dval p1') <= 6 * ((1 # 4503599627370496) * B) /\ Qabs (dval p2 - dval p2') <= 6 * ((1 # 4503599627370496) * B).
Proof. exact Proof_FTW.seller_no_influence. Qed.
Print Assumptions C120_reduction_seller.

(** Non-vacuity: the buyer of value 9.5 trades with this report and with the report 8.25, at the same price; the seller of cost 3 with the
    reports -3 and -2. *)
Example C120_reduction_case : exists tb ts P tb' ts' P' tb2 ts2 P2,
  f_trade_reduction 100 [[] ++ lit 95 10 :: [fint 8; fint 2]; [fint (-3); fint (-4); fint (-6)]] true = Ok ([tb; ts], P)
  /\ f_trade_reduction 100 [[] ++ lit 825 100 :: [fint 8; fint 2]; [fint (-3); fint (-4); fint (-6)]] true = Ok ([tb'; ts'], P')
  /\ f_trade_reduction 100 [[lit 95 10; fint 8; fint 2]; [] ++ fint (-2) :: [fint (-4); fint (-6)]] true = Ok ([tb2; ts2], P2)
  /\ In (lit 95 10) tb /\ In (lit 825 100) tb' /\ In (fint (-3)) ts /\ In (fint (-2)) ts2 /\ P = P' /\ P = P2 /\ P <> None.
Proof.
  do 9 eexists. split; [vm_compute; reflexivity|]. split; [vm_compute; reflexivity|]. split; [vm_compute; reflexivity|].
  split; [left; vm_compute; reflexivity|]. split; [left; vm_compute; reflexivity|]. split; [left; vm_compute; reflexivity|].
  split; [left; vm_compute; reflexivity|]. split; [vm_compute; reflexivity|]. split; [vm_compute; reflexivity|]. discriminate.
Qed.
