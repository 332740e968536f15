(** * C117: with doubles, the trade-reduction protocol is truthful up to the rounding *)

From Coq Require Import String List Arith ZArith QArith Lia Permutation.
From Coq Require Import SpecFloat.
From Verif Require Import Base Model_Float Model_FloatMcAfee Model_FloatTradeReduction Spec_Float Spec_FloatMcAfee Spec_FloatReductionTruth Proof_FTT2.
Import ListNotations.
Open Scope Q_scope.

(** A buyer has the true value [v]; it may report any other number [v']. All buyers' numbers are between 0 and [B], the sellers' are between
    -10^8 and 0, and [B] is less than 10^8 (the MAX_VALUE of the protocol). Whichever of the agents with the same report it is in the two runs, a
    false report raises its gain by at most [6 * B * 2^-52]. *)
Theorem C117_buyer : forall it including_gft_0 pre post ss v v' B tb ts P tb' ts' P' u u',
  Forall finite_double (pre ++ v :: post) -> finite_double v' -> Forall finite_double ss ->
  Forall (fun b => 0 <= dval b <= B) (pre ++ v :: post) -> 0 <= dval v' <= B -> Forall (fun s => -100000000 <= dval s <= 0) ss -> B < 100000000 ->
  (length (pre ++ v :: post) < it)%nat ->
  f_trade_reduction it [pre ++ v :: post; ss] including_gft_0 = Ok ([tb; ts], P) -> f_trade_reduction it [pre ++ v' :: post; ss] including_gft_0 = Ok ([tb'; ts'], P') ->
  reduction_gain 0 (pre ++ v :: post) tb P v v u -> reduction_gain 0 (pre ++ v' :: post) tb' P' v' v u' ->
  u' <= u + 6 * ((1 # 4503599627370496) * B).
Proof. exact buyer_near_truth. Qed.
Print Assumptions C117_buyer.

(** The same for a seller. *)
Theorem C117_seller : forall it including_gft_0 bs pre post v v' B tb ts P tb' ts' P' u u', 0 <= B ->
  Forall finite_double bs -> Forall finite_double (pre ++ v :: post) -> finite_double v' ->
  Forall (fun b => 0 <= dval b <= B) bs -> Forall (fun s => -100000000 <= dval s <= 0) (pre ++ v :: post) -> -100000000 <= dval v' <= 0 -> B < 100000000 ->
  (length bs < it)%nat ->
  f_trade_reduction it [bs; pre ++ v :: post] including_gft_0 = Ok ([tb; ts], P) -> f_trade_reduction it [bs; pre ++ v' :: post] including_gft_0 = Ok ([tb'; ts'], P') ->
  reduction_gain 1 (pre ++ v :: post) ts P v v u -> reduction_gain 1 (pre ++ v' :: post) ts' P' v' v u' ->
  u' <= u + 6 * ((1 # 4503599627370496) * B).
Proof. exact seller_near_truth. Qed.
Print Assumptions C117_seller.

(** The buyers' price is, up to the rounding, the n-th highest of all valuations (the values of the buyers and the costs of the sellers), where n is the
    number of sellers: fewer than n valuations are above it, and at least n are not below it. *)
Theorem C117_price : forall bs ss B, Forall finite_double bs -> Forall finite_double ss ->
  Forall (fun b => 0 <= dval b <= B) bs -> Forall (fun s => -100000000 <= dval s <= 0) ss -> B < 100000000 ->
  forall it including_gft_0 tb ts p1 p2, (length bs < it)%nat -> f_trade_reduction it [bs; ss] including_gft_0 = Ok ([tb; ts], Some [p1; p2]) -> ts <> [] ->
  (length (filter (fun x => Qlt_bool (dval p1 + 3 * ((1 # 4503599627370496) * B)) x) (map dval bs ++ map (fun s => - dval s) ss)) < length ss)%nat
  /\ (length ss <= length (filter (fun x => Qle_bool (dval p1 - 3 * ((1 # 4503599627370496) * B)) x) (map dval bs ++ map (fun s => - dval s) ss)))%nat.
Proof. exact price_order. Qed.
Print Assumptions C117_price.

(** Those who do not trade, [other_b] and [other_s], do not regret it: no value exceeds the price by more than [B * 2^-52]. *)
Theorem C117_no_regret : forall bs ss B, Forall finite_double bs -> Forall finite_double ss ->
  Forall (fun b => 0 <= dval b <= B) bs -> Forall (fun s => -100000000 <= dval s <= 0) ss -> B < 100000000 ->
  forall it including_gft_0 tb ts p1 p2 other_b other_s, (length bs < it)%nat ->
  f_trade_reduction it [bs; ss] including_gft_0 = Ok ([tb; ts], Some [p1; p2]) -> ts <> [] ->
  Permutation (tb ++ other_b) bs -> Permutation (ts ++ other_s) ss ->
  (forall v, In v other_b -> dval v <= dval p1 + (1 # 4503599627370496) * B) /\ (forall v, In v other_s -> dval v <= dval p2 + (1 # 4503599627370496) * B).
Proof. exact no_regret. Qed.
Print Assumptions C117_no_regret.

(** ** Not exactly: of two buyers with nearly the same value, the one with the higher value is bought out, because the gains of the deals are rounded
    to the same number (C105); the other one pays slightly more than its value, and would have been better off with the report 0. *)
Definition high : double := S754_finite false 4503599627370499 (-50).
Definition low : double := S754_finite false 4503599627370498 (-50).
Definition cost : double := S754_finite true 4503599627370496 (-103).

Theorem C117_exactly_truthful_refuted : exists tb ts P tb' ts' P' u u',
  Forall finite_double [high; low] /\ Forall finite_double [cost; cost]
  /\ f_trade_reduction 100 [[high] ++ low :: []; [cost; cost]] true = Ok ([tb; ts], P)
  /\ f_trade_reduction 100 [[high] ++ fint 0 :: []; [cost; cost]] true = Ok ([tb'; ts'], P')
  /\ reduction_gain 0 ([high] ++ low :: []) tb P low low u /\ reduction_gain 0 ([high] ++ fint 0 :: []) tb' P' (fint 0) low u'
  /\ u < 0 /\ u' == 0.
Proof.
  do 6 eexists. exists (dval low - dval high), 0. split; [repeat constructor|]. split; [repeat constructor|].
  split; [vm_compute; reflexivity|]. split; [vm_compute; reflexivity|].
  split; [left; split; [left; vm_compute; reflexivity|do 2 eexists; split; [reflexivity|]; split; [reflexivity|vm_compute; reflexivity]]|].
  split; [right; split; [exists [fint 0]; split; [vm_compute; apply Permutation_refl|left; reflexivity]|reflexivity]|].
  split; vm_compute; reflexivity.
Qed.
Print Assumptions C117_exactly_truthful_refuted.

(** ** Nor for values above MAX_VALUE = 10^8: two buyers, 3*10^8 and 2*10^8, and a seller of cost 0. The price is 10^8, the value of the dummy; the second
    buyer does not trade, and gains 10^8 with the report 4*10^8. *)
Theorem C117_large_values_refuted : exists tb ts P tb' ts' P' u u',
  f_trade_reduction 100 [[fint 300000000] ++ fint 200000000 :: []; [fint 0]] true = Ok ([tb; ts], P)
  /\ f_trade_reduction 100 [[fint 300000000] ++ fint 400000000 :: []; [fint 0]] true = Ok ([tb'; ts'], P')
  /\ reduction_gain 0 ([fint 300000000] ++ fint 200000000 :: []) tb P (fint 200000000) (fint 200000000) u
  /\ reduction_gain 0 ([fint 300000000] ++ fint 400000000 :: []) tb' P' (fint 400000000) (fint 200000000) u'
  /\ u == 0 /\ u' == 100000000.
Proof.
  do 6 eexists. exists 0, 100000000.
  split; [vm_compute; reflexivity|]. split; [vm_compute; reflexivity|].
  split; [right; split; [exists [fint 200000000]; split; [vm_compute; apply Permutation_refl|left; reflexivity]|reflexivity]|].
  split; [left; split; [left; vm_compute; reflexivity|do 2 eexists; split; [reflexivity|]; split; [reflexivity|vm_compute; reflexivity]]|].
  split; reflexivity.
Qed.
Print Assumptions C117_large_values_refuted.

(** ** Witnesses *)

(** Buyers 0.9, 0.8 and 0.4, sellers 0.3, 0.4 and 0.6: the seller 0.6 sets the price of both deals. The buyer 0.8 gains 0.2; with the report
    0.5 it is bought out and gains nothing. *)
Example C117_buyer_witness : exists tb ts P tb' ts' P' u u',
  let bs := [lit 9 10] ++ lit 8 10 :: [lit 4 10] in let ss := [lit (-3) 10; lit (-4) 10; lit (-6) 10] in
  Forall finite_double bs /\ finite_double (lit 5 10) /\ Forall finite_double ss
  /\ Forall (fun b => 0 <= dval b <= 1) bs /\ 0 <= dval (lit 5 10) <= 1 /\ Forall (fun s => -100000000 <= dval s <= 0) ss /\ (length bs < 100)%nat
  /\ f_trade_reduction 100 [bs; ss] true = Ok ([tb; ts], P) /\ f_trade_reduction 100 [[lit 9 10] ++ lit 5 10 :: [lit 4 10]; ss] true = Ok ([tb'; ts'], P')
  /\ reduction_gain 0 bs tb P (lit 8 10) (lit 8 10) u /\ reduction_gain 0 ([lit 9 10] ++ lit 5 10 :: [lit 4 10]) tb' P' (lit 5 10) (lit 8 10) u'
  /\ 19 # 100 < u /\ u' == 0 /\ ts <> [].
Proof.
  do 8 eexists. cbv zeta. split; [repeat constructor|]. split; [repeat constructor|]. split; [repeat constructor|].
  split; [repeat constructor; vm_compute; discriminate|]. split; [split; vm_compute; discriminate|]. split; [repeat constructor; vm_compute; discriminate|]. split; [cbn; lia|].
  split; [vm_compute; reflexivity|]. split; [vm_compute; reflexivity|].
  split; [left; split; [right; left; vm_compute; reflexivity|do 2 eexists; split; [reflexivity|]; split; [reflexivity|apply Qeq_refl]]|].
  split; [right; split; [exists [lit 5 10; lit 4 10]; split; [vm_compute; apply Permutation_refl|left; reflexivity]|apply Qeq_refl]|].
  split; [vm_compute; reflexivity|]. split; [apply Qeq_refl|discriminate].
Qed.

(** The seller 0.4 gains 0.2; with the report 0.7 it does not trade. *)
Example C117_seller_witness : exists tb ts P tb' ts' P' u u',
  let bs := [lit 9 10; lit 8 10; lit 4 10] in let ss := [lit (-3) 10] ++ lit (-4) 10 :: [lit (-6) 10] in
  Forall finite_double bs /\ finite_double (lit (-7) 10) /\ Forall finite_double ss
  /\ Forall (fun b => 0 <= dval b <= 1) bs /\ -100000000 <= dval (lit (-7) 10) <= 0 /\ Forall (fun s => -100000000 <= dval s <= 0) ss /\ (length bs < 100)%nat
  /\ f_trade_reduction 100 [bs; ss] true = Ok ([tb; ts], P) /\ f_trade_reduction 100 [bs; [lit (-3) 10] ++ lit (-7) 10 :: [lit (-6) 10]] true = Ok ([tb'; ts'], P')
  /\ reduction_gain 1 ss ts P (lit (-4) 10) (lit (-4) 10) u /\ reduction_gain 1 ([lit (-3) 10] ++ lit (-7) 10 :: [lit (-6) 10]) ts' P' (lit (-7) 10) (lit (-4) 10) u'
  /\ 19 # 100 < u /\ u' == 0.
Proof.
  do 8 eexists. cbv zeta. split; [repeat constructor|]. split; [repeat constructor|]. split; [repeat constructor|].
  split; [repeat constructor; vm_compute; discriminate|]. split; [split; vm_compute; discriminate|]. split; [repeat constructor; vm_compute; discriminate|]. split; [cbn; lia|].
  split; [vm_compute; reflexivity|]. split; [vm_compute; reflexivity|].
  split; [left; split; [right; left; vm_compute; reflexivity|do 2 eexists; split; [reflexivity|]; split; [reflexivity|apply Qeq_refl]]|].
  split; [right; split; [exists [lit (-7) 10]; split; [vm_compute; apply perm_skip, perm_swap|left; reflexivity]|apply Qeq_refl]|].
  split; [vm_compute; reflexivity|apply Qeq_refl].
Qed.
