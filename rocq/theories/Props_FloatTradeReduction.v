(** * C105: the trade-reduction protocol in floating point *)

From Coq Require Import String List Arith ZArith QArith Qpower Qabs Lia Permutation.
From Coq Require Import SpecFloat.
From Verif Require Import Base Model_Agents Model_Trade Model_Market Model_TradeReduction Model_Float Model_FloatMcAfee Model_FloatTradeReduction Spec_Float Spec_FloatMcAfee
  Spec_FloatTradeReduction Proof_FT5 Proof_FT6.
Import ListNotations.
Open Scope Q_scope.

(** Buyers with values between 0 and [B], sellers with values between -10^8 (the dummy of the protocol) and 0, all of them doubles.  The protocol never fails.
    Its prices are finite, and their sum differs from 0 by at most [B * 2^-52].  The prices are missing ([None]) only if deals of gain 0 are excluded; then nobody
    trades. *)
Theorem C105_nearly_balanced : forall bs ss B, Forall finite_double bs -> Forall finite_double ss ->
  Forall (fun b => 0 <= dval b <= B) bs -> Forall (fun s => -100000000 <= dval s <= 0) ss -> B <= Qpower 2 1000 ->
  forall iterations including_gft_0, 0 <= B -> exists tb ts P, f_trade_reduction iterations [bs; ss] including_gft_0 = Ok ([tb; ts], P) /\
  ((P = None /\ including_gft_0 = false /\ tb = [] /\ ts = []) \/
   exists p1 p2, P = Some [p1; p2] /\ finite_double p1 /\ finite_double p2 /\ Qabs (dval p1 + dval p2) <= (1 # 4503599627370496) * B).
Proof. exact fbalanced. Qed.
Print Assumptions C105_nearly_balanced.

(** No trader's price exceeds its value by more than [B * 2^-52]. *)
Theorem C105_nearly_rational : forall bs ss B, Forall finite_double bs -> Forall finite_double ss ->
  Forall (fun b => 0 <= dval b <= B) bs -> Forall (fun s => -100000000 <= dval s <= 0) ss -> B <= Qpower 2 1000 ->
  forall iterations including_gft_0 tb ts p1 p2, f_trade_reduction iterations [bs; ss] including_gft_0 = Ok ([tb; ts], Some [p1; p2]) ->
  (forall v, In v tb -> dval p1 <= dval v + (1 # 4503599627370496) * B) /\ (forall v, In v ts -> dval p2 <= dval v + (1 # 4503599627370496) * B).
Proof. exact frational. Qed.
Print Assumptions C105_nearly_rational.

(** Rounding does not change who trades, up to ties: if the iterations suffice, the sellers are the [k] best ones, and the buyers, with at most one more value
    [rb], are the [k] best ones; any buyer and seller among these are a worthwhile deal (in exact numbers), and any two among the [worse] ones are not. *)
Theorem C105_traders : forall bs ss B, Forall finite_double bs -> Forall finite_double ss ->
  Forall (fun b => 0 <= dval b <= B) bs -> Forall (fun s => -100000000 <= dval s <= 0) ss -> B <= Qpower 2 1000 ->
  forall iterations including_gft_0 tb ts P, (length bs < iterations)%nat -> f_trade_reduction iterations [bs; ss] including_gft_0 = Ok ([tb; ts], P) ->
  exists rb worse_b worse_s, Permutation (tb ++ rb ++ worse_b) bs /\ Permutation (ts ++ worse_s) ss /\ (length rb <= 1)%nat /\ length (tb ++ rb) = length ts
    /\ (forall v w, In v (tb ++ rb) -> In w worse_b -> dval w <= dval v) /\ (forall v w, In v ts -> In w worse_s -> dval w <= dval v)
    /\ (forall v w, In v (tb ++ rb) -> In w ts -> worth including_gft_0 v w) /\ (forall v w, In v worse_b -> In w worse_s -> ~ worth including_gft_0 v w).
Proof. exact ftraders. Qed.
Print Assumptions C105_traders.

(** The prices are missing exactly in the markets where the best deal has gain 0, when such deals are excluded. *)
Theorem C105_missing_prices : forall bs ss B, Forall finite_double bs -> Forall finite_double ss ->
  Forall (fun b => 0 <= dval b <= B) bs -> Forall (fun s => -100000000 <= dval s <= 0) ss -> B <= Qpower 2 1000 ->
  forall iterations including_gft_0 tb ts, (length bs < iterations)%nat -> f_trade_reduction iterations [bs; ss] including_gft_0 = Ok ([tb; ts], None) ->
  including_gft_0 = false /\ (forall b s, In b bs -> In s ss -> dval b + dval s <= 0) /\ exists b s, In b bs /\ In s ss /\ dval b + dval s == 0.
Proof. exact fno_prices. Qed.
Print Assumptions C105_missing_prices.

(** With integers below 2^52 the doubles give exactly the traders and the prices of the exact protocol. *)
Theorem C105_integers_exact : forall iterations bs ss including_gft_0, Forall small_int bs -> Forall small_int ss ->
  exists t tb ts P, trade_reduction_M MAX_VALUE iterations (exact_market [bs; ss]) [1%nat; 1%nat] including_gft_0 = Ok t
    /\ f_trade_reduction iterations [bs; ss] including_gft_0 = Ok ([tb; ts], P)
    /\ map cvalues (tcats t) = [map dval tb; map dval ts] /\ same_prices P (tprices t).
Proof. exact tr_exact. Qed.
Print Assumptions C105_integers_exact.

(** ** What fails: the auctioneer can lose money, ... *)

Definition float_reduction_no_deficit (including_gft_0 : bool) : Prop := forall iterations bs ss tb ts p1 p2, Forall finite_double bs -> Forall finite_double ss ->
  f_trade_reduction iterations [bs; ss] including_gft_0 = Ok ([tb; ts], Some [p1; p2]) -> 0 <= dval p1 + dval p2.

(** ... one buyer, 0.4, and two sellers, -0.1: the buyer competes with the second seller, and pays 0.4 - (0.4 - 0.1) = 0.09999999999999998; the seller gets 0.1. *)
Definition lossy : list (list double) := [[lit 4 10]; [lit (-1) 10; lit (-1) 10]].

Example lossy_run : f_trade_reduction 100 lossy true = Ok ([[lit 4 10]; [lit (-1) 10]], Some [lit 9999999999999998 100000000000000000; lit (-1) 10])
  /\ f_trade_reduction 100 lossy false = Ok ([[lit 4 10]; [lit (-1) 10]], Some [lit 9999999999999998 100000000000000000; lit (-1) 10]).
Proof. split; vm_compute; reflexivity. Qed.

Theorem C105_deficit_refuted : forall including_gft_0, ~ float_reduction_no_deficit including_gft_0.
Proof.
  intros incl H. assert (R : f_trade_reduction 100 lossy incl = Ok ([[lit 4 10]; [lit (-1) 10]], Some [lit 9999999999999998 100000000000000000; lit (-1) 10])) by (destruct incl; apply lossy_run).
  assert (K := H 100%nat [lit 4 10] [lit (-1) 10; lit (-1) 10] _ _ _ _ ltac:(repeat constructor) ltac:(repeat constructor) R). vm_compute in K. apply K. reflexivity.
Qed.
Print Assumptions C105_deficit_refuted.

(** ... and a trader can pay more than its value: *)
Definition float_reduction_rational (including_gft_0 : bool) : Prop := forall iterations bs ss tb ts p1 p2, Forall finite_double bs -> Forall finite_double ss ->
  f_trade_reduction iterations [bs; ss] including_gft_0 = Ok ([tb; ts], Some [p1; p2]) -> (forall v, In v tb -> dval p1 <= dval v) /\ (forall v, In v ts -> dval p2 <= dval v).

(** the gains of the deals 4 + 3u, -u/2 and 4 + 2u, -u/2 (where u = 2^-50) are rounded to the same number, so the better deal comes first; its buyer is the
    external competition of its own seller, and the other buyer pays 4 + 3u. *)
Definition u3 : double := S754_finite false 4503599627370499 (-50).
Definition u2 : double := S754_finite false 4503599627370498 (-50).
Definition half_u : double := S754_finite true 4503599627370496 (-103).
Definition tied_buyers : list (list double) := [[u3; u2]; [half_u; half_u]].

Example tied_buyers_run : f_trade_reduction 100 tied_buyers true = Ok ([[u2]; [half_u; half_u]], Some [u3; SFopp u2])
  /\ f_trade_reduction 100 tied_buyers false = Ok ([[u2]; [half_u; half_u]], Some [u3; SFopp u2]).
Proof. split; vm_compute; reflexivity. Qed.

Example tied_buyers_finite : Forall (Forall finite_double) tied_buyers.
Proof. repeat constructor. Qed.

Theorem C105_rationality_refuted : forall including_gft_0, ~ float_reduction_rational including_gft_0.
Proof.
  intros incl H. assert (F := tied_buyers_finite). inversion F as [|? ? F1 F']; subst. inversion F' as [|? ? F2 _]; subst.
  assert (R : f_trade_reduction 100 tied_buyers incl = Ok ([[u2]; [half_u; half_u]], Some [u3; SFopp u2])) by (destruct incl; apply tied_buyers_run).
  destruct (H 100%nat _ _ _ _ _ _ F1 F2 R) as [K _]. specialize (K _ (or_introl eq_refl)). vm_compute in K. apply K. reflexivity.
Qed.
Print Assumptions C105_rationality_refuted.

(** ** Runs *)

(** Doctests of the protocol (trade_reduction_protocol.py:91-95, 105-142, 158-163), with doubles. *)
Example C105_doctests :
  f_trade_reduction 100 [[fint 2; fint 2; fint 2; fint 3]; [fint (-1); fint (-2); fint (-2); fint (-3)]] true = Ok ([[fint 3; fint 2]; [fint (-1); fint (-2); fint (-2)]], Some [fint 2; fint (-2)])
  /\ f_trade_reduction 100 [[fint 9]; [fint (-4)]] true = Ok ([[]; [fint (-4)]], Some [fint 9; fint (-9)])
  /\ f_trade_reduction 100 [[fint (-4)]; [fint 9; fint 8]] true = Ok ([[fint (-4)]; [fint 9]], Some [fint (-8); fint 8])
  /\ f_trade_reduction 100 [[fint 9]; [fint (-4); fint (-3)]] true = Ok ([[fint 9]; [fint (-3)]], Some [fint 4; fint (-4)])
  /\ f_trade_reduction 100 [[fint 9; fint 8]; [fint (-4); fint (-3)]] true = Ok ([[fint 9]; [fint (-3); fint (-4)]], Some [fint 8; fint (-8)])
  /\ f_trade_reduction 100 [[fint (-4); fint (-3)]; [fint 9; fint 8]; [fint (-1); fint (-2)]] true
     = Ok ([[fint (-3)]; [fint 9]; [fint (-1); fint (-2)]], Some [fint (-4); fint 8; fint (-4)]).
Proof. repeat split; vm_compute; reflexivity. Qed.

(** The best deal has gain 0: no prices. *)
Example C105_no_prices : f_trade_reduction 100 [[lit 1 10]; [lit (-1) 10]] false = Ok ([[]; []], None)
  /\ f_trade_reduction 100 [[lit 1 10]; [lit (-1) 10]] true = Ok ([[]; [lit (-1) 10]], Some [lit 1 10; lit (-1) 10]).
Proof. split; vm_compute; reflexivity. Qed.

(** The hypotheses of the theorems. *)
Example C105_hypotheses : Forall finite_double [lit 4 10; lit 71 10] /\ Forall (fun b => 0 <= dval b <= 8) [lit 4 10; lit 71 10]
  /\ Forall finite_double [lit (-1) 10; lit (-33) 10] /\ Forall (fun s => -100000000 <= dval s <= 0) [lit (-1) 10; lit (-33) 10] /\ 8 <= Qpower 2 1000.
Proof.
  split; [repeat constructor|]. split; [repeat constructor; vm_compute; discriminate|]. split; [repeat constructor|]. split; [repeat constructor; vm_compute; discriminate|]. vm_compute. discriminate.
Qed.

Example C105_float_run : f_trade_reduction 100 [[lit 4 10; lit 71 10]; [lit (-1) 10; lit (-33) 10]] true = Ok ([[lit 71 10]; [lit (-1) 10]], Some [lit 33 10; lit (-33) 10]).
Proof. vm_compute. reflexivity. Qed.
