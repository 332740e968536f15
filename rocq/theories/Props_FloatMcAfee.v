(** * C100: McAfee's protocol in floating point *)

From Coq Require Import String List Arith ZArith QArith Lia Permutation.
From Coq Require Import SpecFloat.
From Verif Require Import Base Model_Agents Model_Trade Model_Market Model_McAfee Model_Float Model_FloatMcAfee Spec_Float Spec_FloatMcAfee
  Proof_FM2 Proof_FM3 Proof_FM4 Proof_FM5 Proof_FM6.
Import ListNotations.
Open Scope Q_scope.

(** Two categories (buyers and sellers) of finite doubles.  The protocol never fails, its prices are finite, and their sum is not negative: with doubles, too,
    the auctioneer never loses money (unlike in the ascending auction, C53). *)
Theorem C100_no_deficit : forall iterations bs ss heuristic, Forall finite_double bs -> Forall finite_double ss ->
  exists tb ts p1 p2, f_mcafee iterations [bs; ss] heuristic = Ok ([tb; ts], [p1; p2])
    /\ finite_double p1 /\ finite_double p2 /\ 0 <= dval p1 + dval p2.
Proof. exact float_no_deficit. Qed.
Print Assumptions C100_no_deficit.

(** Rounding does not change the number of deals: if [deals] is the optimal trade of the same market with exact numbers, then all of its traders but at most
    one of each category trade; they are the best ones: [tb], with at most one more value [rb], is at least as good as the [worse] rest. *)
Theorem C100_traders : forall iterations bs ss heuristic tb ts p1 p2 deals remaining, Forall finite_double bs -> Forall finite_double ss ->
  f_mcafee iterations [bs; ss] heuristic = Ok ([tb; ts], [p1; p2]) ->
  optimal_trade iterations (exact_market [bs; ss]) [1%nat; 1%nat] true = Ok (deals, remaining) ->
  (deals = [] -> dval p1 == 0 /\ dval p2 == 0) /\
  exists rb rs worse_b worse_s,
    Permutation (tb ++ rb ++ worse_b) bs /\ Permutation (ts ++ rs ++ worse_s) ss
    /\ length (tb ++ rb) = length deals /\ length (ts ++ rs) = length deals /\ length rb = length rs /\ (length rb <= 1)%nat
    /\ (forall v w, In v (tb ++ rb) -> In w worse_b -> dval w <= dval v) /\ (forall v w, In v (ts ++ rs) -> In w worse_s -> dval w <= dval v).
Proof. exact float_traders. Qed.
Print Assumptions C100_traders.

(** Individual rationality fails, ... *)
Definition float_mcafee_rational (heuristic : bool) : Prop := forall iterations bs ss tb ts p1 p2, Forall finite_double bs -> Forall finite_double ss ->
  f_mcafee iterations [bs; ss] heuristic = Ok ([tb; ts], [p1; p2]) -> (forall v, In v tb -> dval p1 <= dval v) /\ (forall v, In v ts -> dval p2 <= dval v).

(** ... because the gains of different deals can be rounded to the same number: 4 - 0.1 and 4 - 0.10000000000000002 are both 3.9.  The stable sort of
    [optimal_trade] then keeps the better deal first, and removes it instead of the worse one: the seller whose cost is 0.10000000000000002 gets 0.1. *)
Definition tied : list (list double) := [[fint 4; fint 4]; [lit (-1) 10; lit (-10000000000000002) 100000000000000000]].

Example tied_run : f_mcafee 100 tied false = Ok ([[fint 4]; [lit (-10000000000000002) 100000000000000000]], [fint 4; lit (-1) 10])
  /\ f_mcafee 100 tied true = Ok ([[fint 4]; [lit (-10000000000000002) 100000000000000000]], [fint 4; lit (-1) 10])
  /\ flt (lit (-10000000000000002) 100000000000000000) (lit (-1) 10) = true.
Proof. split; [vm_compute; reflexivity|]. split; vm_compute; reflexivity. Qed.

Example tied_finite : Forall (Forall finite_double) tied.
Proof. repeat constructor. Qed.

Theorem C100_rationality_refuted : forall heuristic, ~ float_mcafee_rational heuristic.
Proof.
  intros h H. assert (F := tied_finite). inversion F as [|? ? F1 F']; subst. inversion F' as [|? ? F2 _]; subst.
  assert (R : f_mcafee 100 tied h = Ok ([[fint 4]; [lit (-10000000000000002) 100000000000000000]], [fint 4; lit (-1) 10])) by (destruct h; apply tied_run).
  destruct (H 100%nat _ _ _ _ _ _ F1 F2 R) as [_ K]. specialize (K _ (or_introl eq_refl)). vm_compute in K. apply K. reflexivity.
Qed.
Print Assumptions C100_rationality_refuted.

(** ... but only by the rounding: if the buyers' values are between 0 and [B] and the sellers' are not positive, no trader's price exceeds its value by more
    than [B * 2^-52]. *)
Theorem C100_nearly_rational : forall iterations bs ss heuristic tb ts p1 p2 B, Forall finite_double bs -> Forall finite_double ss ->
  Forall (fun b => 0 <= dval b <= B) bs -> Forall (fun s => dval s <= 0) ss ->
  f_mcafee iterations [bs; ss] heuristic = Ok ([tb; ts], [p1; p2]) ->
  (forall v, In v tb -> dval p1 <= dval v + (1 # 4503599627370496) * B) /\ (forall v, In v ts -> dval p2 <= dval v + (1 # 4503599627370496) * B).
Proof. exact near_rational. Qed.
Print Assumptions C100_nearly_rational.

(** With integers below 2^52 the doubles give exactly the traders and the prices of the exact protocol. *)
Theorem C100_integers_exact : forall iterations bs ss heuristic, Forall small_int bs -> Forall small_int ss ->
  exists t tb ts p1 p2 q1 q2, mcafee_M MAX_VALUE iterations (exact_market [bs; ss]) [1%nat; 1%nat] heuristic = Ok t
    /\ f_mcafee iterations [bs; ss] heuristic = Ok ([tb; ts], [p1; p2])
    /\ map cvalues (tcats t) = [map dval tb; map dval ts] /\ tprices t = Some [q1; q2] /\ q1 == dval p1 /\ q2 == dval p2.
Proof. exact exact_ints. Qed.
Print Assumptions C100_integers_exact.

(** A run with integers in which the candidate price is accepted: 17 and 14 trade with -1 and -2, at (9 + 4) / 2 = 6.5. *)
Example integer_run : f_mcafee 100 [[fint 9; fint 17; fint 14]; [fint (-4); fint (-1); fint (-13); fint (-2)]] false
    = Ok ([[fint 17; fint 14]; [fint (-1); fint (-2)]], [fint 9; fint (-4)])
  /\ f_mcafee 100 [[fint 5; fint 17; fint 14]; [fint (-8); fint (-1); fint (-13); fint (-2)]] true
    = Ok ([[fint 17; fint 14]; [fint (-1); fint (-2)]], [lit 65 10; lit (-65) 10]).
Proof. split; vm_compute; reflexivity. Qed.

Example integer_small : Forall small_int [fint 9; fint (-4); fint 17].
Proof.
  repeat constructor; cbn; trivial; [exists 9%Z|exists (-4)%Z|exists 17%Z]; split; vm_compute; reflexivity.
Qed.

(** No deal: the prices are 0. *)
Example no_deal_run : f_mcafee 100 [[fint 1]; [fint (-2)]] true = Ok ([[]; []], [fint 0; fint 0]).
Proof. vm_compute. reflexivity. Qed.

(** With three categories the sign of the sum can be wrong, and the auctioneer can lose money: 10^16 - 1 is rounded to 10^16, so the deal 10^16 - 1 - 10^16,
    whose gain is -1, counts as a deal of gain 0.  The buyer pays 10^16 and the two sellers get 1 and 10^16. *)
Definition float_three_no_deficit : Prop := forall iterations cats heuristic traders prices, length cats = 3%nat -> Forall (Forall finite_double) cats ->
  f_mcafee iterations cats heuristic = Ok (traders, prices) -> Forall (fun c => c <> []) traders -> 0 <= Qsum (map dval prices).

Definition big : double := fint 10000000000000000.

Example three_run : f_mcafee 100 [[big; big]; [fint (-1); fint (-1)]; [SFopp big; SFopp big]] false = Ok ([[big]; [fint (-1)]; [SFopp big]], [big; fint (-1); SFopp big]).
Proof. vm_compute. reflexivity. Qed.

Theorem C100_three_categories_refuted : ~ float_three_no_deficit.
Proof.
  intros H. assert (K := H 100%nat [[big; big]; [fint (-1); fint (-1)]; [SFopp big; SFopp big]] false _ _ eq_refl ltac:(repeat constructor) three_run ltac:(repeat constructor; discriminate)). vm_compute in K. apply K. reflexivity.
Qed.
Print Assumptions C100_three_categories_refuted.

(** One category only (all agents are buyers): the candidate is the mean of one number. *)
Example C100_one_category : f_mcafee 10 [[fint 3; fint 5]] true = Ok ([[fint 5]], [fint 3]).
Proof. vm_compute. reflexivity. Qed.

(** No category at all: there is no mean. *)
Example C100_no_values : f_candidate [] = Raise ZeroDivisionError.
Proof. reflexivity. Qed.
