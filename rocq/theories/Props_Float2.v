(** * C64, C65: what does hold of the ascending auction in floating point *)

From Coq Require Import String List Arith ZArith QArith Permutation Lia.
From Coq Require Import SpecFloat.
From Verif Require Import Base Model_Agents Model_Trade Model_Ascending Model_Float Spec_Float Proof_Float2 Proof_Float3.
Import ListNotations.

(** ** C64: for all doubles *)

(** The auction always ends with a trade. *)
Theorem C64_terminates : forall cats recipe,
  length recipe = length cats -> Exists (fun r => (0 < r)%nat) recipe ->
  exists cats' prices, f_auction cats recipe = Ok (cats', prices).
Proof. intros cats recipe L E. destruct (auction_ends cats recipe L E) as ([c p] & H). eauto. Qed.
Print Assumptions C64_terminates.

(** In a recipe of zeros and ones no remaining agent pays more than its value: exactly, in the order of doubles. *)
Theorem C64_individually_rational : forall cats recipe cats' prices,
  Forall (Forall finite_double) cats -> Forall (Forall (fun v => fle (fint (-100000000)) v = true)) cats ->
  Forall (fun r => (r <= 1)%nat) recipe -> f_auction cats recipe = Ok (cats', prices) ->
  forall i c p v, nth_error cats' i = Some c -> nth_error prices i = Some p -> In v c -> fle p v = true.
Proof. exact float_rational. Qed.
Print Assumptions C64_individually_rational.

(** The agents who remain are agents of the market, and the best ones of their category. *)
Theorem C64_best_remain : forall cats recipe cats' prices,
  Forall (Forall finite_double) cats -> f_auction cats recipe = Ok (cats', prices) ->
  Forall2 (fun c c' => exists out, Permutation c (c' ++ out) /\ fdesc c'
                                   /\ forall v w, In v c' -> In w out -> fle w v = true) cats cats'.
Proof. exact float_best_agents. Qed.
Print Assumptions C64_best_remain.

(** Non-vacuity: the markets of C53, where the budget is not balanced. *)
Example C64_case : exists cats' prices,
  f_auction [[lit 2 10; lit 4 10]; [lit (-6) 100; lit (-5) 100]] [1; 1]%nat = Ok (cats', prices)
  /\ Forall (Forall finite_double) [[lit 2 10; lit 4 10]; [lit (-6) 100; lit (-5) 100]]
  /\ Forall (Forall (fun v => fle (fint (-100000000)) v = true)) [[lit 2 10; lit 4 10]; [lit (-6) 100; lit (-5) 100]]
  /\ f_deals cats' [1; 1]%nat = [1; 2]%nat.
Proof. do 2 eexists. split; [vm_compute; reflexivity|]. split; [|split]; vm_compute; repeat constructor. Qed.

(** ** C65: for integers in doubles *)

(** With a recipe of zeros and ones and integer values, no operation rounds, and the auction in floating point is the auction
    in exact arithmetic: the same agents remain and the prices are the same integers. *)
Theorem C65_integers_exact : forall zs recipe K m,
  map cvalues m = map (map inject_Z) zs -> length recipe = length zs ->
  Exists (fun r => (0 < r)%nat) recipe -> Forall (fun r => (r <= 1)%nat) recipe ->
  Forall (Forall (fun z => (Z.abs z <= K)%Z)) zs -> (100000000 <= K)%Z ->
  ((Z.of_nat (length recipe) + 2) * K <= 2 ^ 53)%Z -> (Z.of_nat (nsum (map (@length Z) zs)) <= 2 ^ 53)%Z ->
  exists zs' ps fps t prices,
    f_auction (map (map fint) zs) recipe = Ok (map (map fint) zs', fps) /\ Forall2 is_int ps fps
    /\ ascending_auction m recipe = Ok t
    /\ map cvalues (tcats t) = map (map inject_Z) zs' /\ tprices t = Some prices
    /\ Forall2 (fun z q => (q == inject_Z z)%Q) ps prices.
Proof. exact float_exact. Qed.
Print Assumptions C65_integers_exact.

(** In particular the budget is exactly balanced if there is a deal. *)
Theorem C65_integers_budget_balanced : forall zs recipe K fcs fps,
  length recipe = length zs -> Exists (fun r => (0 < r)%nat) recipe -> Forall (fun r => (r <= 1)%nat) recipe ->
  Forall (Forall (fun z => (Z.abs z <= K)%Z)) zs -> (100000000 <= K)%Z ->
  ((Z.of_nat (length recipe) + 2) * (Z.of_nat (length recipe) + 1) * K <= 2 ^ 53)%Z ->
  (Z.of_nat (nsum (map (@length Z) zs)) <= 2 ^ 53)%Z ->
  f_auction (map (map fint) zs) recipe = Ok (fcs, fps) -> Forall (fun n => (0 < n)%nat) (f_deals fcs recipe) ->
  is_int 0 (f_dot fps recipe).
Proof. exact float_balanced. Qed.
Print Assumptions C65_integers_budget_balanced.

(** Non-vacuity: three categories, K = 10^8. *)
Example C65_case :
  ((Z.of_nat 3 + 2) * (Z.of_nat 3 + 1) * 100000000 <= 2 ^ 53)%Z
  /\ f_auction (map (map fint) [[17; 14; 13]; [-1; -3; -4]; [-2; -5]]%Z) [1; 1; 1]%nat
     = Ok (map (map fint) [[17]; [-1]; [-2; -5]]%Z, map fint [14; -3; -11]%Z).
Proof. split; [vm_compute; discriminate|vm_compute; reflexivity]. Qed.
