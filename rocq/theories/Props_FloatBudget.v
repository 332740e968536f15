(** * C104: how far rounding can break the budget and individual rationality of the ascending auction *)

From Coq Require Import String List Arith ZArith QArith Qpower Qabs Lia Lqa.
From Coq Require Import SpecFloat.
From Verif Require Import Base Model_Float Spec_Float Spec_FloatMcAfee Spec_FloatBudget Proof_FB3 Props_Float.
Import ListNotations.
Open Scope Q_scope.

(** C53 shows that with doubles the traders of one deal need not pay 0 in total.  They do, but for the rounding: if no value
    exceeds [B] in absolute value (and [B] is at least the 10^8 at which the prices start), and [2 * traders * B <= 2^k], then
    what the traders of a deal pay together differs from 0 by at most [(2n + 5) * 2^(k-54)], where [n] is the number of categories.
    The other bounds are those of the doubles themselves. *)
Theorem C104_nearly_balanced : forall cats recipe cats' prices B k,
  Forall (Forall finite_double) cats -> Forall (Forall (fun v => Qabs (dval v) <= B)) cats -> 100000000 <= B ->
  2 * inject_Z (traders recipe) * B <= Qpower 2 k -> (k <= 1000)%Z -> (traders recipe <= 2 ^ 53)%Z ->
  (2 * Z.of_nat (length recipe) + 2 <= 2 ^ 53)%Z ->
  f_auction cats recipe = Ok (cats', prices) -> Forall (fun n => (0 < n)%nat) (f_deals cats' recipe) ->
  Forall finite_double prices /\ Qabs (paid prices recipe) <= inject_Z (2 * Z.of_nat (length recipe) + 5) * Qpower 2 (k - 54).
Proof. exact near_balance. Qed.
Print Assumptions C104_nearly_balanced.

(** For every recipe, no remaining agent pays more than its value plus [3 * 2^-53 * B] (for recipes of zeros and ones the excess is
    zero: C64). *)
Theorem C104_nearly_rational : forall cats recipe cats' prices B k,
  Forall (Forall finite_double) cats -> Forall (Forall (fun v => -100000000 <= dval v /\ dval v <= B)) cats -> 100000000 <= B ->
  2 * inject_Z (traders recipe) * B <= Qpower 2 k -> (k <= 1000)%Z -> (traders recipe <= 2 ^ 53)%Z ->
  (2 * Z.of_nat (length recipe) + 2 <= 2 ^ 53)%Z ->
  f_auction cats recipe = Ok (cats', prices) ->
  forall i c p v, nth_error cats' i = Some c -> nth_error prices i = Some p -> In v c ->
    dval p <= dval v + (3 # 9007199254740992) * B.
Proof. exact near_rationality. Qed.
Print Assumptions C104_nearly_rational.

(** In figures: values up to 10^8 (MAX_VALUE), at most five categories and five traders in a deal.  The auctioneer gains or loses less than
    a millionth per deal, and no trader pays a millionth more than its value. *)
Theorem C104_one_millionth : forall cats recipe cats' prices,
  Forall (Forall finite_double) cats -> Forall (Forall (fun v => Qabs (dval v) <= 100000000)) cats ->
  (length recipe <= 5)%nat -> (traders recipe <= 5)%Z ->
  f_auction cats recipe = Ok (cats', prices) -> Forall (fun n => (0 < n)%nat) (f_deals cats' recipe) ->
  Qabs (paid prices recipe) < 1 # 1000000 /\
  forall i c p v, nth_error cats' i = Some c -> nth_error prices i = Some p -> In v c -> dval p < dval v + (1 # 1000000).
Proof.
  intros cats recipe cats' prices F H LR TR A D.
  assert (T0 : (0 <= traders recipe)%Z) by (unfold traders; lia).
  assert (K : 2 * inject_Z (traders recipe) * 100000000 <= Qpower 2 30).
  { change (Qpower 2 30) with (inject_Z 1073741824). change 2 with (inject_Z 2). change 100000000 with (inject_Z 100000000). rewrite <- !inject_Z_mult, <- Zle_Qle. lia. }
  assert (P53 : (2 ^ 53 = 9007199254740992)%Z) by reflexivity.
  split.
  - destruct (near_balance cats recipe cats' prices 100000000 30 F H (Qle_refl _) K ltac:(lia) ltac:(lia) ltac:(lia) A D) as [_ N].
    eapply Qle_lt_trans; [exact N|]. apply Qle_lt_trans with (inject_Z 15 * Qpower 2 (30 - 54)); [|reflexivity].
    apply Qmult_le_compat_r; [|discriminate]. rewrite <- Zle_Qle. lia.
  - intros i c p v Hc Hp Hv.
    assert (H' : Forall (Forall (fun v => -100000000 <= dval v /\ dval v <= 100000000)) cats).
    { revert H. apply Forall_impl. intros l. apply Forall_impl. intros x X. apply Qabs_Qle_condition in X. exact X. }
    assert (N := near_rationality cats recipe cats' prices 100000000 30 F H' (Qle_refl _) K ltac:(lia) ltac:(lia) ltac:(lia) A i c p v Hc Hp Hv).
    eapply Qle_lt_trans; [exact N|]. rewrite Qplus_lt_r. reflexivity.
Qed.
Print Assumptions C104_one_millionth.

(** Non-vacuity: the two markets of C53.  In the first the deal is off by 2.98 * 10^-9 ... *)
Example C104_case_budget : exists cats' prices,
  f_auction [[lit 2 10; lit 4 10]; [lit (-6) 100; lit (-5) 100]] [1; 1]%nat = Ok (cats', prices)
  /\ Forall (Forall finite_double) [[lit 2 10; lit 4 10]; [lit (-6) 100; lit (-5) 100]]
  /\ Forall (Forall (fun v => Qabs (dval v) <= 100000000)) [[lit 2 10; lit 4 10]; [lit (-6) 100; lit (-5) 100]]
  /\ Forall (fun n => (0 < n)%nat) (f_deals cats' [1; 1]%nat)
  /\ paid prices [1; 1]%nat < - (29 # 10000000000) /\ - (30 # 10000000000) < paid prices [1; 1]%nat.
Proof.
  do 2 eexists. split; [vm_compute; reflexivity|]. split; [vm_compute; repeat constructor|].
  split; [repeat constructor; vm_compute; discriminate|]. split; [vm_compute; repeat constructor|]. split; vm_compute; reflexivity.
Qed.

(** ... and in the second the seller whose cost is 1.4 gets 2 * 10^-16 less. *)
Example C104_case_rational : exists cats' prices p v,
  f_auction [[lit 42 10; lit 42 10; lit 42 10; lit 21 10]; [lit (-1) 10; lit (-1) 10; lit (-1) 10; lit (-1) 10; lit (-14) 10; lit (-42) 10]] [2; 3]%nat
    = Ok (cats', prices) /\ nth_error prices 1 = Some p /\ In v (nth 1 cats' []) /\ dval v < dval p /\ (traders [2; 3]%nat = 5)%Z.
Proof.
  do 2 eexists. exists (lit (-13999999999999997) 10000000000000000), (lit (-14) 10). split; [exact float_run_ir|].
  split; [reflexivity|]. split; [cbn; tauto|]. split; [vm_compute; reflexivity|reflexivity].
Qed.
