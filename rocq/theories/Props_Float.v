(** * C53: floating point *)

From Coq Require Import String List Arith ZArith.
From Coq Require Import SpecFloat.
From Verif Require Import Base Model_Float.
Import ListNotations.

(** The properties that hold exactly in the other models, for doubles: the traders of one deal pay 0 in total ... *)
Definition float_budget_balanced : Prop := forall cats recipe cats' prices,
  f_auction cats recipe = Ok (cats', prices) -> Forall (fun n => 0 < n) (f_deals cats' recipe) ->
  fle (fint 0) (f_dot prices recipe) = true /\ fle (f_dot prices recipe) (fint 0) = true.

(** ... and no trader pays more than its value. *)
Definition float_individually_rational : Prop := forall cats recipe cats' prices i c p v,
  f_auction cats recipe = Ok (cats', prices) -> Forall (fun n => 0 < n) (f_deals cats' recipe) ->
  nth_error cats' i = Some c -> nth_error prices i = Some p -> In v c -> fle p v = true.

(** Two buyers (0.4 and 0.2) and two sellers (0.05 and 0.06): one deal.  The buyer pays 0.2 and the seller gets
    0.20000000298023224: the auctioneer has a deficit. *)
Example float_run :
  f_auction [[lit 2 10; lit 4 10]; [lit (-6) 100; lit (-5) 100]] [1; 1]
  = Ok ([[lit 4 10]; [lit (-5) 100; lit (-6) 100]], [lit 2 10; lit (-20000000298023224) 100000000000000000]).
Proof. vm_compute. reflexivity. Qed.

Theorem C53_budget_balance_refuted : ~ float_budget_balanced.
Proof.
  intros H. destruct (H _ _ _ _ float_run) as [A B]; [vm_compute; repeat constructor|]. vm_compute in A. discriminate.
Qed.
Print Assumptions C53_budget_balance_refuted.

(** The recipe has two buyers and three sellers: a seller whose cost is 1.4 remains in the trade, and gets
    1.3999999999999997. *)
Example float_run_ir :
  f_auction [[lit 42 10; lit 42 10; lit 42 10; lit 21 10]; [lit (-1) 10; lit (-1) 10; lit (-1) 10; lit (-1) 10; lit (-14) 10; lit (-42) 10]] [2; 3]
  = Ok ([[lit 42 10; lit 42 10; lit 42 10]; [lit (-1) 10; lit (-1) 10; lit (-1) 10; lit (-1) 10; lit (-14) 10]],
        [lit 21 10; lit (-13999999999999997) 10000000000000000]).
Proof. vm_compute. reflexivity. Qed.

Theorem C53_individual_rationality_refuted : ~ float_individually_rational.
Proof.
  intros H.
  assert (Y : fle (lit (-13999999999999997) 10000000000000000) (lit (-14) 10) = true).
  { eapply (H _ _ _ _ 1 _ _ _ float_run_ir); [vm_compute; repeat constructor|reflexivity|reflexivity|simpl; tauto]. }
  vm_compute in Y. discriminate.
Qed.
Print Assumptions C53_individual_rationality_refuted.
