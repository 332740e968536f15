(** * C123: with doubles, the order in which the agents are listed does not matter

    The exact statement is C48. *)

From Coq Require Import String List Arith ZArith QArith Permutation.
From Coq Require Import SpecFloat.
From Verif Require Import Base Model_Float Model_FloatMcAfee Model_FloatTradeReduction Spec_Float Spec_FloatMcAfee Spec_FloatOrder Proof_FPerm.
Import ListNotations.
Open Scope Q_scope.

(** The agents of each category are listed in another order: the same result, bit by bit (remaining agents, prices or exception), for every recipe. *)
Theorem C123_ascending : forall cats cats' recipe, relisted cats cats' -> Forall (Forall ordinary) cats -> f_auction cats recipe = f_auction cats' recipe.
Proof. exact auction_relisted. Qed.
Print Assumptions C123_ascending.

Theorem C123_mcafee : forall it cats cats' heuristic, relisted cats cats' -> Forall (Forall ordinary) cats ->
  f_mcafee it cats heuristic = f_mcafee it cats' heuristic.
Proof. exact mcafee_relisted. Qed.
Print Assumptions C123_mcafee.

Theorem C123_reduction : forall it cats cats' including_gft_0, relisted cats cats' -> Forall (Forall ordinary) cats ->
  f_trade_reduction it cats including_gft_0 = f_trade_reduction it cats' including_gft_0.
Proof. exact reduction_relisted. Qed.
Print Assumptions C123_reduction.

(** ** The double -0.0 must be excluded: it is equal to 0.0 for the sort, so that the order of the list decides which of the two is the price. *)
Theorem C123_zero_signs_refuted : exists t p p' q q',
  relisted [[S754_zero false; S754_zero true]; [fint 0; fint 0]] [[S754_zero true; S754_zero false]; [fint 0; fint 0]]
  /\ f_mcafee 100 [[S754_zero false; S754_zero true]; [fint 0; fint 0]] false = Ok (t, [p; q])
  /\ (exists t', f_mcafee 100 [[S754_zero true; S754_zero false]; [fint 0; fint 0]] false = Ok (t', [p'; q'])) /\ p = S754_zero false /\ p' = S754_zero true.
Proof.
  do 5 eexists. split; [constructor; [apply perm_swap|constructor; [apply Permutation_refl|constructor]]|].
  split; [vm_compute; reflexivity|]. split; [eexists; vm_compute; reflexivity|]. split; reflexivity.
Qed.
Print Assumptions C123_zero_signs_refuted.

(** Non-vacuity: a market of tenths in two orders; the auction has a deal. *)
Example C123_case : exists ct pt, relisted [[lit 52 10; lit 4 1]; [lit (-8) 10; lit (-18) 10]] [[lit 4 1; lit 52 10]; [lit (-18) 10; lit (-8) 10]]
  /\ Forall (Forall ordinary) [[lit 52 10; lit 4 1]; [lit (-8) 10; lit (-18) 10]]
  /\ f_auction [[lit 4 1; lit 52 10]; [lit (-18) 10; lit (-8) 10]] [1; 1]%nat = Ok (ct, pt) /\ nth_error ct 1 = Some [lit (-8) 10; lit (-18) 10].
Proof.
  do 2 eexists. split; [constructor; [apply perm_swap|constructor; [apply perm_swap|constructor]]|].
  split; [repeat constructor; vm_compute; discriminate|]. split; [vm_compute; reflexivity|]. vm_compute. reflexivity.
Qed.
