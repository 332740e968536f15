(** * Properties C01, C02: agent categories *)

From Coq Require Import String List Arith QArith Permutation.
From Verif Require Import Base Model_Agents Spec_Agents Proof_Agents.
Import ListNotations.
Open Scope Q_scope.
Open Scope string_scope.

(** C01: any history of operations keeps the values in descending order, and the bag of values is
    the one the history prescribes. *)
Theorem C01_category_history : forall name init ops c,
  perform_all (new_category name init) ops = Ok c ->
  desc (cvalues c) /\ bag_history init ops (cvalues c).
Proof. exact history_from_init. Qed.
Print Assumptions C01_category_history.

Example C01_nonvacuous : exists c,
  perform_all (new_category "buyer" [1; 6; 3; 7; 4; 9])
    [OpRemoveHighest; OpRemoveHighestN 2; OpRemoveLowest; OpAppend (7#2); OpClone; OpAppendList [16#5; 19#5]]
  = Ok c /\ cvalues c = [4; 19#5; 7#2; 16#5; 3].
Proof. eexists. split; reflexivity. Qed.

(** C02: queries are extremes. *)
Theorem C02_extremes : forall c, reachable_category c ->
  (forall v, highest_agent_value c = Ok v ->
     In v (cvalues c) /\ forall x, In x (cvalues c) -> x <= v)
  /\ (forall v, lowest_agent_value c = Ok v ->
     In v (cvalues c) /\ forall x, In x (cvalues c) -> v <= x)
  /\ (forall k, exists rest,
        Permutation (cvalues c) (highest_agent_values c k ++ rest)
        /\ length (highest_agent_values c k) = Nat.min k (csize c)
        /\ forall x y, In x (highest_agent_values c k) -> In y rest -> y <= x).
Proof.
  intros c H. apply reachable_desc in H.
  split; [intros v Hv; apply (highest_is_max c v); assumption|].
  split; [intros v Hv; apply (lowest_is_min c v); assumption|].
  intros k. apply highest_k; assumption.
Qed.
Print Assumptions C02_extremes.

(** C02: exceptions: IndexError exactly on an empty category (queries), or when more agents are
    removed than there are; no other exception. *)
Theorem C02_errors : forall c,
  (forall e, (highest_agent_value c = Raise e <-> e = IndexError /\ cvalues c = [])
     /\ (lowest_agent_value c = Raise e <-> e = IndexError /\ cvalues c = []))
  /\ (forall o, (forall e, perform c o = Raise e <-> e = IndexError /\ (csize c < removed_count o)%nat)
        /\ perform c o <> Timeout).
Proof. intros c. split; [apply query_raises|apply perform_raises]. Qed.
Print Assumptions C02_errors.

Example C02_nonvacuous :
  reachable_category (mkCat "seller" [-(2); -(4); -(6)])
  /\ lowest_agent_value (mkCat "seller" [-(2); -(4); -(6)]) = Ok (-(6))
  /\ highest_agent_value (mkCat "x" []) = Raise IndexError.
Proof.
  split; [|split; reflexivity].
  exists "seller", [-(4); -(6); -(2)], []. reflexivity.
Qed.
