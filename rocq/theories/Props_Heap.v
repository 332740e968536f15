(** * C52: the protocols do not modify the caller's market *)

From Coq Require Import String List Arith QArith.
From Verif Require Import Base Model_Agents Model_Trade Model_Market Model_Ascending Model_TradeReduction Model_McAfee
  Model_RecipeTree Model_TreeAuction Model_IntAuction Model_Heap Spec_Heap Proof_Heap2 Proof_Heap3.
Import ListNotations.
Open Scope Q_scope.

(** In the heap models the categories are shared mutable objects.  For every heap and every list of references to its objects
    (also when one object occurs twice), each protocol leaves every object that existed before the call as it was, whether it
    returns or raises.  Its outcome is that of the functional model on the objects referred to, and the trade it returns holds
    new objects, no two of them the same. *)

Theorem C52_optimal_trade : forall iterations m recipe include_zero h, valid h m ->
  behaves h (h_optimal_trade iterations m recipe include_zero) (optimal_trade iterations (deref h m) recipe include_zero).
Proof. exact optimal_behaves. Qed.
Print Assumptions C52_optimal_trade.

Theorem C52_ascending_auction : forall M fuel iterations m recipe h, valid h m ->
  behaves h (h_ascending_auction M fuel iterations m recipe) (with_cats tcats (ascending_auction_M M fuel (deref h m) recipe)).
Proof. exact ascending_behaves. Qed.
Print Assumptions C52_ascending_auction.

Theorem C52_trade_reduction : forall M iterations m recipe including_gft_0 h, valid h m ->
  behaves h (h_trade_reduction M iterations m recipe including_gft_0)
    (with_cats tcats (trade_reduction_M M iterations (deref h m) recipe including_gft_0)).
Proof. exact trade_reduction_behaves. Qed.
Print Assumptions C52_trade_reduction.

Theorem C52_mcafee : forall M iterations m recipe heuristic h, valid h m ->
  behaves h (h_mcafee M iterations m recipe heuristic) (with_cats tcats (mcafee_M M iterations (deref h m) recipe heuristic)).
Proof. exact mcafee_behaves. Qed.
Print Assumptions C52_mcafee.

Theorem C52_tree_auction : forall M p0 fuel m struct h, valid h m ->
  behaves h (h_tree_auction M p0 fuel m struct) (with_cats tt_cats (tree_auction M p0 fuel (deref h m) struct)).
Proof. exact tree_behaves. Qed.
Print Assumptions C52_tree_auction.

Theorem C52_integer_auction : forall M fuel m struct counts h, valid h m ->
  behaves h (h_int_auction M fuel m struct counts) (with_cats tt_cats (int_auction M fuel (deref h m) struct counts)).
Proof. exact int_behaves. Qed.
Print Assumptions C52_integer_auction.

(** One buyer category and one seller category, given out of order and one of them twice: the auction runs, ends with one
    deal, and the two objects are as before. *)
Example C52_witness :
  let h := [mkCat "seller"%string [-1; -4]; mkCat "buyer"%string [9; 8]] in
  let m := [1; 0; 0]%nat in
  let out := h_ascending_auction 1000 100 100 m [1; 1; 1]%nat h in
  valid h m
  /\ firstn 2 (fst out) = h
  /\ match snd out with
     | Ok (t, refs) => tdeals t = 1%nat /\ refs = [5; 6; 7]%nat /\ deref (fst out) refs = tcats t
     | _ => False
     end.
Proof. split; [repeat constructor|]. vm_compute. repeat split. Qed.

Example C52_witness_trade_reduction :
  let h := [mkCat "seller"%string [-1; -4]; mkCat "buyer"%string [9; 8]] in
  let out := h_trade_reduction 1000 100 [1; 0]%nat [1; 1]%nat false h in
  firstn 2 (fst out) = h
  /\ match snd out with
     | Ok (t, refs) => tdeals t = 1%nat /\ refs = [4; 5]%nat /\ map cvalues (deref (fst out) refs) = [[9]; [-1; -4]]
     | _ => False
     end.
Proof. vm_compute. repeat split. Qed.

(** A call that raises: the recipe [1; 2] is not allowed by McAfee. *)
Example C52_witness_raise :
  let h := [mkCat "buyer"%string [9; 8]] in
  let out := h_mcafee 1000 100 [0; 0]%nat [1; 2]%nat false h in
  fst out = h /\ snd out = Raise ValueError.
Proof. vm_compute. repeat split. Qed.

(** A call that raises after it created objects: with the recipe [0; 0] no category is relevant, and the [max] of line 117 fails. *)
Example C52_witness_raise_late :
  let h := [mkCat "buyer"%string [9; 8]] in
  let out := h_ascending_auction 1000 100 5 [0; 0]%nat [0; 0]%nat h in
  firstn 1 (fst out) = h /\ length (fst out) = 5%nat /\ snd out = Raise ValueError.
Proof. vm_compute. repeat split. Qed.

(** The objects do change in this model: what is preserved is not preserved for free.  Running the loop of the ascending auction on
    the caller's own market (without the clone of ascending_auction_protocol.py:108) removes an agent from it. *)
Example C52_without_clone :
  let h := [mkCat "seller"%string [-1; -4]; mkCat "buyer"%string [9; 8]] in
  fst (h_ascending_loop 100 [1; 1]%nat [1; 0]%nat (Model_Prices.new_price_vector [1; 1]%nat (-1000)) h)
  = [mkCat "seller"%string [-1; -4]; mkCat "buyer"%string [9]].
Proof. vm_compute. reflexivity. Qed.
