(** * C109: the order in which the categories of a market are listed *)

From Coq Require Import String List Arith Lia ZArith QArith Lqa Sorted Permutation.
From Verif Require Import Base Model_Agents Model_Prices Model_Trade Model_Market Model_Ascending Model_TradeReduction Model_McAfee
  Spec_Market Spec_Ascending Spec_TradeReduction Spec_Reorder Proof_Ascending4 Proof_Reorder Proof_Reorder2 Proof_Reorder3 Proof_Reorder4.
Import ListNotations.
Open Scope Q_scope.
Open Scope string_scope.
Open Scope list_scope.

(** [reorder no_category o m] lists the categories of [m] in the order [o] ([no_category] only fills the argument "default" of
    [nth]), [reorder 0 o recipe] the recipe in the same order. *)

(** The optimal trade: same number of deals, same gain, and the same agents remain. *)
Theorem C109_optimal_trade : forall cap o m recipe z deals rem deals' rem', is_order (length m) o ->
  optimal_trade cap m recipe z = Ok (deals, rem) ->
  optimal_trade cap (reorder no_category o m) (reorder 0%nat o recipe) z = Ok (deals', rem') ->
  length deals' = length deals /\ mt_gain_from_trade deals' == mt_gain_from_trade deals /\ rem' = reorder no_category o rem.
Proof. exact optimal_reorder. Qed.
Print Assumptions C109_optimal_trade.

(** McAfee's protocol, with and without the price heuristic: same number of deals, same traders, same prices. *)
Theorem C109_mcafee : forall M cap o m recipe h t t', is_order (length m) o ->
  mcafee_M M cap m recipe h = Ok t -> mcafee_M M cap (reorder no_category o m) (reorder 0%nat o recipe) h = Ok t' ->
  num_of_deals t' = num_of_deals t
  /\ Forall2 (fun T' T => cname T' = cname T /\ Forall2 Qeq (cvalues T') (cvalues T)) (tcats t') (reorder no_category o (tcats t))
  /\ exists P P', tprices t = Some P /\ tprices t' = Some P' /\ Forall2 Qeq P' (reorder 0 o P).
Proof. exact mcafee_reorder. Qed.
Print Assumptions C109_mcafee.

(** Trade reduction and the ascending auction, any recipe: the numbers of deals differ by at most one. *)
Theorem C109_trade_reduction_deals : forall M cap o m recipe t t', is_order (length m) o -> cap_suffices cap m recipe ->
  values_at_least (- M) m ->
  trade_reduction_M M cap m recipe true = Ok t ->
  trade_reduction_M M cap (reorder no_category o m) (reorder 0%nat o recipe) true = Ok t' ->
  (num_of_deals t' <= num_of_deals t + 1 /\ num_of_deals t <= num_of_deals t' + 1)%nat.
Proof. exact tr_deals_reorder. Qed.
Print Assumptions C109_trade_reduction_deals.

Theorem C109_ascending_deals : forall M rounds rounds' cap o m recipe t t', 0 < M -> is_order (length m) o ->
  cap_suffices cap m recipe -> values_at_least (- M) m ->
  ascending_auction_M M rounds m recipe = Ok t ->
  ascending_auction_M M rounds' (reorder no_category o m) (reorder 0%nat o recipe) = Ok t' ->
  (num_of_deals t' <= num_of_deals t + 1 /\ num_of_deals t <= num_of_deals t' + 1)%nat.
Proof. exact ascending_deals_reorder. Qed.
Print Assumptions C109_ascending_deals.

(** Recipes of ones: what changes when two neighbouring categories [X] and [Y] change places ([q] categories stand
    before them), for the trade-reduction auction.  Nothing changes for the other categories.  Whoever is listed later
    is better off: the category that moves back pays no more (or receives no less) and none of its remaining agents is
    expelled; the category that moves forward pays no less, and gets no new remaining agents.  The two prices together
    stay the same, and so does the number of deals unless the first two categories change places. *)
Theorem C109_neighbours_trade_reduction : forall M cap pre X Y post recipe z t t' deals rem, 0 < M ->
  let m := pre ++ X :: Y :: post in let m' := pre ++ Y :: X :: post in let q := length pre in
  cap_suffices cap m recipe -> values_small M recipe m -> all_ones recipe ->
  optimal_trade cap m recipe z = Ok (deals, rem) -> deals <> [] ->
  trade_reduction_M M cap m recipe z = Ok t -> trade_reduction_M M cap m' recipe z = Ok t' ->
  exists P P', tprices t = Some P /\ tprices t' = Some P'
  /\ (forall c, c <> q -> c <> S q -> nth c P' 0 == nth c P 0
        /\ cname (nth c (tcats t') no_category) = cname (nth c (tcats t) no_category)
        /\ Forall2 Qeq (cvalues (nth c (tcats t') no_category)) (cvalues (nth c (tcats t) no_category)))
  /\ nth (S q) P' 0 <= nth q P 0 /\ nth (S q) P 0 <= nth q P' 0
  /\ nth q P' 0 + nth (S q) P' 0 == nth q P 0 + nth (S q) P 0
  /\ (let before := cvalues (nth q (tcats t) no_category) in let after := cvalues (nth (S q) (tcats t') no_category) in
      Forall2 Qeq before (firstn (length before) after))
  /\ (let before := cvalues (nth (S q) (tcats t) no_category) in let after := cvalues (nth q (tcats t') no_category) in
      Forall2 Qeq after (firstn (length after) before))
  /\ ((0 < q)%nat -> num_of_deals t' = num_of_deals t).
Proof. exact tr_swap. Qed.
Print Assumptions C109_neighbours_trade_reduction.

(** The same prices for the ascending auction, if both orders end with at least one deal. *)
Theorem C109_neighbours_ascending : forall M rounds rounds' pre X Y post recipe t t', 0 < M ->
  let m := pre ++ X :: Y :: post in let m' := pre ++ Y :: X :: post in let q := length pre in
  values_small M recipe m -> all_ones recipe ->
  ascending_auction_M M rounds m recipe = Ok t -> ascending_auction_M M rounds' m' recipe = Ok t' ->
  (0 < num_of_deals t)%nat -> (0 < num_of_deals t')%nat ->
  exists P P', tprices t = Some P /\ tprices t' = Some P'
  /\ (forall c, c <> q -> c <> S q -> nth c P' 0 == nth c P 0)
  /\ nth (S q) P' 0 <= nth q P 0 /\ nth (S q) P 0 <= nth q P' 0
  /\ nth q P' 0 + nth (S q) P' 0 == nth q P 0 + nth (S q) P 0
  /\ ((0 < q)%nat -> num_of_deals t' = num_of_deals t).
Proof. exact ascending_swap. Qed.
Print Assumptions C109_neighbours_ascending.

(** ** The data of trade_reduction_demo_111.py: the prices do depend on the order, so the two auctions are not
    invariant as McAfee's protocol is. *)
Definition b111 : category := mkCat "buyer" [17; 14; 13; 9; 6].
Definition s111 : category := mkCat "seller" [-(1); -(4); -(5); -(8); -(11)].
Definition d111 : category := mkCat "mediator" [-(1); -(3); -(4); -(7); -(10)].

Theorem C109_prices_refuted : exists t t' u u', is_order 3 [1; 0; 2]%nat
  /\ reorder no_category [1; 0; 2]%nat [b111; s111; d111] = [s111; b111; d111]
  /\ trade_reduction [b111; s111; d111] [1; 1; 1]%nat true = Ok t /\ tprices t = Some [13; -(6); -(7)]
  /\ trade_reduction [s111; b111; d111] [1; 1; 1]%nat true = Ok t' /\ tprices t' = Some [-(5); 12; -(7)]
  /\ ascending_auction [b111; s111; d111] [1; 1; 1]%nat = Ok u /\ tprices u = Some [13; -(6); -(7)]
  /\ ascending_auction [s111; b111; d111] [1; 1; 1]%nat = Ok u' /\ tprices u' = Some [-(5); 12; -(7)].
Proof.
  do 4 eexists. split; [unfold is_order; simpl; apply perm_swap|]. split; [reflexivity|].
  split; [vm_compute; reflexivity|]. split; [reflexivity|]. split; [vm_compute; reflexivity|]. split; [reflexivity|].
  split; [vm_compute; reflexivity|]. split; [vm_compute; reflexivity|]. split; [vm_compute; reflexivity|]. vm_compute; reflexivity.
Qed.
Print Assumptions C109_prices_refuted.

(** Also the number of deals depends on the order, in both auctions. *)
Theorem C109_deals_refuted : exists t t' u u',
  let b := mkCat "buyer" [11; 8; 7] in let s := mkCat "seller" [-(3); -(6); -(9)] in
  trade_reduction [b; s] [1; 1]%nat true = Ok t /\ num_of_deals t = 1%nat
  /\ trade_reduction [s; b] [1; 1]%nat true = Ok t' /\ num_of_deals t' = 2%nat
  /\ ascending_auction [b; s] [1; 1]%nat = Ok u /\ num_of_deals u = 1%nat
  /\ ascending_auction [s; b] [1; 1]%nat = Ok u' /\ num_of_deals u' = 2%nat.
Proof.
  do 4 eexists. cbv zeta.
  split; [vm_compute; reflexivity|]. split; [reflexivity|]. split; [vm_compute; reflexivity|]. split; [reflexivity|].
  split; [vm_compute; reflexivity|]. split; [reflexivity|]. split; [vm_compute; reflexivity|]. reflexivity.
Qed.
Print Assumptions C109_deals_refuted.

(** The hypotheses of the theorems about neighbours hold of these data, and McAfee's protocol runs on them in both orders. *)
Example C109_witness : exists deals rem w w',
  values_small MAX_VALUE [1; 1; 1]%nat [b111; s111; d111] /\ cap_suffices 5 [b111; s111; d111] [1; 1; 1]%nat
  /\ optimal_trade default_max_iterations [b111; s111; d111] [1; 1; 1]%nat true = Ok (deals, rem) /\ length deals = 3%nat
  /\ mcafee [b111; s111; d111] [1; 1; 1]%nat false = Ok w /\ mcafee [s111; b111; d111] [1; 1; 1]%nat false = Ok w'
  /\ num_of_deals w = 2%nat /\ tprices w = Some [13; -(5); -(4)] /\ tprices w' = Some [-(5); 13; -(4)].
Proof.
  do 4 eexists. split.
  { apply small_uniform; [discriminate|exists 0%nat, 1%nat; split; [reflexivity|lia]|reflexivity|].
    exists 20. split; [lra|]. split; [reflexivity|]. intros c v [<-|[<-|[<-|[]]]] Hv; cbn [b111 s111 d111 cvalues] in Hv;
      cbn [In] in Hv; decompose [or] Hv; subst; (split; lra) || contradiction. }
  split; [exists 0%nat, b111, 1%nat; split; [reflexivity|]; split; [reflexivity|]; unfold csize; simpl; lia|].
  split; [vm_compute; reflexivity|]. split; [reflexivity|]. split; [vm_compute; reflexivity|]. split; [vm_compute; reflexivity|].
  split; [reflexivity|]. split; reflexivity.
Qed.
