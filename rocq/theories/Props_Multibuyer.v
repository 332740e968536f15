(** * C75: the old multi-buyer auction (old/ascending_auction_multibuyer_protocol.py) *)

From Coq Require Import String List Arith Lia QArith Lqa Bool.
From Verif Require Import Base Model_Agents Model_Trade Model_Market Model_Prices Model_RecipeTree Model_Ascending Model_Multibuyer
  Spec_Multibuyer Proof_Mb1 Proof_Mb2 Proof_Mb3 Proof_Mb4.
Import ListNotations.
Open Scope nat_scope.

(** ** C75 *)

(** Every trade that the auction returns is without deals (its gain is 0 and it prints "No trade"). *)
Theorem C75_no_deals : forall M fuel m rs t, multibuyer_auction M fuel m rs = Ok t ->
  mb_deals t = 0 /\ mb_gain_from_trade t = Some 0%Q /\ mb_repr t = Some true.
Proof.
  intros M fuel m rs t H. assert (E := multibuyer_no_deals M fuel m rs t H). unfold mb_gain_from_trade, mb_repr. rewrite E. auto.
Qed.
Print Assumptions C75_no_deals.

(** The conversion of the recipes into the numbers of units per buyer: it returns or raises ValueError; it accepts recipes of the
    documented kind with distinct buyers; and an accepted list gives to each buyer the number of sellers of his recipe. *)
Theorem C75_counts : forall n rs, 0 < n ->
  ((exists counts, convert_recipes_to_seller_counts rs n = Ok counts) \/ convert_recipes_to_seller_counts rs n = Raise ValueError)
  /\ (Forall (multibuyer_recipe n) rs -> distinct_buyers n rs -> exists counts, convert_recipes_to_seller_counts rs n = Ok counts)
  /\ forall counts, convert_recipes_to_seller_counts rs n = Ok counts ->
       length counts = n - 1 /\ Forall (multibuyer_recipe n) rs
       /\ forall i c, i < n - 1 -> 0 < c -> nth i counts 0 = c <-> exists r, In r rs /\ nth i r 0 = 1 /\ nth (n - 1) r 0 = c.
Proof. exact convert_spec. Qed.
Print Assumptions C75_counts.

(** What a call does, in all cases.  If nothing is demanded, it returns the market as it was.  If there is one buyer category, it
    removes all the buyers.  With more buyer categories it never returns: it raises IndexError if a buyer category is empty, or
    if all counts are positive; and ZeroDivisionError if there are buyers in all categories and some count is 0. *)
Theorem C75_outcome : forall M fuel m rs counts, (0 < M)%Q -> 0 < length m ->
  convert_recipes_to_seller_counts rs (length m) = Ok counts -> total_agents m < fuel ->
  (demand m counts = 0 -> exists t, multibuyer_auction M fuel m rs = Ok t /\ mb_cats t = clone_market m /\ mb_deals t = 0 /\ trade_prices counts t)
  /\ (0 < demand m counts -> length m = 2 ->
      exists t, multibuyer_auction M fuel m rs = Ok t /\ mb_deals t = 0 /\ trade_prices counts t
        /\ length (mb_cats t) = 2 /\ exists c, nth_error (mb_cats t) 0 = Some c /\ cvalues c = [])
  /\ (0 < demand m counts -> 2 < length m -> (exists c, In c (removelast m) /\ csize c = 0) -> multibuyer_auction M fuel m rs = Raise IndexError)
  /\ (0 < demand m counts -> 2 < length m -> Forall (fun k => 0 < k) counts -> multibuyer_auction M fuel m rs = Raise IndexError)
  /\ (0 < demand m counts -> 2 < length m -> (forall c, In c (removelast m) -> 0 < csize c) -> Exists (fun k => k = 0) counts ->
      multibuyer_auction M fuel m rs = Raise ZeroDivisionError).
Proof. exact multibuyer_outcome. Qed.
Print Assumptions C75_outcome.

(** The prices of a returned trade: the buyers' price per unit is at most the largest value per unit (value divided by the count
    of the category), the sellers' price is at most the largest seller value. *)
Theorem C75_price_bound : forall M fuel m rs counts t B C, convert_recipes_to_seller_counts rs (length m) = Ok counts ->
  multibuyer_auction M fuel m rs = Ok t ->
  (- M <= B -> - M <= C ->
  (forall i c k v, nth_error m i = Some c -> nth_error counts i = Some k -> In v (cvalues c) -> v <= B * Qn k) ->
  (forall c v, nth_error m (length m - 1) = Some c -> In v (cvalues c) -> v <= C) ->
  exists b s, mb_prices t = (map (fun k => b * Qn k) counts ++ [s])%list /\ b <= B /\ s <= C)%Q.
Proof. exact multibuyer_prices. Qed.
Print Assumptions C75_price_bound.

(** ** Concrete cases *)

Open Scope Q_scope.

(** The third doctest (lines 112-116), which expects one deal at price 4: there is none. *)
Definition doctest3 : market := [mkCat "buyer" [9]; mkCat "seller" [-4; -3]].

Theorem C75_doctest_refuted : exists t, multibuyer_auction MAX_VALUE 4 doctest3 [[1; 1]]%nat = Ok t
  /\ mb_repr t = Some true /\ map cvalues (mb_cats t) = [[]; [-3]] /\ map Qred (mb_prices t) = [4; -4].
Proof. eexists. split; [vm_compute; reflexivity|]. repeat split. Qed.
Print Assumptions C75_doctest_refuted.

(** The last doctest (lines 130-134): two units are expected to be sold. *)
Theorem C75_doctest_1_2_refuted : exists t,
  multibuyer_auction MAX_VALUE 11 [mkCat "buyer" [9; 8; 7; 6]; mkCat "seller" [-6; -5; -4; -3; -2; -1]] [[1; 2]]%nat = Ok t
  /\ mb_deals t = 0%nat /\ mb_repr t = Some true.
Proof. eexists. split; [vm_compute; reflexivity|]. split; reflexivity. Qed.
Print Assumptions C75_doctest_1_2_refuted.

(** The second part of the demo (old/ascending_auction_multibuyer_demo.py:34-43) raises IndexError, for all fuel. *)
Definition demo2 : market :=
  [mkCat "onebuyer" [12; 13; 15; 17; 19]; mkCat "twobuyer" [16; 18; 25; 27; 31]; mkCat "seller" [-1; -2; -3; -4; -5; -7; -8; -10; -11]].

Example C75_demo2 : forall fuel, (19 < fuel)%nat -> multibuyer_auction MAX_VALUE fuel demo2 [[1; 0; 1]; [0; 1; 2]]%nat = Raise IndexError.
Proof.
  intros fuel HF. apply (C75_outcome MAX_VALUE fuel demo2 [[1; 0; 1]; [0; 1; 2]]%nat [1; 2]%nat);
    try reflexivity; try (vm_compute; lia); try exact HF. repeat constructor.
Qed.

(** A recipe without sellers: ZeroDivisionError. *)
Example C75_zero_sellers : forall fuel, (19 < fuel)%nat -> multibuyer_auction MAX_VALUE fuel demo2 [[1; 0; 1]]%nat = Raise ZeroDivisionError.
Proof.
  intros fuel HF. apply (C75_outcome MAX_VALUE fuel demo2 [[1; 0; 1]]%nat [1; 0]%nat);
    try reflexivity; try (vm_compute; lia); try exact HF.
  - intros c Hc. simpl in Hc. destruct Hc as [<-|[<-|[]]]; vm_compute; lia.
  - right. left. reflexivity.
Qed.

(** The conversion. *)
Example C75_counts_ex : convert_recipes_to_seller_counts [[1; 0; 0; 3]; [0; 1; 0; 4]; [0; 0; 1; 5]]%nat 4 = Ok [3; 4; 5]%nat
  /\ Forall (multibuyer_recipe 4) [[1; 0; 0; 3]; [0; 1; 0; 4]; [0; 0; 1; 5]]%nat
  /\ convert_recipes_to_seller_counts [[1; 1; 2]]%nat 3 = Raise ValueError
  /\ convert_recipes_to_seller_counts [[2; 0; 2]]%nat 3 = Raise ValueError
  /\ convert_recipes_to_seller_counts [[1; 0; 2]; [1; 0; 3]]%nat 3 = Raise ValueError.
Proof.
  split; [reflexivity|]. split; [|repeat split].
  apply (proj2 (proj2 (C75_counts 4 [[1; 0; 0; 3]; [0; 1; 0; 4]; [0; 0; 1; 5]]%nat ltac:(lia))) [3; 4; 5]%nat). reflexivity.
Qed.

(** The buyers' values are at most 9 for two units, the sellers' at most -1: the price is at most 4.5 per unit. *)
Example C75_price_bound_case : exists t,
  multibuyer_auction MAX_VALUE 11 [mkCat "buyer" [9; 8; 7; 6]; mkCat "seller" [-6; -5; -4; -3; -2; -1]] [[1; 2]]%nat = Ok t
  /\ convert_recipes_to_seller_counts [[1; 2]]%nat 2 = Ok [2]%nat /\ map Qred (mb_prices t) = [8; -4].
Proof. eexists. split; [vm_compute; reflexivity|]. split; reflexivity. Qed.
