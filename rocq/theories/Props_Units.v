(** * C93: the unit of money does not matter; C49, continued: neither does MAX_VALUE, if the values are far enough below it

    If every value is expressed in another unit of money (multiplied by a positive number [c]), every function of the library
    does the same thing: the same agents trade in the same deals, the same exception is raised, and every price and gain is
    expressed in the new unit.  The constant MAX_VALUE of the code is an amount of money, too. *)

From Coq Require Import String List Arith QArith Lqa Lia.
From Verif Require Import Base Model_Agents Model_Trade Model_Prices Model_Market Model_Ascending Model_TradeReduction Model_McAfee
  Model_RecipeTree Model_TreeAuction Model_IntPrices Model_IntTree Model_IntAuction.
From Verif Require Import Spec_Market Spec_Trade Spec_Ascending Spec_Units Spec_MaxValue Proof_Ascending4 Proof_Units Proof_Units2 Proof_Units3 Proof_MaxValue Proof_Units4.
Import ListNotations.
Open Scope Q_scope.
Open Scope string_scope.

(** ** C49 *)

(** C49.  The trade reduction gives the same trade for any two values of MAX_VALUE that the market is well below. *)
Theorem C49_trade_reduction : forall M M' iterations m recipe z, well_below M recipe m -> well_below M' recipe m ->
  alike (same_trade recipe) (trade_reduction_M M iterations m recipe z) (trade_reduction_M M' iterations m recipe z).
Proof. exact trade_reduction_max_value. Qed.
Print Assumptions C49_trade_reduction.

(** C49.  So does McAfee's mechanism (the very same result). *)
Theorem C49_mcafee : forall M M' iterations m recipe heuristic, well_below M recipe m -> well_below M' recipe m ->
  mcafee_M M iterations m recipe heuristic = mcafee_M M' iterations m recipe heuristic.
Proof. exact mcafee_max_value_independent. Qed.
Print Assumptions C49_mcafee.

(** ** C93, for any MAX_VALUE, converted like the values *)

(** The optimal trade, its number of deals and its gain. *)
Theorem C93_optimal_trade : forall c iterations m m' recipe z, 0 < c -> conv_market c m m' ->
  alike (fun o o' => conv_optimal c o o' /\ mt_num_of_deals (fst o') = mt_num_of_deals (fst o)
                     /\ conv c (mt_gain_from_trade (fst o)) (mt_gain_from_trade (fst o')))
    (optimal_trade iterations m recipe z) (optimal_trade iterations m' recipe z).
Proof.
  intros c it m m' recipe z CP H. eapply alike_imp; [|apply (conv_optimal_trade c CP); exact H]. intros o o' HO. split; [exact HO|].
  apply (conv_material_gain c). apply HO.
Qed.
Print Assumptions C93_optimal_trade.

(** The gain from a trade, with and without the auctioneer's. *)
Theorem C93_gain : forall c t t' including_auctioneer, 0 < c -> conv_trade c t t' ->
  alike (conv c) (gain_from_trade t including_auctioneer) (gain_from_trade t' including_auctioneer).
Proof. intros c t t' inc CP. exact (conv_gain c t t' inc). Qed.
Print Assumptions C93_gain.

(** The three mechanisms for a single recipe. *)
Theorem C93_ascending_auction : forall c M M' rounds m m' recipe, 0 < c -> conv c M M' -> conv_market c m m' ->
  alike (conv_trade c) (ascending_auction_M M rounds m recipe) (ascending_auction_M M' rounds m' recipe).
Proof. intros c M M' rounds m m' recipe CP. exact (conv_ascending c CP M M' rounds m m' recipe). Qed.
Print Assumptions C93_ascending_auction.

Theorem C93_trade_reduction : forall c M M' iterations m m' recipe z, 0 < c -> conv c M M' -> conv_market c m m' ->
  alike (conv_trade c) (trade_reduction_M M iterations m recipe z) (trade_reduction_M M' iterations m' recipe z).
Proof. intros c M M' it m m' recipe z CP. exact (conv_trade_reduction c CP M M' it m m' recipe z). Qed.
Print Assumptions C93_trade_reduction.

Theorem C93_mcafee : forall c M M' iterations m m' recipe heuristic, 0 < c -> conv c M M' -> conv_market c m m' ->
  alike (conv_trade c) (mcafee_M M iterations m recipe heuristic) (mcafee_M M' iterations m' recipe heuristic).
Proof. intros c M M' it m m' recipe h CP. exact (conv_mcafee c CP M M' it m m' recipe h). Qed.
Print Assumptions C93_mcafee.

(** Recipe trees: the optimal trade, the auction (with initial prices that are converted, too), and the auction for recipes
    with several agents of a category. *)
Theorem C93_tree_optimal_trade : forall c m m' t, 0 < c -> conv_market c m m' ->
  conv c (optimal_trade_GFT m t) (optimal_trade_GFT m' t)
  /\ alike (fun o o' => Forall2 (conv_list c) (fst (fst o)) (fst (fst o')) /\ snd (fst o') = snd (fst o) /\ conv c (snd o) (snd o'))
       (tree_optimal_trade m t) (tree_optimal_trade m' t).
Proof. intros c m m' t CP H. split; [apply (conv_tree_gft c CP); exact H|apply (conv_tree_optimal c CP); exact H]. Qed.
Print Assumptions C93_tree_optimal_trade.

Theorem C93_tree_auction : forall c M M' p p' rounds m m' struct, 0 < c -> conv c M M' -> conv_list c p p' -> conv_market c m m' ->
  alike (conv_tree_trade c) (tree_auction M p rounds m struct) (tree_auction M' p' rounds m' struct).
Proof. intros c M M' p p' rounds m m' st CP. exact (conv_tree_auction c CP M M' p p' rounds m m' st). Qed.
Print Assumptions C93_tree_auction.

Theorem C93_integer_auction : forall c M M' rounds m m' struct counts, 0 < c -> conv c M M' -> conv_market c m m' ->
  alike (conv_tree_trade c) (int_auction M rounds m struct counts) (int_auction M' rounds m' struct counts).
Proof. intros c M M' rounds m m' st counts CP. exact (conv_int_auction c CP M M' rounds m m' st counts). Qed.
Print Assumptions C93_integer_auction.

(** ** C93, for the MAX_VALUE of the code, which is not converted: the values must be well below it in both units *)

Theorem C93_ascending_code : forall c m m' recipe t t', 0 < c -> conv_market c m m' ->
  values_small MAX_VALUE recipe m -> values_small MAX_VALUE recipe m' ->
  ascending_auction m recipe = Ok t -> ascending_auction m' recipe = Ok t' ->
  conv_market c (tcats t) (tcats t') /\ num_of_deals t' = num_of_deals t
  /\ ((0 < num_of_deals t)%nat -> forall i r P P' p p', nth_error recipe i = Some r -> (0 < r)%nat ->
        tprices t = Some P -> tprices t' = Some P' -> nth_error P i = Some p -> nth_error P' i = Some p' -> conv c p p').
Proof. intros c m m' recipe t t' CP. exact (conv_ascending_code c CP m m' recipe t t'). Qed.
Print Assumptions C93_ascending_code.

Theorem C93_trade_reduction_code : forall c m m' recipe z, 0 < c -> conv_market c m m' ->
  well_below MAX_VALUE recipe m -> well_below MAX_VALUE recipe m' ->
  alike (conv_used c recipe) (trade_reduction m recipe z) (trade_reduction m' recipe z).
Proof. intros c m m' recipe z CP. exact (conv_trade_reduction_code c CP m m' recipe z). Qed.
Print Assumptions C93_trade_reduction_code.

Theorem C93_mcafee_code : forall c m m' recipe heuristic, 0 < c -> conv_market c m m' ->
  well_below MAX_VALUE recipe m -> well_below MAX_VALUE recipe m' ->
  alike (conv_trade c) (mcafee m recipe heuristic) (mcafee m' recipe heuristic).
Proof. intros c m m' recipe h CP. exact (conv_mcafee_code c CP m m' recipe h). Qed.
Print Assumptions C93_mcafee_code.

(** ** Cases *)

Definition in_dollars : market := [mkCat "buyer" [20; 17; 5]; mkCat "seller" [-(1); -(3); -(6)]].
Definition in_cents : market := [mkCat "buyer" [2000; 1700; 500]; mkCat "seller" [-(100); -(300); -(600)]].

Lemma cents : conv_market 100 in_dollars in_cents.
Proof. constructor; [|constructor; [|constructor]]; (split; [reflexivity|]); constructor; [reflexivity|constructor; [reflexivity|constructor; [reflexivity|constructor]]| |]; [reflexivity|constructor; [reflexivity|constructor; [reflexivity|constructor]]]. Qed.

Lemma bounded_values : forall (B : Q) (m : market), forallb (fun c => forallb (fun v => Qle_bool (- B) v && Qle_bool v B) (cvalues c)) m = true ->
  forall c v, In c m -> In v (cvalues c) -> - B <= v /\ v <= B.
Proof.
  intros B m H c v Hc Hv. rewrite forallb_forall in H. specialize (H c Hc). rewrite forallb_forall in H. specialize (H v Hv).
  apply andb_prop in H. destruct H as [H1 H2]. split; apply Qle_bool_iff; assumption.
Qed.

Lemma cents_below : well_below MAX_VALUE [1; 1]%nat in_dollars /\ well_below MAX_VALUE [1; 1]%nat in_cents.
Proof.
  split; [exists 20|exists 2000]; (split; [discriminate|]); (split; [reflexivity|]); (split; [reflexivity|]); apply bounded_values; reflexivity.
Qed.

Example C93_witness : 0 < 100 /\ conv_market 100 in_dollars in_cents /\ values_small MAX_VALUE [1; 1]%nat in_dollars
  /\ values_small MAX_VALUE [1; 1]%nat in_cents /\ well_below MAX_VALUE [1; 1]%nat in_dollars /\ well_below MAX_VALUE [1; 1]%nat in_cents
  /\ well_below (1000000 # 1) [1; 1]%nat in_dollars
  /\ exists t t', ascending_auction in_dollars [1; 1]%nat = Ok t /\ ascending_auction in_cents [1; 1]%nat = Ok t'
     /\ num_of_deals t = 2%nat /\ num_of_deals t' = 2%nat /\ tprices t = Some [6; -(6)] /\ tprices t' = Some [600; -(600)].
Proof.
  destruct cents_below as [B B']. split; [reflexivity|]. split; [exact cents|].
  assert (S : forall m, length m = 2%nat -> forall b, 0 <= b -> b * 2 < MAX_VALUE -> (forall c v, In c m -> In v (cvalues c) -> - b <= v /\ v <= b) -> values_small MAX_VALUE [1; 1]%nat m).
  { intros m L b B0 B1 HB. apply small_uniform; [discriminate|exists 0%nat, 1%nat; split; [reflexivity|lia]|symmetry; exact L|]. exists b. split; [exact B0|]. split; [exact B1|exact HB]. }
  split; [apply (S in_dollars eq_refl 20); [discriminate|reflexivity|apply bounded_values; reflexivity]|].
  split; [apply (S in_cents eq_refl 2000); [discriminate|reflexivity|apply bounded_values; reflexivity]|].
  split; [exact B|]. split; [exact B'|].
  split; [exists 20; (split; [discriminate|]); (split; [reflexivity|]); (split; [reflexivity|]); apply bounded_values; reflexivity|].
  do 2 eexists. split; [vm_compute; reflexivity|]. split; [vm_compute; reflexivity|]. split; [reflexivity|]. split; [reflexivity|]. split; reflexivity.
Qed.

(** Without the bound on the values, the code is not independent of the unit: in a currency of which 30000000 are worth a
    dollar, the auction makes three deals instead of two, and the seller who values the good at 180000000 is paid 100000000. *)
Definition in_units : market :=
  [mkCat "buyer" [600000000; 510000000; 150000000]; mkCat "seller" [-(30000000); -(90000000); -(180000000)]].

Theorem C93_large_values_refuted : ~ (forall c m m' recipe t t', 0 < c -> conv_market c m m' ->
  ascending_auction m recipe = Ok t -> ascending_auction m' recipe = Ok t' -> num_of_deals t' = num_of_deals t).
Proof.
  intros H. assert (CM : conv_market 30000000 in_dollars in_units).
  { constructor; [|constructor; [|constructor]]; (split; [reflexivity|]); constructor; [reflexivity|constructor; [reflexivity|constructor; [reflexivity|constructor]]| |]; [reflexivity|constructor; [reflexivity|constructor; [reflexivity|constructor]]]. }
  destruct (ascending_auction in_dollars [1; 1]%nat) as [t| |] eqn:E; [|vm_compute in E; discriminate|vm_compute in E; discriminate].
  destruct (ascending_auction in_units [1; 1]%nat) as [t'| |] eqn:E'; [|vm_compute in E'; discriminate|vm_compute in E'; discriminate].
  assert (X := H 30000000 _ _ _ _ _ ltac:(reflexivity) CM E E'). vm_compute in E, E'. inversion E; subst t. inversion E'; subst t'. discriminate X.
Qed.
Print Assumptions C93_large_values_refuted.
