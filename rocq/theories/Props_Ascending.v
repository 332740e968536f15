(** * Properties C10 - C16 and C49: the single-recipe ascending auction

    The theorems hold for every value [M > 0] of the constant MAX_VALUE and every number of rounds
    [fuel] for which the auction returns; the function users call is the instance
    [ascending_auction], with M = MAX_VALUE and enough fuel (C10). *)

From Coq Require Import String List Arith Lia QArith Lqa Permutation.
From Verif Require Import Base Model_Agents Model_Trade Model_Prices Model_Market Model_Ascending
  Spec_Market Spec_Trade Spec_Ascending Proof_Ascending2 Proof_Ascending3 Proof_Ascending4 Proof_Ascending5.
Import ListNotations.
Open Scope Q_scope.
Open Scope string_scope.

(** ** C10 *)
Theorem C10_terminates : forall M rounds m recipe, (total_agents m + 1 <= rounds)%nat ->
  (exists t, ascending_auction_M M rounds m recipe = Ok t
             /\ length recipe = length m /\ has_positive_entry recipe)
  \/ (ascending_auction_M M rounds m recipe = Raise ValueError
      /\ (length recipe <> length m \/ ~ has_positive_entry recipe)).
Proof. intros M rounds m recipe H. apply ascending_terminates. lia. Qed.
Print Assumptions C10_terminates.

Theorem C10_api : forall m recipe,
  ((exists t, ascending_auction m recipe = Ok t) <-> length recipe = length m /\ has_positive_entry recipe)
  /\ (ascending_auction m recipe = Raise ValueError <-> length recipe <> length m \/ ~ has_positive_entry recipe).
Proof.
  intros m recipe. unfold ascending_auction.
  destruct (C10_terminates MAX_VALUE (total_agents m + 1) m recipe (le_n _)) as [[t [H [H1 H2]]]|[H H1]]; rewrite H; split; split.
  - intros _. split; assumption.
  - intros _. eauto.
  - discriminate.
  - intros [X|X]; contradiction.
  - intros [t X]. discriminate.
  - intros [X Y]. destruct H1; contradiction.
  - intros _. assumption.
  - reflexivity.
Qed.
Print Assumptions C10_api.

(** The result does not depend on the fuel: it is the result of the Python loop. *)
Theorem C10_fuel_irrelevant : forall M rounds rounds' m recipe t,
  ascending_auction_M M rounds m recipe = Ok t -> (rounds <= rounds')%nat ->
  ascending_auction_M M rounds' m recipe = Ok t.
Proof.
  intros M f f' m recipe t H Hf. unfold ascending_auction_M in *.
  destruct (length recipe =? length m)%nat; [|discriminate].
  apply bind_Ok in H. destruct H as [s [H Ht]].
  replace f' with (f + (f' - f))%nat by lia. rewrite (ascending_loop_mono f (f' - f) recipe _ _ H). exact Ht.
Qed.
Print Assumptions C10_fuel_irrelevant.

(** ** C11 *)
Theorem C11_strong_budget_balance : forall M rounds m recipe t, 0 < M ->
  ascending_auction_M M rounds m recipe = Ok t -> (0 < num_of_deals t)%nat ->
  exists prices, tprices t = Some prices /\ length prices = length m /\ dot prices recipe == 0.
Proof. exact ascending_sbb. Qed.
Print Assumptions C11_strong_budget_balance.

(** ** C12 *)
Theorem C12_individually_rational : forall M rounds m recipe t prices, 0 < M -> values_at_least (- M) m ->
  ascending_auction_M M rounds m recipe = Ok t -> tprices t = Some prices ->
  forall i c p v, nth_error (tcats t) i = Some c -> nth_error prices i = Some p ->
    In v (cvalues c) -> p <= v.
Proof. exact ascending_ir. Qed.
Print Assumptions C12_individually_rational.

(** The hypothesis on the values is needed: with a value below -MAX_VALUE an agent can be left
    with a loss. *)
Theorem C12_low_values_refuted : exists m recipe t prices c p v,
  ascending_auction m recipe = Ok t /\ (0 < num_of_deals t)%nat /\ tprices t = Some prices
  /\ nth_error (tcats t) 1 = Some c /\ nth_error prices 1 = Some p /\ In v (cvalues c) /\ v < p.
Proof.
  exists [mkCat "buyer" [3 * MAX_VALUE]; mkCat "seller" [- (2) * MAX_VALUE]], [1; 1]%nat.
  eexists. eexists. eexists. eexists. exists (- (2) * MAX_VALUE).
  split; [vm_compute; reflexivity|]. split; [vm_compute; lia|].
  split; [reflexivity|]. split; [reflexivity|]. split; [reflexivity|].
  split; [left; reflexivity|]. reflexivity.
Qed.
Print Assumptions C12_low_values_refuted.

(** ** C13 *)
Theorem C13_removes_weakest : forall M rounds m recipe t prices, 0 < M ->
  ascending_auction_M M rounds m recipe = Ok t -> tprices t = Some prices ->
  length (tcats t) = length m /\
  forall i c0 c p, nth_error m i = Some c0 -> nth_error (tcats t) i = Some c -> nth_error prices i = Some p ->
    cname c = cname c0 /\ desc (cvalues c) /\
    exists gone, Permutation (cvalues c ++ gone) (cvalues c0)
      /\ (forall x y, In x (cvalues c) -> In y gone -> y <= x)
      /\ (forall y, In y gone -> y <= p).
Proof. exact ascending_weakest. Qed.
Print Assumptions C13_removes_weakest.

Theorem C13_monotone_prices : forall M m recipe s b s', 0 < M -> values_at_least (- M) m ->
  length recipe = length m -> has_positive_entry recipe ->
  visited M m recipe s -> ascending_round recipe s = Ok (b, s') ->
  price_sum (snd s) < 0 /\ price_sum (snd s') <= 0
  /\ Forall2 Qle (pv_prices (snd s)) (pv_prices (snd s'))
  /\ length (pv_prices (snd s)) = length m.
Proof. exact ascending_monotone. Qed.
Print Assumptions C13_monotone_prices.

(** The trade that is returned is the last state of such a run. *)
Theorem C13_result_is_last_state : forall M rounds m recipe t, ascending_auction_M M rounds m recipe = Ok t ->
  exists s cats pv, visited M m recipe s /\ ascending_round recipe s = Ok (true, (cats, pv))
    /\ tcats t = cats /\ tprices t = Some (pv_prices pv).
Proof. exact auction_visited. Qed.
Print Assumptions C13_result_is_last_state.

(** ** C14 *)
Theorem C14_truthful : forall M rounds m recipe i name pre post v v' pos pos' t t', 0 < M ->
  (i < length m)%nat ->
  possible_position (pre ++ post) v pos -> possible_position (pre ++ post) v' pos' ->
  ascending_auction_M M rounds (set_nth i (mkCat name (pre ++ v :: post)) m) recipe = Ok t ->
  ascending_auction_M M rounds (set_nth i (mkCat name (pre ++ v' :: post)) m) recipe = Ok t' ->
  utility t' i pos' v <= utility t i pos v.
Proof. exact ascending_truthful. Qed.
Print Assumptions C14_truthful.

(** ** C15 *)
Theorem C15_number_of_deals : forall M rounds cap m recipe t deals rem, 0 < M -> cap_suffices cap m recipe ->
  ascending_auction_M M rounds m recipe = Ok t -> optimal_trade cap m recipe true = Ok (deals, rem) ->
  (mt_num_of_deals deals - 1 <= num_of_deals t)%nat
  /\ (values_at_least (- M) m -> (num_of_deals t <= mt_num_of_deals deals)%nat).
Proof. exact ascending_deals. Qed.
Print Assumptions C15_number_of_deals.

(** ** C16 *)
Theorem C16_gain : forall M rounds cap m recipe t deals rem z g, 0 < M -> cap_suffices cap m recipe ->
  ascending_auction_M M rounds m recipe = Ok t -> optimal_trade cap m recipe true = Ok (deals, rem) ->
  gain_from_trade t z = Ok g ->
  (forall g', gain_from_trade t (negb z) = Ok g' -> g' == g)
  /\ (g <= mt_gain_from_trade deals)
  /\ (values_at_least (- M) m -> 0 <= g)
  /\ (values_small M recipe m ->
        Qn (num_of_deals t) * mt_gain_from_trade deals <= (Qn (num_of_deals t) + 1) * g
        /\ (Qn (mt_num_of_deals deals) - 1) * mt_gain_from_trade deals <= Qn (mt_num_of_deals deals) * g).
Proof. exact ascending_gain. Qed.
Print Assumptions C16_gain.

(** ** C49 *)
Theorem C49_max_value_independent : forall M1 M2 rounds m recipe t1 t2, 0 < M1 -> 0 < M2 ->
  values_small M1 recipe m -> values_small M2 recipe m ->
  ascending_auction_M M1 rounds m recipe = Ok t1 -> ascending_auction_M M2 rounds m recipe = Ok t2 ->
  tcats t1 = tcats t2 /\ num_of_deals t1 = num_of_deals t2
  /\ ((0 < num_of_deals t1)%nat -> forall i r P1 P2 p1 p2, nth_error recipe i = Some r -> (0 < r)%nat ->
        tprices t1 = Some P1 -> tprices t2 = Some P2 ->
        nth_error P1 i = Some p1 -> nth_error P2 i = Some p2 -> p1 == p2).
Proof. exact max_value_independent. Qed.
Print Assumptions C49_max_value_independent.

(** ** Non-vacuity *)

(** Three categories, recipe (1,2,1); two deals are optimal, the auction makes one. *)
Definition ex_market : market :=
  [mkCat "buyer" [20; 17; 5]; mkCat "seller" [-(1); -(2); -(3); -(4); -(9)]; mkCat "mediator" [-(1); -(3); -(6)]].
Definition ex_recipe : list nat := [1; 2; 1]%nat.

Example C10_C16_run : exists t prices g, ascending_auction ex_market ex_recipe = Ok t
  /\ num_of_deals t = 1%nat /\ tprices t = Some prices /\ prices = [17; -11 # 2; -6]
  /\ map (fun c => cvalues c) (tcats t) = [[20]; [-(1); -(2); -(3); -(4)]; [-(1); -(3)]]
  /\ gain_from_trade t true = Ok g /\ g == 13.
Proof.
  eexists. eexists. eexists. split; [vm_compute; reflexivity|]. split; [reflexivity|].
  split; [reflexivity|]. split; [reflexivity|]. split; [reflexivity|].
  split; [vm_compute; reflexivity|]. reflexivity.
Qed.

Example C15_optimum : exists deals rem, optimal_trade 10 ex_market ex_recipe true = Ok (deals, rem)
  /\ mt_num_of_deals deals = 2%nat /\ mt_gain_from_trade deals == 23 /\ cap_suffices 10 ex_market ex_recipe.
Proof.
  eexists. eexists. split; [vm_compute; reflexivity|]. split; [reflexivity|]. split; [reflexivity|].
  exists 0%nat, (mkCat "buyer" [20; 17; 5]), 1%nat. split; [reflexivity|]. split; [reflexivity|]. unfold csize; cbn; lia.
Qed.

Lemma in_values : forall (P : Q -> Prop) (m : market),
  Forall (fun c => Forall P (cvalues c)) m -> forall c v, In c m -> In v (cvalues c) -> P v.
Proof.
  intros P m H c v Hc Hv. rewrite Forall_forall in H. specialize (H c Hc).
  rewrite Forall_forall in H. auto.
Qed.

Example C16_values_small : values_small MAX_VALUE ex_recipe ex_market /\ values_at_least (- MAX_VALUE) ex_market
  /\ values_small 100 ex_recipe ex_market /\ has_positive_entry ex_recipe.
Proof.
  split; [|split; [|split]].
  - apply small_uniform; [discriminate|exists 0%nat, 1%nat; split; [reflexivity|lia]|reflexivity|]. exists 20. split; [lra|]. split; [reflexivity|]. apply in_values. repeat constructor; unfold Qle; simpl; lia.
  - unfold values_at_least. apply in_values. repeat constructor; unfold Qle; simpl; lia.
  - apply small_uniform; [discriminate|exists 0%nat, 1%nat; split; [reflexivity|lia]|reflexivity|]. exists 20. split; [lra|]. split; [reflexivity|]. apply in_values. repeat constructor; unfold Qle; simpl; lia.
  - exists 0%nat, 1%nat. split; [reflexivity|lia].
Qed.

(** A state in the middle of the run. *)
Definition ex_next (s : asc_state) : asc_state :=
  match ascending_round ex_recipe s with Ok (_, s') => s' | _ => s end.
Definition ex_s1 : asc_state := Eval vm_compute in ex_next (ascending_start MAX_VALUE ex_market ex_recipe).
Definition ex_s2 : asc_state := Eval vm_compute in ex_next ex_s1.

Example C13_visited : visited MAX_VALUE ex_market ex_recipe ex_s1
  /\ ascending_round ex_recipe ex_s1 = Ok (false, ex_s2) /\ snd ex_s1 <> snd ex_s2 /\ fst ex_s1 <> clone_market ex_market.
Proof.
  split; [|split; [vm_compute; reflexivity|]].
  - eapply visited_next; [apply visited_start|]. vm_compute. reflexivity.
  - split; vm_compute; discriminate.
Qed.

(** Truthfulness, a concrete misreport: seller -2 (probability to trade 1/2, price -11/2) reports -10. *)
Example C14_nonvacuous : exists t t',
  ascending_auction (set_nth 1 (mkCat "seller" ([-(1)] ++ -(2) :: [-(3); -(4); -(9)])) ex_market) ex_recipe = Ok t
  /\ ascending_auction (set_nth 1 (mkCat "seller" ([-(1)] ++ -(10) :: [-(3); -(4); -(9)])) ex_market) ex_recipe = Ok t'
  /\ possible_position ([-(1)] ++ [-(3); -(4); -(9)]) (-(2)) 1
  /\ possible_position ([-(1)] ++ [-(3); -(4); -(9)]) (-(10)) 4
  /\ utility t 1 1 (-(2)) == 7#4 /\ utility t' 1 4 (-(2)) == 0 /\ num_of_deals t' = 1%nat.
Proof.
  eexists. eexists. split; [vm_compute; reflexivity|]. split; [vm_compute; reflexivity|].
  split; [vm_compute; lia|]. split; [vm_compute; lia|]. split; [reflexivity|]. split; reflexivity.
Qed.

(** The condition on the values allows buyers far above the bound that a uniform limit on all values would need: 17 categories, a
    buyer value of 48 million against MAX_VALUE of 100 million (prices of stocks times 16, see C86). *)
Definition wide_market : market := mkCat "buyer" [48000000; 47000000] :: repeat (mkCat "seller" [-(2900000); -(3000000)]) 16.
Example C16_wide : values_small MAX_VALUE (repeat 1%nat 17) wide_market.
Proof.
  split.
  - unfold values_at_least. apply in_values. unfold wide_market. cbn [repeat]. repeat constructor; unfold Qle; simpl; lia.
  - exists (48000000 :: repeat 0 16). split.
    + unfold wide_market. cbn [repeat]. repeat (constructor; [split; [unfold Qle; simpl; lia|]; apply Forall_forall; repeat constructor; unfold Qle; simpl; lia|]). constructor.
    + intros l r u Hr Hp Hu.
      do 17 (destruct l as [|l]; [injection Hr as <-; injection Hu as <-; vm_compute; reflexivity|]). destruct l; discriminate.
Qed.

(** Without it the bound on the gain fails: values above MAX_VALUE end the auction before the sellers' price has moved, and
    twenty buyers are left for two sellers. *)
Definition huge_market : market :=
  [mkCat "buyer" (1000000000 :: 1000000000 :: repeat 200000000 18); mkCat "seller" [-(1); -(1)]].
Theorem C16_large_values_refuted : exists t deals rem g, ascending_auction huge_market [1; 1]%nat = Ok t
  /\ optimal_trade 20 huge_market [1; 1]%nat true = Ok (deals, rem) /\ cap_suffices 20 huge_market [1; 1]%nat
  /\ values_at_least (- MAX_VALUE) huge_market /\ mt_num_of_deals deals = 2%nat /\ num_of_deals t = 2%nat
  /\ gain_from_trade t true = Ok g
  /\ Qn (mt_num_of_deals deals) * g < (Qn (mt_num_of_deals deals) - 1) * mt_gain_from_trade deals.
Proof.
  do 4 eexists. split; [vm_compute; reflexivity|]. split; [vm_compute; reflexivity|].
  split. { exists 1%nat, (mkCat "seller" [-(1); -(1)]), 1%nat. split; [reflexivity|]. split; [reflexivity|]. unfold csize; cbn; lia. }
  split. { unfold values_at_least. apply in_values. unfold huge_market. cbn [repeat]. repeat constructor; unfold Qle; simpl; lia. }
  split; [reflexivity|]. split; [reflexivity|]. split; [vm_compute; reflexivity|]. vm_compute. reflexivity.
Qed.
Print Assumptions C16_large_values_refuted.
