(** * Property C82: what is left for the agents a mechanism leaves out

    [left_out m cats out]: [out] are the agents of the market [m] that are not in the categories [cats] of the returned trade.
    [nothing_left]: no set of deals between them has a positive gain.  [no_envy]: none of them has a value above the price of
    his category.  (The agents in the categories of the returned trade may still be rejected by the final lottery; they are not
    meant here.) *)

From Coq Require Import String List Arith Lia QArith Lqa Permutation.
From Verif Require Import Base Model_Agents Model_Trade Model_Prices Model_Market Model_Ascending Model_TradeReduction Model_McAfee
  Model_RecipeTree Model_TreeAuction Spec_Market Spec_Ascending Spec_TradeReduction Spec_RecipeTree Spec_TreeAuction Spec_Stable
  Proof_TR8 Proof_Stable Proof_Stable2 Proof_Stable3 Proof_Stable4.
From Verif Require Proof_Ascending4.
Import ListNotations.
Open Scope Q_scope.
Open Scope string_scope.

(** ** Ascending auction, every recipe *)
Theorem C82_ascending : forall M rounds m recipe t, 0 < M -> ascending_auction_M M rounds m recipe = Ok t ->
  (exists out, left_out m (tcats t) out) /\ nothing_left m recipe (tcats t)
  /\ (forall prices, tprices t = Some prices -> no_envy m (tcats t) prices).
Proof.
  intros M rounds m recipe t HM H. split; [apply left_out_exists; eapply ascending_kept; eassumption|].
  eapply ascending_stable; eassumption.
Qed.
Print Assumptions C82_ascending.

(** ** Recipe-tree auction, every recipe of the tree *)
Theorem C82_tree : forall M p0 fuel m st r rs, 0 < M ->
  tree_auction M p0 fuel m st = Ok r -> recipes (length m) (tt_tree r) = Ok rs ->
  initial_prices_ok (length m) rs (- M) p0 -> values_above (- M) m -> values_below M m ->
  (exists out, left_out m (tt_cats r) out) /\ no_envy m (tt_cats r) (tt_prices r)
  /\ forall recipe, In recipe rs -> nothing_left m recipe (tt_cats r).
Proof.
  intros M p0 fuel m st r rs HM H Hrs HP HV HB. split; [apply left_out_exists; eapply tree_best_kept; eassumption|].
  eapply tree_stable; eassumption.
Qed.
Print Assumptions C82_tree.

(** ** Trade reduction *)
Theorem C82_trade_reduction : forall M cap m recipe z t, cap_suffices cap m recipe -> values_at_least (- M) m ->
  trade_reduction_M M cap m recipe z = Ok t ->
  (exists out, left_out m (tcats t) out) /\ nothing_left m recipe (tcats t).
Proof.
  intros M cap m recipe z t Hc Hv H. split; [apply left_out_exists; eapply tr_best_kept; eassumption|].
  eapply tr_stable; eassumption.
Qed.
Print Assumptions C82_trade_reduction.

Theorem C82_trade_reduction_prices : forall M cap m recipe z t prices, all_ones recipe -> values_small M recipe m ->
  cap_suffices cap m recipe -> trade_reduction_M M cap m recipe z = Ok t -> (0 < num_of_deals t)%nat ->
  tprices t = Some prices -> no_envy m (tcats t) prices.
Proof. exact tr_no_envy. Qed.
Print Assumptions C82_trade_reduction_prices.

(** With a recipe entry above 1 this fails: the buyer 11 is left out although the buyers' price is 6 (sellers -1, -1 trade at
    the price -3 of the third seller). *)
Definition envy_market : market := [mkCat "buyer" [28; 11]; mkCat "seller" [-(1); -(1); -(3)]].
Theorem C82_trade_reduction_prices_refuted : exists t prices,
  trade_reduction_M MAX_VALUE 10 envy_market [1; 2]%nat true = Ok t /\ tprices t = Some prices /\ num_of_deals t = 1%nat
  /\ Forall2 Qeq prices [6; -(3)] /\ values_small MAX_VALUE [1; 2]%nat envy_market
  /\ cap_suffices 10 envy_market [1; 2]%nat /\ ~ no_envy envy_market (tcats t) prices.
Proof.
  eexists. eexists. split; [vm_compute; reflexivity|]. split; [reflexivity|]. split; [vm_compute; reflexivity|].
  split; [repeat constructor|]. split.
  { apply Proof_Ascending4.small_uniform; [discriminate|exists 0%nat, 1%nat; split; [reflexivity|lia]|reflexivity|]. exists 28. split; [unfold Qle; simpl; lia|]. split; [reflexivity|]. apply in_values. repeat constructor; unfold Qle; simpl; lia. }
  split.
  { exists 0%nat, (mkCat "buyer" [28; 11]), 1%nat. split; [reflexivity|]. split; [reflexivity|]. unfold csize; simpl; lia. }
  intros H. assert (X : 11 <= 6); [|unfold Qle in X; simpl in X; lia].
  eapply (H [mkCat "buyer" [11]; mkCat "seller" [-(3)]] 0%nat (mkCat "buyer" [11])); [|reflexivity|reflexivity|left; reflexivity].
  split; [reflexivity|]. split; [reflexivity|].
  intros [|[|i]] c0 c e H0 Hc He; [| |destruct i; discriminate]; inversion H0; inversion Hc; inversion He; subst;
    eexists; (split; [apply Permutation_refl|]); repeat constructor.
Qed.
Print Assumptions C82_trade_reduction_prices_refuted.

(** ** McAfee's mechanism *)

(** If all optimal deals are made nothing is left; if the least profitable optimal deal is given up, the agents left out can
    gain at most the sum of the prices (which is what the auctioneer earns per deal). *)
Theorem C82_mcafee : forall M cap m recipe h t deals rem prices, cap_suffices cap m recipe ->
  mcafee_M M cap m recipe h = Ok t -> optimal_trade cap m recipe true = Ok (deals, rem) -> tprices t = Some prices ->
  (exists out, left_out m (tcats t) out)
  /\ (num_of_deals t = mt_num_of_deals deals -> nothing_left m recipe (tcats t))
  /\ (num_of_deals t <> mt_num_of_deals deals ->
        forall out D, left_out m (tcats t) out -> feasible out recipe D -> total_gain D <= Qsum prices).
Proof.
  intros M cap m recipe h t deals rem prices Hc H Ho HP. split; [apply left_out_exists; eapply mc_kept; eassumption|].
  eapply mcafee_stable; eassumption.
Qed.
Print Assumptions C82_mcafee.

Theorem C82_mcafee_prices : forall M cap m recipe h t deals rem prices,
  mcafee_M M cap m recipe h = Ok t -> optimal_trade cap m recipe true = Ok (deals, rem) -> tprices t = Some prices ->
  num_of_deals t <> mt_num_of_deals deals -> no_envy m (tcats t) prices.
Proof. exact mcafee_no_envy. Qed.
Print Assumptions C82_mcafee_prices.

(** At the heuristic price: in a two-sided market with buyers' values in [0, M/2) and sellers' values below 0. *)
Theorem C82_mcafee_prices_two_sided : forall M cap m recipe h t deals rem prices b, 0 < M -> length m = 2%nat -> (b < 2)%nat ->
  (forall x, In x (nth b (map cvalues m) []) -> 0 <= x /\ 2 * x < M) ->
  (forall x, In x (nth (1 - b) (map cvalues m) []) -> x < 0) ->
  cap_suffices cap m recipe ->
  mcafee_M M cap m recipe h = Ok t -> optimal_trade cap m recipe true = Ok (deals, rem) -> tprices t = Some prices ->
  (0 < num_of_deals t)%nat -> no_envy m (tcats t) prices.
Proof. exact mcafee_no_envy_two. Qed.
Print Assumptions C82_mcafee_prices_two_sided.

(** Without the heuristic a profitable deal is left: the one given up. *)
Definition mc_left : market := [mkCat "buyer" [9; 8]; mkCat "seller" [-(1); -(2)]].
Theorem C82_mcafee_refuted : exists t prices, mcafee_M MAX_VALUE 10 mc_left [1; 1]%nat false = Ok t
  /\ tprices t = Some prices /\ Qsum prices == 6 /\ num_of_deals t = 1%nat
  /\ exists out D, left_out mc_left (tcats t) out /\ feasible out [1; 1]%nat D /\ total_gain D == 6.
Proof.
  eexists. eexists. split; [vm_compute; reflexivity|]. split; [reflexivity|]. split; [reflexivity|]. split; [reflexivity|].
  exists [mkCat "buyer" [8]; mkCat "seller" [-(2)]], [[[8]; [-(2)]]].
  split; [|split; [|reflexivity]].
  - split; [reflexivity|]. split; [reflexivity|].
    intros [|[|i]] c0 c e H0 Hc He; [| |destruct i; discriminate]; inversion H0; inversion Hc; inversion He; subst;
      eexists; (split; [apply Permutation_refl|]); repeat constructor.
  - split; [repeat constructor|]. intros [|[|i]] c Hc; [| |destruct i; discriminate]; inversion Hc; exists []; apply Permutation_refl.
Qed.
Print Assumptions C82_mcafee_refuted.

(** With three categories the heuristic price may be below the value of a buyer left out. *)
Definition mc_three : market := [mkCat "buyer" [11; 10]; mkCat "mediator" [-(1); -(1)]; mkCat "seller" [-(5); -(12)]].
Theorem C82_mcafee_three_refuted : exists t prices, mcafee_M MAX_VALUE 10 mc_three [1; 1; 1]%nat true = Ok t
  /\ tprices t = Some prices /\ num_of_deals t = 1%nat /\ ~ no_envy mc_three (tcats t) prices.
Proof.
  eexists. eexists. split; [vm_compute; reflexivity|]. split; [reflexivity|]. split; [reflexivity|].
  intros H. assert (X : 10 <= 23 # 3); [|unfold Qle in X; simpl in X; lia].
  eapply Qle_trans.
  - eapply (H [mkCat "buyer" [10]; mkCat "mediator" [-(1)]; mkCat "seller" [-(12)]] 0%nat (mkCat "buyer" [10])); [|reflexivity|reflexivity|left; reflexivity].
    split; [reflexivity|]. split; [reflexivity|].
    intros [|[|[|i]]] c0 c e H0 Hc He; [| | |destruct i; discriminate]; inversion H0; inversion Hc; inversion He; subst;
      eexists; (split; [apply Permutation_refl|]); repeat constructor.
  - vm_compute. discriminate.
Qed.
Print Assumptions C82_mcafee_three_refuted.

(** ** Concrete runs *)
Definition st_market : market :=
  [mkCat "buyer" [17; 14; 13; 9; 6]; mkCat "seller" [-(1); -(2); -(3); -(4); -(5); -(7); -(8); -(10); -(11)]].
Definition st_out : market := [mkCat "buyer" [13; 9; 6]; mkCat "seller" [-(7); -(8); -(10); -(11)]].

Example C82_tr_run : exists t, trade_reduction_M MAX_VALUE 100 st_market [1; 2]%nat true = Ok t
  /\ num_of_deals t = 2%nat /\ map cvalues (tcats t) = [[17; 14]; [-(1); -(2); -(3); -(4); -(5)]]
  /\ left_out st_market (tcats t) st_out /\ feasible st_out [1; 2]%nat [[[13]; [-(7); -(8)]]; [[6]; [-(10); -(11)]]].
Proof.
  eexists. split; [vm_compute; reflexivity|]. split; [reflexivity|]. split; [vm_compute; reflexivity|]. split.
  - split; [reflexivity|]. split; [reflexivity|].
    intros [|[|i]] c0 c e H0 Hc He; [| |destruct i; discriminate]; inversion H0; inversion Hc; inversion He; subst;
      eexists; (split; [apply Permutation_refl|]); repeat constructor.
  - split; [repeat constructor|]. intros [|[|i]] c Hc; [| |destruct i; discriminate]; inversion Hc.
    + exists [9]. apply perm_skip. apply perm_swap.
    + exists []. apply Permutation_refl.
Qed.

Example C82_ascending_run : exists t prices, ascending_auction st_market [1; 2]%nat = Ok t /\ tprices t = Some prices
  /\ num_of_deals t = 2%nat /\ Forall2 Qeq prices [13; -(13 # 2)] /\ map cvalues (tcats t) = [[17; 14]; [-(1); -(2); -(3); -(4); -(5)]]
  /\ left_out st_market (tcats t) st_out.
Proof.
  eexists. eexists. split; [vm_compute; reflexivity|]. split; [reflexivity|]. split; [reflexivity|]. split; [repeat constructor|].
  split; [vm_compute; reflexivity|].
  split; [reflexivity|]. split; [reflexivity|].
  intros [|[|i]] c0 c e H0 Hc He; [| |destruct i; discriminate]; inversion H0; inversion Hc; inversion He; subst;
    eexists; (split; [apply Permutation_refl|]); repeat constructor.
Qed.

(** The heuristic price of McAfee, two-sided. *)
Definition st_two : market := [mkCat "buyer" [9; 8; 4]; mkCat "seller" [-(3); -(4); -(6)]].
Example C82_mcafee_run : exists t prices deals rem, mcafee_M MAX_VALUE 10 st_two [1; 1]%nat true = Ok t
  /\ tprices t = Some prices /\ Forall2 Qeq prices [5; -(5)] /\ num_of_deals t = 2%nat
  /\ optimal_trade 10 st_two [1; 1]%nat true = Ok (deals, rem) /\ cap_suffices 10 st_two [1; 1]%nat
  /\ (forall x, In x (nth 0 (map cvalues st_two) []) -> 0 <= x /\ 2 * x < MAX_VALUE)
  /\ (forall x, In x (nth 1 (map cvalues st_two) []) -> x < 0)
  /\ left_out st_two (tcats t) [mkCat "buyer" [4]; mkCat "seller" [-(6)]].
Proof.
  do 4 eexists. split; [vm_compute; reflexivity|]. split; [reflexivity|]. split; [repeat constructor|]. split; [reflexivity|].
  split; [vm_compute; reflexivity|]. split.
  { exists 0%nat, (mkCat "buyer" [9; 8; 4]), 1%nat. split; [reflexivity|]. split; [reflexivity|]. unfold csize; simpl; lia. }
  split; [intros x Hx; simpl in Hx; destruct Hx as [<-|[<-|[<-|[]]]]; split; unfold Qle, Qlt; simpl; lia|].
  split; [intros x Hx; simpl in Hx; destruct Hx as [<-|[<-|[<-|[]]]]; unfold Qlt; simpl; lia|].
  split; [reflexivity|]. split; [reflexivity|].
  intros [|[|i]] c0 c e H0 Hc He; [| |destruct i; discriminate]; inversion H0; inversion Hc; inversion He; subst;
    eexists; (split; [apply Permutation_refl|]); repeat constructor.
Qed.
