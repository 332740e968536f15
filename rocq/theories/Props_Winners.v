(** * C115: the values of the agents who are left at the end do not matter *)

From Coq Require Import String List Arith QArith Permutation Lia Lqa.
From Verif Require Import Base Model_Agents Model_Trade Model_Prices Model_Market Model_Ascending Model_TradeReduction Model_McAfee
  Spec_Market Spec_Trade Spec_Ascending Spec_TradeReduction Spec_Statics Spec_Winners Spec_Reorder Spec_RecipeTree Spec_TreeAuction
  Model_RecipeTree Model_TreeAuction Proof_Winners Proof_Winners2 Proof_Winners3 Proof_Winners4 Props_Better Props_Outsiders.
From Verif Require Props_TreeAuction Props_Initial.
Import ListNotations.
Open Scope Q_scope.

(** Give new values to all agents who are left at the end, in all categories at once. As long as the new values are at least the prices, the
    auction ends with the same prices and the same number of deals, and the same agents are left, with their new values. The auction finds out
    that the values of these agents are at least the prices, and nothing else. *)

Theorem C115_ascending : forall M rounds rounds' m m' recipe new t t' P P', 0 < M ->
  ascending_auction_M M rounds m recipe = Ok t -> ascending_auction_M M rounds' m' recipe = Ok t' ->
  tprices t = Some P -> tprices t' = Some P' -> changes_left P m (tcats t) new m' ->
  Forall2 Qeq P P' /\ num_of_deals t' = num_of_deals t
  /\ forall j, (j < length m)%nat -> same_values (new j) (cvalues (nth j (tcats t') (mkCat "" []))).
Proof. exact ascending_winners. Qed.
Print Assumptions C115_ascending.

(** Trade reduction, when there was a deal, with the zero-GFT deals included. *)
Theorem C115_trade_reduction : forall M cap m m' recipe new t t' P, 0 < M -> ones_but_last recipe -> no_spare m recipe ->
  values_small M recipe m -> values_small M recipe m' -> cap_suffices cap m recipe ->
  trade_reduction_M M cap m recipe true = Ok t -> trade_reduction_M M cap m' recipe true = Ok t' ->
  tprices t = Some P -> (0 < num_of_deals t)%nat -> changes_left P m (tcats t) new m' ->
  (exists P', tprices t' = Some P' /\ Forall2 Qeq P P') /\ num_of_deals t' = num_of_deals t
  /\ forall j, (j < length m)%nat -> same_values (new j) (cvalues (nth j (tcats t') (mkCat "" []))).
Proof. exact reduction_winners. Qed.
Print Assumptions C115_trade_reduction.

Theorem C115_trade_reduction_ones : forall M cap m m' recipe new t t' P, 0 < M -> all_ones recipe ->
  values_small M recipe m -> values_small M recipe m' -> cap_suffices cap m recipe ->
  trade_reduction_M M cap m recipe true = Ok t -> trade_reduction_M M cap m' recipe true = Ok t' ->
  tprices t = Some P -> (0 < num_of_deals t)%nat -> changes_left P m (tcats t) new m' ->
  (exists P', tprices t' = Some P' /\ Forall2 Qeq P P') /\ num_of_deals t' = num_of_deals t
  /\ forall j, (j < length m)%nat -> same_values (new j) (cvalues (nth j (tcats t') (mkCat "" []))).
Proof. exact reduction_winners_ones. Qed.
Print Assumptions C115_trade_reduction_ones.

(** The tree auction. The new values are strictly above the prices, in the categories of the tree. *)
Theorem C115_tree : forall M B p p' fuel fuel' m m' st new r r' rs, 0 < M -> length m' = length m ->
  tree_auction M p fuel m st = Ok r -> tree_auction M p' fuel' m' st = Ok r' -> recipes (length m) (tt_tree r) = Ok rs ->
  distinct_categories (tt_tree r) ->
  initial_prices_ok (length m) rs (- M) p -> initial_prices_ok (length m) rs (- M) p' ->
  values_within B m -> values_within B m' -> 2 * B * Qn (height (tt_tree r)) <= M -> no_ties m -> no_ties m' ->
  (forall i, In i (node_indices (tt_tree r)) -> (0 < csize (nth i m no_category))%nat) ->
  (forall i, In i (node_indices (tt_tree r)) ->
     category_changes_left (fun v => nth i (tt_prices r) 0 < v) (nth i m no_category) (nth i (tt_cats r) no_category) (new i) (nth i m' no_category)) ->
  (0 < csize (nth (tindex (tt_tree r)) (tt_cats r) no_category))%nat ->
  forall i, In i (node_indices (tt_tree r)) ->
    nth i (tt_prices r') 0 == nth i (tt_prices r) 0 /\ same_values (new i) (cvalues (nth i (tt_cats r') no_category)).
Proof. exact tree_winners. Qed.
Print Assumptions C115_tree.

(** McAfee's protocol without the heuristic. *)
Theorem C115_mcafee : forall M cap cap' m m' recipe new t t' P, cap_suffices cap m recipe -> cap_suffices cap' m' recipe ->
  mcafee_M M cap m recipe false = Ok t -> mcafee_M M cap' m' recipe false = Ok t' -> tprices t = Some P -> changes_left P m (tcats t) new m' ->
  (exists P', tprices t' = Some P' /\ Forall2 Qeq P P') /\ num_of_deals t' = num_of_deals t
  /\ forall j, (j < length m)%nat -> same_values (new j) (cvalues (nth j (tcats t') (mkCat "" []))).
Proof. exact mcafee_winners. Qed.
Print Assumptions C115_mcafee.

(** With the heuristic, when the candidate price is refused (there are fewer deals than in the optimal trade). *)
Theorem C115_mcafee_refused : forall M cap cap' m m' recipe h new t t' P deals rem, cap_suffices cap m recipe -> cap_suffices cap' m' recipe ->
  optimal_trade cap m recipe true = Ok (deals, rem) -> (num_of_deals t < length deals)%nat ->
  mcafee_M M cap m recipe h = Ok t -> mcafee_M M cap' m' recipe h = Ok t' -> tprices t = Some P -> changes_left P m (tcats t) new m' ->
  (exists P', tprices t' = Some P' /\ Forall2 Qeq P P') /\ num_of_deals t' = num_of_deals t
  /\ forall j, (j < length m)%nat -> same_values (new j) (cvalues (nth j (tcats t') (mkCat "" []))).
Proof. exact mcafee_winners_refused. Qed.
Print Assumptions C115_mcafee_refused.

(** With the heuristic, in a market of buyers and sellers: the new values of sellers are negative, and M is more than twice the values. *)
Theorem C115_mcafee_two : forall M cap cap' m m' recipe h new t t' P, 0 < M -> cap_suffices cap m recipe -> cap_suffices cap' m' recipe ->
  buyers_and_sellers m -> (forall c v, In c m -> In v (cvalues c) -> 2 * v < M) ->
  (forall i v, (i < length m)%nat -> In v (new i) -> nth i P 0 < 0 -> v < 0) ->
  mcafee_M M cap m recipe h = Ok t -> mcafee_M M cap' m' recipe h = Ok t' -> tprices t = Some P -> changes_left P m (tcats t) new m' ->
  (exists P', tprices t' = Some P' /\ Forall2 Qeq P P') /\ num_of_deals t' = num_of_deals t
  /\ forall j, (j < length m)%nat -> same_values (new j) (cvalues (nth j (tcats t') (mkCat "" []))).
Proof. exact mcafee_winners_two. Qed.
Print Assumptions C115_mcafee_two.

(** ** Witnesses *)

Lemma perm_values : forall l l', Permutation l l' -> same_values l l'.
Proof. intros l l' H. exists l'. split; [assumption|]. clear. induction l'; constructor; [reflexivity|assumption]. Qed.

Lemma left_sides : forall p q b b' s s' lb ls new,
  category_changes_left (fun v => p <= v) (new_category "buyer" b) lb (new 0%nat) (new_category "buyer" b') ->
  category_changes_left (fun v => q <= v) (new_category "seller" s) ls (new 1%nat) (new_category "seller" s') ->
  changes_left [p; q] (two_sides b s) [lb; ls] new (two_sides b' s').
Proof. intros p q b b' s s' lb ls new H1 H2. split; [reflexivity|]. intros [|[|j]] Hj; [exact H1|exact H2|cbn in Hj; lia]. Qed.

Ltac left_with others :=
  split; [reflexivity|]; split; [reflexivity|]; split;
  [repeat constructor; unfold Qle, Qlt; simpl; discriminate
  |exists others; split; apply perm_values; apply Permutation_refl].

(** Prices 10 and -10. The two remaining buyers 20 and 15 become 40 and 11, the three remaining sellers -1, -4 and -9 become -1/2, -8 and -10. *)
Definition raised_market : market := two_sides [40; 11; 10; 8; 3] [-(1#2); -(8); -(10); -(12); -(30)].
Definition raised (j : nat) : list Q := match j with 0%nat => [40; 11] | _ => [-(1#2); -(8); -(10)] end.

Lemma old_raised : changes_left [10; -(10)] old_market [mkCat "buyer" [20; 15]; mkCat "seller" [-(1); -(4); -(9)]] raised raised_market.
Proof. apply left_sides; [left_with [10; 8; 3]|left_with [-(12); -(30)]]. Qed.

Example C115_ascending_witness : exists t t' P P', 0 < 1000
  /\ ascending_auction_M 1000 60 old_market [1; 1]%nat = Ok t /\ ascending_auction_M 1000 70 raised_market [1; 1]%nat = Ok t'
  /\ tprices t = Some P /\ tprices t' = Some P' /\ changes_left P old_market (tcats t) raised raised_market
  /\ P = [10; -(10)] /\ num_of_deals t = 2%nat /\ map csize (tcats t) = [2; 3]%nat.
Proof.
  do 4 eexists. split; [reflexivity|].
  split; [vm_compute; reflexivity|]. split; [vm_compute; reflexivity|]. split; [reflexivity|]. split; [reflexivity|].
  split; [exact old_raised|]. split; [reflexivity|]. split; reflexivity.
Qed.

(** A buyer and two sellers per procurement-set, prices 18 and -9. *)
Example C115_ascending_two_witness : let m' := two_sides [30; 15; 10; 8; 3] [-(2); -(7); -(9); -(12); -(30)] in
  let new j := match j with 0%nat => [30] | _ => [-(2); -(7)] end in
  exists t t' P P',
     ascending_auction_M 1000 60 old_market [1; 2]%nat = Ok t /\ ascending_auction_M 1000 60 m' [1; 2]%nat = Ok t'
  /\ tprices t = Some P /\ tprices t' = Some P' /\ changes_left P old_market (tcats t) new m'
  /\ P = [18; -(9)] /\ num_of_deals t = 1%nat.
Proof.
  cbv zeta. do 4 eexists.
  split; [vm_compute; reflexivity|]. split; [vm_compute; reflexivity|]. split; [reflexivity|]. split; [reflexivity|].
  split; [apply left_sides; [left_with [15; 10; 8; 3]|left_with [-(9); -(12); -(30)]]|].
  split; reflexivity.
Qed.

Ltac small_40 :=
  split; [concrete_values|]; exists [40; 0]; split;
  [constructor; [|constructor; [|constructor]]; (split; [discriminate|]); intros v Hv; vm_compute in Hv;
     repeat (destruct Hv as [<-|Hv]); try contradiction; vm_compute; discriminate
  |intros [|[|l]] r u Hr Hp Hu; cbn in Hr, Hu; [| |destruct l; discriminate]; injection Hr; injection Hu; intros <- <-; vm_compute; reflexivity].

Example C115_trade_reduction_witness : exists t t' P, all_ones [1; 1]%nat /\ values_small 1000 [1; 1]%nat old_market /\ values_small 1000 [1; 1]%nat raised_market
  /\ cap_suffices 60 old_market [1; 1]%nat
  /\ trade_reduction_M 1000 60 old_market [1; 1]%nat true = Ok t /\ trade_reduction_M 1000 60 raised_market [1; 1]%nat true = Ok t'
  /\ tprices t = Some P /\ (0 < num_of_deals t)%nat /\ changes_left P old_market (tcats t) raised raised_market.
Proof.
  do 3 eexists. split; [repeat constructor|]. split; [small_40|]. split; [small_40|].
  split; [exists 0%nat; do 2 eexists; split; [reflexivity|]; split; [reflexivity|]; split; [lia|vm_compute; lia]|].
  split; [vm_compute; reflexivity|]. split; [vm_compute; reflexivity|]. split; [reflexivity|]. split; [vm_compute; lia|]. exact old_raised.
Qed.

(** Categories 0 - 1 - 2 - 3 and 0 - 4 - 5, prices 18, -4, -9, -5, -9 and -9; the remaining agents of five of the six categories change. *)
Definition raised_branches : market :=
  [mkCat "a" [28; 25; 20; 19]; mkCat "b" [-(3); -(4); -(6)]; mkCat "c" [-(1); -(9)]; mkCat "d" [-(5); -(6); -(8)];
   mkCat "e" [-(1); -(8); -(9)]; mkCat "f" [-(2); -(3); -(9)]].

Definition raised_nodes (i : nat) : list Q :=
  match i with 0%nat => [28; 25; 20; 19] | 1%nat => [-(3)] | 2%nat => [-(1)] | 3%nat => [] | 4%nat => [-(1); -(8)] | _ => [-(2); -(3)] end.

Ltac left_node others :=
  split; [reflexivity|]; split; [reflexivity|]; split;
  [repeat constructor; unfold Qle, Qlt; simpl; discriminate
  |exists others; split; apply perm_values; apply Permutation_refl].

Example C115_tree_witness : let m := branch_market [-(4); -(9)] in
  no_ties m /\ no_ties raised_branches /\ values_within 30 m /\ values_within 30 raised_branches /\ 2 * 30 * Qn (height Props_Initial.two_tree) <= MAX_VALUE
  /\ initial_prices_ok 6 Props_Initial.two_recipes (- MAX_VALUE) Props_Initial.two_p
  /\ distinct_categories Props_Initial.two_tree
  /\ (forall i, In i (node_indices Props_Initial.two_tree) -> (0 < csize (nth i m no_category))%nat)
  /\ exists r r', tree_auction MAX_VALUE Props_Initial.two_p 30 m Props_Initial.two_struct = Ok r
     /\ tree_auction MAX_VALUE Props_Initial.two_p 30 raised_branches Props_Initial.two_struct = Ok r'
     /\ tt_tree r = Props_Initial.two_tree /\ recipes 6 (tt_tree r) = Ok Props_Initial.two_recipes
     /\ (0 < csize (nth 0 (tt_cats r) no_category))%nat
     /\ (forall i, In i (node_indices (tt_tree r)) -> category_changes_left (fun v => nth i (tt_prices r) 0 < v)
           (nth i m no_category) (nth i (tt_cats r) no_category) (raised_nodes i) (nth i raised_branches no_category)).
Proof.
  cbv zeta. split; [|split; [|split; [|split; [|split; [|split; [|split; [|split]]]]]]].
  - apply Props_TreeAuction.no_ties_intro. unfold branch_market. repeat constructor; simpl; intros F; discriminate F.
  - apply Props_TreeAuction.no_ties_intro. unfold raised_branches. repeat constructor; simpl; intros F; discriminate F.
  - unfold values_within. apply Props_TreeAuction.in_values. repeat constructor; unfold Qle; simpl; lia.
  - unfold values_within. apply Props_TreeAuction.in_values. repeat constructor; unfold Qle; simpl; lia.
  - unfold Qle; simpl; lia.
  - apply Props_Initial.two_optimal.
  - exact Props_Initial.two_distinct.
  - intros i Hi. cbn in Hi. repeat destruct Hi as [<-|Hi]; try (vm_compute; lia); destruct Hi.
  - eexists. eexists. split; [vm_compute; reflexivity|]. split; [vm_compute; reflexivity|]. split; [reflexivity|]. split; [reflexivity|].
    split; [vm_compute; lia|]. intros i Hi. cbn in Hi. cbn [tt_prices tt_cats].
    repeat destruct Hi as [<-|Hi]; try destruct Hi; unfold branch_market, raised_branches, raised_nodes; cbn [nth].
    + left_node (@nil Q).
    + left_node [-(4); -(6)].
    + left_node [-(9)].
    + left_node [-(5); -(6); -(8)].
    + left_node [-(9)].
    + left_node [-(9)].
Qed.

(** Buyers 10, 9 and 8, sellers -1, -5 and -20: one deal at the prices 9 and -5, with and without the heuristic. *)
Example C115_mcafee_witness : forall h, let m := two_sides [10; 9; 8] [-(1); -(5); -(20)] in let m' := two_sides [9; 9; 8] [2; -(5); -(20)] in
  let new j := match j with 0%nat => [9] | _ => [2] end in
  exists t t' P deals rem, cap_suffices 60 m [1; 1]%nat /\ cap_suffices 70 m' [1; 1]%nat
  /\ optimal_trade 60 m [1; 1]%nat true = Ok (deals, rem) /\ (num_of_deals t < length deals)%nat
  /\ mcafee_M 1000 60 m [1; 1]%nat h = Ok t /\ mcafee_M 1000 70 m' [1; 1]%nat h = Ok t' /\ tprices t = Some P /\ changes_left P m (tcats t) new m'
  /\ num_of_deals t = 1%nat /\ P = [9; -(5)].
Proof.
  assert (D : changes_left [9; -(5)] (two_sides [10; 9; 8] [-(1); -(5); -(20)]) [mkCat "buyer" [10]; mkCat "seller" [-(1)]]
                (fun j => match j with 0%nat => [9] | _ => [2] end) (two_sides [9; 9; 8] [2; -(5); -(20)])).
  { apply left_sides; [left_with [9; 8]|left_with [-(5); -(20)]]. }
  intros [|]; cbv zeta; do 5 eexists;
  (split; [exists 0%nat; do 2 eexists; split; [reflexivity|]; split; [reflexivity|]; split; [lia|vm_compute; lia]|]);
  (split; [exists 0%nat; do 2 eexists; split; [reflexivity|]; split; [reflexivity|]; split; [lia|vm_compute; lia]|]);
  (split; [vm_compute; reflexivity|]);
  (split; [shelve|]); (split; [vm_compute; reflexivity|]); (split; [vm_compute; reflexivity|]); (split; [reflexivity|]); (split; [exact D|]); split; reflexivity.
  Unshelve. all: vm_compute; lia.
Qed.

(** Buyers 9, 8 and 4, sellers -3, -4 and -6: the candidate price is 5, both deals are kept. *)
Example C115_mcafee_two_witness : let m := two_sides [9; 8; 4] [-(3); -(4); -(6)] in let m' := two_sides [6; 5; 4] [-(1); -(5); -(6)] in
  let new j := match j with 0%nat => [6; 5] | _ => [-(1); -(5)] end in
  exists t t' P, cap_suffices 60 m [1; 1]%nat /\ cap_suffices 70 m' [1; 1]%nat /\ buyers_and_sellers m
  /\ (forall c v, In c m -> In v (cvalues c) -> 2 * v < 1000) /\ (forall i v, (i < length m)%nat -> In v (new i) -> nth i P 0 < 0 -> v < 0)
  /\ mcafee_M 1000 60 m [1; 1]%nat true = Ok t /\ mcafee_M 1000 70 m' [1; 1]%nat true = Ok t' /\ tprices t = Some P /\ changes_left P m (tcats t) new m'
  /\ num_of_deals t = 2%nat /\ map Qred P = [5; -(5)].
Proof.
  cbv zeta. do 3 eexists.
  split; [exists 0%nat; do 2 eexists; split; [reflexivity|]; split; [reflexivity|]; split; [lia|vm_compute; lia]|].
  split; [exists 0%nat; do 2 eexists; split; [reflexivity|]; split; [reflexivity|]; split; [lia|vm_compute; lia]|].
  split; [do 2 eexists; split; [left; reflexivity|]; split; intros v Hv; vm_compute in Hv; repeat (destruct Hv as [<-|Hv]; [vm_compute; try discriminate; reflexivity|]); destruct Hv|].
  split; [intros c v Hc Hv; repeat (destruct Hc as [<-|Hc]; [vm_compute in Hv; repeat (destruct Hv as [<-|Hv]; [vm_compute; reflexivity|]); destruct Hv|]); destruct Hc|].
  split; [shelve|].
  split; [vm_compute; reflexivity|]. split; [vm_compute; reflexivity|]. split; [reflexivity|].
  split; [apply left_sides; [left_with [4]|left_with [-(6)]]|]. split; reflexivity.
  Unshelve. intros [|[|i]] v Hi Hv; [vm_compute; discriminate| |cbn in Hi; lia]. cbn in Hv. intros _.
  repeat (destruct Hv as [<-|Hv]; [vm_compute; reflexivity|]). destruct Hv.
Qed.

(** ** The limits *)

(** A remaining agent may not go below the price: the buyer 15 becomes 9, the price is 10, and the price goes down to 9. *)
Theorem C115_below_the_price_refuted : exists t t' P P',
  ascending_auction_M 1000 60 old_market [1; 1]%nat = Ok t
  /\ ascending_auction_M 1000 60 (two_sides [20; 9; 10; 8; 3] [-(1); -(4); -(9); -(12); -(30)]) [1; 1]%nat = Ok t'
  /\ tprices t = Some P /\ tprices t' = Some P' /\ nth 0 P 0 == 10 /\ nth 0 P' 0 == 9.
Proof.
  do 4 eexists. split; [vm_compute; reflexivity|]. split; [vm_compute; reflexivity|]. split; [reflexivity|]. split; [reflexivity|]. split; vm_compute; reflexivity.
Qed.
Print Assumptions C115_below_the_price_refuted.

(** McAfee's protocol with the heuristic: the price of the sellers is -5; when they do not ask for money (new values 1), the candidate price is refused. *)
Theorem C115_mcafee_sign_refuted : let m := two_sides [9; 8; 4] [-(3); -(4); -(6)] in let m' := two_sides [9; 8; 4] [1; 1; -(6)] in
  exists t t' P, mcafee_M 1000 60 m [1; 1]%nat true = Ok t /\ mcafee_M 1000 60 m' [1; 1]%nat true = Ok t'
  /\ tprices t = Some P /\ changes_left P m (tcats t) (fun j => match j with 0%nat => [9; 8] | _ => [1; 1] end) m'
  /\ num_of_deals t = 2%nat /\ num_of_deals t' = 1%nat.
Proof.
  cbv zeta. do 3 eexists. split; [vm_compute; reflexivity|]. split; [vm_compute; reflexivity|]. split; [reflexivity|].
  split; [apply left_sides; [left_with [4]|left_with [-(6)]]|]. split; reflexivity.
Qed.
Print Assumptions C115_mcafee_sign_refuted.

(** With the heuristic and three categories: the candidate price is 16/3, and a seller -4 is left out. When the seller who trades asks for 5
    instead of 1, less than the price, the seller -4 trades instead. *)
Theorem C115_mcafee_three_refuted : 
  let m := [new_category "buyer" [30; 3]; new_category "seller" [-(1); -(4)]; new_category "mediator" [-(1); -(9)]] in
  let m' := [new_category "buyer" [30; 3]; new_category "seller" [-(5); -(4)]; new_category "mediator" [-(1); -(9)]] in
  exists t t' P P', mcafee_M 1000 60 m [1; 1; 1]%nat true = Ok t /\ mcafee_M 1000 60 m' [1; 1; 1]%nat true = Ok t'
  /\ tprices t = Some P /\ tprices t' = Some P'
  /\ changes_left P m (tcats t) (fun j => match j with 0%nat => [30] | 1%nat => [-(5)] | _ => [-(1)] end) m'
  /\ num_of_deals t = 1%nat /\ nth 0 P 0 == 16 # 3 /\ nth 0 P' 0 == 17 # 3 /\ cvalues (nth 1 (tcats t') (mkCat "" [])) = [-(4)].
Proof.
  cbv zeta. do 4 eexists. split; [vm_compute; reflexivity|]. split; [vm_compute; reflexivity|]. split; [reflexivity|]. split; [reflexivity|].
  split.
  { split; [reflexivity|]. intros [|[|[|j]]] Hj; [left_with [3]|idtac|left_with [-(9)]|cbn in Hj; lia].
    split; [reflexivity|]. split; [reflexivity|]. split; [repeat constructor; unfold Qle; simpl; discriminate|].
    exists [-(4)]. split; apply perm_values; [apply Permutation_refl|]. apply perm_swap. }
  split; [reflexivity|]. split; [vm_compute; reflexivity|]. split; [vm_compute; reflexivity|]. reflexivity.
Qed.
Print Assumptions C115_mcafee_three_refuted.
