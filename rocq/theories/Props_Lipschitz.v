(** * C113: a small change of the values causes a small change of the prices *)

From Coq Require Import String List Arith QArith Qabs Permutation Lia Lqa.
From Verif Require Import Base Model_Agents Model_Trade Model_Prices Model_Market Model_Ascending Model_TradeReduction Model_McAfee
  Spec_Market Spec_Trade Spec_Ascending Spec_TradeReduction Spec_Statics Spec_Reorder Spec_RecipeTree Spec_TreeAuction Spec_Better Spec_Lipschitz
  Model_RecipeTree Model_TreeAuction Proof_Lipschitz Proof_Lipschitz2 Proof_Lipschitz3 Props_Better.
From Verif Require Props_TreeAuction Props_Initial.
Import ListNotations.
Open Scope Q_scope.

(** Two markets with the same numbers of agents, whose values differ by at most eps each. Multiplied by the number of agents that a
    procurement-set takes from a category, its price differs by at most eps times the larger of this number and the number of all other
    agents in a procurement-set (Spec_Lipschitz.leverage). With one buyer and one seller per procurement-set, the price differs by at
    most eps. *)

Theorem C113_ascending : forall M eps rounds rounds' m m' recipe t t' P P', 0 < M -> 0 <= eps ->
  values_at_least (- M) m -> values_at_least (- M) m' -> near eps m m' ->
  ascending_auction_M M rounds m recipe = Ok t -> ascending_auction_M M rounds' m' recipe = Ok t' ->
  tprices t = Some P -> tprices t' = Some P' ->
  forall j, (j < length m)%nat -> (0 < nth j recipe 0)%nat ->
    Qn (nth j recipe 0%nat) * Qabs (nth j P' 0 - nth j P 0) <= eps * Qn (leverage recipe j).
Proof. exact ascending_near. Qed.
Print Assumptions C113_ascending.

(** Trade reduction, with any recipe, when some procurement-set is worth while in both markets. *)
Theorem C113_trade_reduction : forall M cap eps m m' recipe z t t' deals rem deals' rem' P P', 0 <= eps ->
  values_at_least (- M) m -> values_at_least (- M) m' -> cap_suffices cap m recipe -> cap_suffices cap m' recipe -> near eps m m' ->
  trade_reduction_M M cap m recipe z = Ok t -> trade_reduction_M M cap m' recipe z = Ok t' ->
  optimal_trade cap m recipe true = Ok (deals, rem) -> deals <> [] -> optimal_trade cap m' recipe true = Ok (deals', rem') -> deals' <> [] ->
  tprices t = Some P -> tprices t' = Some P' ->
  forall j, (j < length m)%nat -> (0 < nth j recipe 0)%nat ->
    Qn (nth j recipe 0%nat) * Qabs (nth j P' 0 - nth j P 0) <= eps * Qn (leverage recipe j).
Proof. exact reduction_near. Qed.
Print Assumptions C113_trade_reduction.

(** The tree auction: the agents of one category raise their values by at most eps each. Each price of the tree changes by at most eps. *)
Theorem C113_tree : forall M B eps p p' fuel fuel' m m' c st r r' rs, 0 < M -> 0 <= eps -> length m' = length m ->
  tree_auction M p fuel m st = Ok r -> tree_auction M p' fuel' m' st = Ok r' -> recipes (length m) (tt_tree r) = Ok rs ->
  distinct_categories (tt_tree r) -> In c (node_indices (tt_tree r)) ->
  initial_prices_ok (length m) rs (- M) p -> initial_prices_ok (length m) rs (- M) p' ->
  values_within B m -> values_within B m' -> 2 * B * Qn (height (tt_tree r)) <= M -> no_ties m -> no_ties m' ->
  (forall i, In i (node_indices (tt_tree r)) -> (0 < csize (nth i m no_category))%nat) ->
  improves m m' -> (forall j, (j < length m)%nat -> j <> c -> Permutation (cvalues (nth j m no_category)) (cvalues (nth j m' no_category))) ->
  near eps m m' -> (0 < csize (nth (tindex (tt_tree r)) (tt_cats r) no_category))%nat ->
  forall j, In j (node_indices (tt_tree r)) -> Qabs (nth j (tt_prices r') 0 - nth j (tt_prices r) 0) <= eps.
Proof. exact tree_near. Qed.
Print Assumptions C113_tree.

(** ** Witnesses *)

Lemma near_sides : forall eps b b' s s', Permutation (cvalues (new_category "buyer" b')) b' -> Permutation (cvalues (new_category "seller" s')) s' ->
  Forall2 (fun v v' => Qabs (v' - v) <= eps) (cvalues (new_category "buyer" b)) b' ->
  Forall2 (fun v v' => Qabs (v' - v) <= eps) (cvalues (new_category "seller" s)) s' -> near eps (two_sides b s) (two_sides b' s').
Proof. intros eps b b' s s' P1 P2 H1 H2. constructor; [exists b'; auto|]. constructor; [exists s'; auto|constructor]. Qed.

Ltac near_by_computation :=
  apply near_sides; [vm_compute; apply Permutation_refl|vm_compute; apply Permutation_refl|vm_compute; repeat constructor; discriminate|vm_compute; repeat constructor; discriminate].

(** A procurement-set takes a buyer and two sellers. The values change by at most 1/4: a seller gets 7 + 1/4 instead of 7, and a buyer
    pays 14 + 1/2 instead of 14. The bound is reached for both categories. *)
Definition before : market := two_sides [18; 15; 10] [0; -(2); -(3); -(4); -(7)].
Definition after : market := two_sides [18; 15; 39 # 4] [0; -(2); -(3); -(15 # 4); -(29 # 4)].

Example C113_ascending_witness : exists t t' P P', 0 < 1000 /\ 0 <= 1 # 4 /\ values_at_least (- 1000) before /\ values_at_least (- 1000) after
  /\ near (1 # 4) before after
  /\ ascending_auction_M 1000 60 before [1; 2]%nat = Ok t /\ ascending_auction_M 1000 60 after [1; 2]%nat = Ok t'
  /\ tprices t = Some P /\ tprices t' = Some P'
  /\ Qn 1 * Qabs (nth 0 P' 0 - nth 0 P 0) == (1 # 4) * Qn (leverage [1; 2]%nat 0)
  /\ Qn 2 * Qabs (nth 1 P' 0 - nth 1 P 0) == (1 # 4) * Qn (leverage [1; 2]%nat 1).
Proof.
  do 4 eexists. split; [reflexivity|]. split; [discriminate|]. split; [concrete_values|]. split; [concrete_values|].
  split; [near_by_computation|]. split; [vm_compute; reflexivity|]. split; [vm_compute; reflexivity|].
  split; [reflexivity|]. split; [reflexivity|]. split; vm_compute; reflexivity.
Qed.

Example C113_trade_reduction_witness : exists t t' deals rem deals' rem' P P', 0 <= 1 # 4 /\ values_at_least (- 1000) before /\ values_at_least (- 1000) after
  /\ cap_suffices 60 before [1; 2]%nat /\ cap_suffices 60 after [1; 2]%nat /\ near (1 # 4) before after
  /\ trade_reduction_M 1000 60 before [1; 2]%nat false = Ok t /\ trade_reduction_M 1000 60 after [1; 2]%nat false = Ok t'
  /\ optimal_trade 60 before [1; 2]%nat true = Ok (deals, rem) /\ deals <> [] /\ optimal_trade 60 after [1; 2]%nat true = Ok (deals', rem') /\ deals' <> []
  /\ tprices t = Some P /\ tprices t' = Some P'
  /\ Qn 1 * Qabs (nth 0 P' 0 - nth 0 P 0) == (1 # 4) * Qn (leverage [1; 2]%nat 0)
  /\ Qn 2 * Qabs (nth 1 P' 0 - nth 1 P 0) == (1 # 4) * Qn (leverage [1; 2]%nat 1).
Proof.
  do 8 eexists. split; [discriminate|]. split; [concrete_values|]. split; [concrete_values|].
  split; [exists 0%nat; do 2 eexists; split; [reflexivity|]; split; [reflexivity|]; split; [lia|vm_compute; lia]|].
  split; [exists 0%nat; do 2 eexists; split; [reflexivity|]; split; [reflexivity|]; split; [lia|vm_compute; lia]|].
  split; [near_by_computation|]. split; [vm_compute; reflexivity|]. split; [vm_compute; reflexivity|].
  split; [vm_compute; reflexivity|]. split; [discriminate|]. split; [vm_compute; reflexivity|]. split; [discriminate|].
  split; [reflexivity|]. split; [reflexivity|]. split; vm_compute; reflexivity.
Qed.

(** Categories 0 - 1 - 2 - 3 and 0 - 4 - 5. An agent of category 2 raises the value from -9 to -8.5; the price of category 2 goes up by
    1/2 and that of category 3 goes down by 1/2. *)
Example C113_tree_witness : let m := branch_market [-(4); -(9)] in let m' := branch_market [-(4); -(17 # 2)] in
  no_ties m /\ no_ties m' /\ values_within 30 m /\ values_within 30 m' /\ 2 * 30 * Qn (height Props_Initial.two_tree) <= MAX_VALUE
  /\ initial_prices_ok 6 Props_Initial.two_recipes (- MAX_VALUE) Props_Initial.two_p
  /\ distinct_categories Props_Initial.two_tree /\ In 2%nat (node_indices Props_Initial.two_tree)
  /\ (forall i, In i (node_indices Props_Initial.two_tree) -> (0 < csize (nth i m no_category))%nat)
  /\ improves m m' /\ (forall j, (j < length m)%nat -> j <> 2%nat -> Permutation (cvalues (nth j m no_category)) (cvalues (nth j m' no_category)))
  /\ near (1 # 2) m m'
  /\ exists r r', tree_auction MAX_VALUE Props_Initial.two_p 30 m Props_Initial.two_struct = Ok r
     /\ tree_auction MAX_VALUE Props_Initial.two_p 30 m' Props_Initial.two_struct = Ok r'
     /\ tt_tree r = Props_Initial.two_tree /\ recipes 6 (tt_tree r) = Ok Props_Initial.two_recipes
     /\ (0 < csize (nth 0 (tt_cats r) no_category))%nat
     /\ Qabs (nth 2 (tt_prices r') 0 - nth 2 (tt_prices r) 0) == 1 # 2 /\ Qabs (nth 3 (tt_prices r') 0 - nth 3 (tt_prices r) 0) == 1 # 2.
Proof.
  cbv zeta. split; [|split; [|split; [|split; [|split; [|split; [|split; [|split; [|split; [|split; [|split; [|split]]]]]]]]]]].
  - apply Props_TreeAuction.no_ties_intro. unfold branch_market. repeat constructor; simpl; intros F; discriminate F.
  - apply Props_TreeAuction.no_ties_intro. unfold branch_market. repeat constructor; simpl; intros F; discriminate F.
  - unfold values_within. apply Props_TreeAuction.in_values. repeat constructor; unfold Qle; simpl; lia.
  - unfold values_within. apply Props_TreeAuction.in_values. repeat constructor; unfold Qle; simpl; lia.
  - unfold Qle; simpl; lia.
  - apply Props_Initial.two_optimal.
  - exact Props_Initial.two_distinct.
  - cbn. tauto.
  - intros i Hi. cbn in Hi. repeat destruct Hi as [<-|Hi]; try (vm_compute; lia); destruct Hi.
  - assert (R : forall l : list Q, Forall2 Qle l l) by (intros l; induction l; constructor; [apply Qle_refl|assumption]).
    assert (K : forall x, category_improves x x).
    { intros x. exists (cvalues x), []. split; [rewrite app_nil_r; apply Permutation_refl|apply R]. }
    constructor; [apply K|]. constructor; [apply K|]. constructor; [|repeat (constructor; [apply K|]); constructor].
    exists [-(4); -(17 # 2)], []. split; [apply Permutation_refl|]. repeat constructor; discriminate.
  - intros [|[|[|[|[|[|j]]]]]] Hj NJ; try congruence; apply Permutation_refl.
  - unfold near, branch_market. repeat (constructor; [eexists; split; [apply Permutation_refl|vm_compute; repeat constructor; discriminate]|]). constructor.
  - eexists. eexists. split; [vm_compute; reflexivity|]. split; [vm_compute; reflexivity|]. split; [reflexivity|]. split; [reflexivity|].
    split; [vm_compute; lia|]. split; vm_compute; reflexivity.
Qed.

(** ** The limits *)

(** McAfee's protocol does not have this property. (1) A buyer lowers the value 9 by 1/100; without the heuristic, the sellers get 1 instead of 9
    (and nobody trades). (2) A seller asks for 15 + 1/50 instead of 15; with the heuristic, the sellers get 1 instead of 10. *)
Theorem C113_mcafee_refuted :
  (exists t t' P P', near (1 # 100) (two_sides [10; 9] [-(1); -(9)]) (two_sides [10; 899 # 100] [-(1); -(9)])
    /\ mcafee_M 1000 60 (two_sides [10; 9] [-(1); -(9)]) [1; 1]%nat false = Ok t
    /\ mcafee_M 1000 60 (two_sides [10; 899 # 100] [-(1); -(9)]) [1; 1]%nat false = Ok t'
    /\ tprices t = Some P /\ tprices t' = Some P' /\ Qabs (nth 1 P' 0 - nth 1 P 0) == 8)
  /\ (exists t t' P P', near (1 # 50) (two_sides [10; 5] [-(1); -(15)]) (two_sides [10; 5] [-(1); -(751 # 50)])
    /\ mcafee_M 1000 60 (two_sides [10; 5] [-(1); -(15)]) [1; 1]%nat true = Ok t
    /\ mcafee_M 1000 60 (two_sides [10; 5] [-(1); -(751 # 50)]) [1; 1]%nat true = Ok t'
    /\ tprices t = Some P /\ tprices t' = Some P' /\ Qabs (nth 1 P' 0 - nth 1 P 0) == 9).
Proof.
  split; do 4 eexists; (split; [near_by_computation|]); (split; [vm_compute; reflexivity|]); (split; [vm_compute; reflexivity|]);
    (split; [reflexivity|]); (split; [reflexivity|]); vm_compute; reflexivity.
Qed.
Print Assumptions C113_mcafee_refuted.

(** What does jump in the ascending auction: (1) the number of deals (a buyer lowers the value 13 by 1/100, one of two deals is lost);
    (2) the utility of an agent (a buyer lowers the value 10 by 1/100, the seller who asks for 1 wins for sure and no longer in every
    second case). (3) Trade reduction sets all prices to 0 when no procurement-set is worth while. *)
Theorem C113_deals_refuted :
  (exists t t', near (1 # 100) (two_sides [20; 13; 10] [-(1); -(10); -(13)]) (two_sides [20; 1299 # 100; 10] [-(1); -(10); -(13)])
    /\ ascending_auction_M 1000 60 (two_sides [20; 13; 10] [-(1); -(10); -(13)]) [1; 1]%nat = Ok t
    /\ ascending_auction_M 1000 60 (two_sides [20; 1299 # 100; 10] [-(1); -(10); -(13)]) [1; 1]%nat = Ok t'
    /\ num_of_deals t = 2%nat /\ num_of_deals t' = 1%nat)
  /\ (exists t t', near (1 # 100) (two_sides [20; 10] [-(1); -(10)]) (two_sides [20; 999 # 100] [-(1); -(10)])
    /\ ascending_auction_M 1000 60 (two_sides [20; 10] [-(1); -(10)]) [1; 1]%nat = Ok t
    /\ ascending_auction_M 1000 60 (two_sides [20; 999 # 100] [-(1); -(10)]) [1; 1]%nat = Ok t'
    /\ utility t 1 0 (-(1)) == 9 # 2 /\ utility t' 1 0 (-(1)) == 9)
  /\ (exists t t' P P', near (1 # 100) (two_sides [10; 1] [-(10); -(11)]) (two_sides [999 # 100; 1] [-(10); -(11)])
    /\ trade_reduction_M 1000 60 (two_sides [10; 1] [-(10); -(11)]) [1; 1]%nat true = Ok t
    /\ trade_reduction_M 1000 60 (two_sides [999 # 100; 1] [-(10); -(11)]) [1; 1]%nat true = Ok t'
    /\ tprices t = Some P /\ tprices t' = Some P' /\ nth 0 P 0 == 10 /\ nth 0 P' 0 == 0).
Proof.
  split; [|split].
  - do 2 eexists. split; [near_by_computation|]. split; [vm_compute; reflexivity|]. split; [vm_compute; reflexivity|]. split; vm_compute; reflexivity.
  - do 2 eexists. split; [near_by_computation|]. split; [vm_compute; reflexivity|]. split; [vm_compute; reflexivity|]. split; vm_compute; reflexivity.
  - do 4 eexists. split; [near_by_computation|]. split; [vm_compute; reflexivity|]. split; [vm_compute; reflexivity|].
    split; [reflexivity|]. split; [reflexivity|]. split; vm_compute; reflexivity.
Qed.
Print Assumptions C113_deals_refuted.
