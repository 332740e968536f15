(** * C112: when a category gets better, its own agents pay more and the agents of the other categories pay less *)

From Coq Require Import String List Arith QArith Permutation Lia Lqa.
From Verif Require Import Base Model_Agents Model_Trade Model_Prices Model_Market Model_Ascending Model_TradeReduction Model_McAfee
  Spec_Market Spec_Trade Spec_Ascending Spec_TradeReduction Spec_Demos Spec_Statics Spec_Reorder Spec_RecipeTree Spec_TreeAuction Spec_Better
  Model_RecipeTree Model_TreeAuction Proof_TA1 Proof_TA4 Proof_TA7 Proof_Better Proof_Better2 Proof_Better4.
From Verif Require Props_TreeAuction Props_Initial.
Import ListNotations.
Open Scope Q_scope.

(** A price is what an agent of the category pays; it is negative for agents that are paid. *)

(** ** The ascending auction, with any recipe *)

(** The market gets better in some categories. In each category that stays as it was, the price does not go up, and all agents that
    are left with a value above the price are left in the better market too. If only one category got better, its price does not go
    down. *)
Theorem C112_ascending : forall M rounds rounds' m m' recipe t t' P P', 0 < M -> values_at_least (- M) m -> values_at_least (- M) m' ->
  improves m m' -> ascending_auction_M M rounds m recipe = Ok t -> ascending_auction_M M rounds' m' recipe = Ok t' ->
  tprices t = Some P -> tprices t' = Some P' ->
  (forall j, (j < length m)%nat -> Permutation (cvalues (nth j m no_category)) (cvalues (nth j m' no_category)) ->
     nth j P' 0 <= nth j P 0
     /\ forall v, In v (cvalues (nth j (tcats t) no_category)) -> nth j P 0 < v -> In v (cvalues (nth j (tcats t') no_category)))
  /\ (forall c, (c < length m)%nat -> (forall j, (j < length m)%nat -> j <> c -> Permutation (cvalues (nth j m no_category)) (cvalues (nth j m' no_category))) ->
     nth c P 0 <= nth c P' 0).
Proof. exact ascending_better. Qed.
Print Assumptions C112_ascending.

(** ** Trade reduction, with a recipe of ones *)

Theorem C112_trade_reduction : forall M cap m m' recipe z t t' deals rem P P', 0 < M -> all_ones recipe ->
  values_small M recipe m -> values_small M recipe m' -> cap_suffices cap m recipe -> cap_suffices cap m' recipe ->
  improves m m' -> trade_reduction_M M cap m recipe z = Ok t -> trade_reduction_M M cap m' recipe z = Ok t' ->
  optimal_trade cap m recipe z = Ok (deals, rem) -> deals <> [] -> tprices t = Some P -> tprices t' = Some P' ->
  (forall j, (j < length m)%nat -> Permutation (cvalues (nth j m no_category)) (cvalues (nth j m' no_category)) -> nth j P' 0 <= nth j P 0)
  /\ (forall c, (c < length m)%nat -> (forall j, (j < length m)%nat -> j <> c -> Permutation (cvalues (nth j m no_category)) (cvalues (nth j m' no_category))) ->
     nth c P 0 <= nth c P' 0).
Proof. exact reduction_better. Qed.
Print Assumptions C112_trade_reduction.

(** ** McAfee's protocol without the heuristic: the first half only *)

Theorem C112_mcafee : forall M cap m m' recipe t t' deals rem P P', improves m m' ->
  mcafee_M M cap m recipe false = Ok t -> mcafee_M M cap m' recipe false = Ok t' ->
  optimal_trade cap m recipe true = Ok (deals, rem) -> deals <> [] -> tprices t = Some P -> tprices t' = Some P' ->
  forall j, (j < length m)%nat -> Permutation (cvalues (nth j m no_category)) (cvalues (nth j m' no_category)) -> nth j P' 0 <= nth j P 0.
Proof. exact mcafee_better. Qed.
Print Assumptions C112_mcafee.

(** ** The auction with a recipe tree *)

(** One category c of the tree gets better. If the auction left some agent of the root category, then it does so in the better market;
    the price of c does not go down; the price of a category that some recipe takes together with c (a complement) does not go up;
    the price of any other category of the tree (a substitute) does not go down. *)
Theorem C112_tree : forall M B p p' fuel fuel' m m' c st r r' rs, 0 < M -> length m' = length m ->
  tree_auction M p fuel m st = Ok r -> tree_auction M p' fuel' m' st = Ok r' -> recipes (length m) (tt_tree r) = Ok rs ->
  distinct_categories (tt_tree r) -> In c (node_indices (tt_tree r)) ->
  initial_prices_ok (length m) rs (- M) p -> initial_prices_ok (length m) rs (- M) p' ->
  values_within B m -> values_within B m' -> 2 * B * Qn (height (tt_tree r)) <= M -> no_ties m -> no_ties m' ->
  (forall i, In i (node_indices (tt_tree r)) -> (0 < csize (nth i m no_category))%nat) ->
  improves m m' -> (forall j, (j < length m)%nat -> j <> c -> Permutation (cvalues (nth j m no_category)) (cvalues (nth j m' no_category))) ->
  (0 < csize (nth (tindex (tt_tree r)) (tt_cats r) no_category))%nat ->
  (0 < csize (nth (tindex (tt_tree r)) (tt_cats r') no_category))%nat
  /\ nth c (tt_prices r) 0 <= nth c (tt_prices r') 0
  /\ forall j, In j (node_indices (tt_tree r)) -> j <> c ->
       (related (tt_tree r) j c -> nth j (tt_prices r') 0 <= nth j (tt_prices r) 0)
       /\ (~ related (tt_tree r) j c -> nth j (tt_prices r) 0 <= nth j (tt_prices r') 0).
Proof. exact tree_better. Qed.
Print Assumptions C112_tree.

(** ** Witnesses *)

Definition two_sides (buyers sellers : list Q) : market := [new_category "buyer" buyers; new_category "seller" sellers].
Definition five_sellers : list Q := [-(1); -(3); -(4); -(5); -(8)].


(** The sellers stay as they were; the first values of the buyers go up and there may be more of them. *)
Lemma better_buyers : forall (b kept extra s : list Q), Permutation (cvalues (new_category "buyer" (kept ++ extra))) (kept ++ extra) ->
  Forall2 Qle (cvalues (new_category "buyer" b)) kept -> improves (two_sides b s) (two_sides (kept ++ extra) s).
Proof.
  intros b kept extra s H1 H2. constructor; [|constructor; [|constructor]].
  - exists kept, extra. split; assumption.
  - exists (cvalues (new_category "seller" s)), []. split; [rewrite app_nil_r; apply Permutation_refl|].
    induction (cvalues (new_category "seller" s)); constructor; [apply Qle_refl|assumption].
Qed.

Lemma better_sellers : forall (b kept extra s : list Q), Permutation (cvalues (new_category "seller" (kept ++ extra))) (kept ++ extra) ->
  Forall2 Qle (cvalues (new_category "seller" s)) kept -> improves (two_sides b s) (two_sides b (kept ++ extra)).
Proof.
  intros b kept extra s H1 H2. constructor; [|constructor; [|constructor]].
  - exists (cvalues (new_category "buyer" b)), []. split; [rewrite app_nil_r; apply Permutation_refl|].
    induction (cvalues (new_category "buyer" b)); constructor; [apply Qle_refl|assumption].
  - exists kept, extra. split; assumption.
Qed.

Ltac concrete_values :=
  intros c v Hc Hv; vm_compute in Hc; repeat (destruct Hc as [<-|Hc]); try contradiction;
  vm_compute in Hv; repeat (destruct Hv as [<-|Hv]); try contradiction; vm_compute; discriminate.

(** One procurement-set takes a buyer and two sellers. The buyers with the values 14 and 9 raise them to 15 and 14, and another buyer comes:
    a buyer pays 15 instead of 14, a seller gets 15/2 instead of 7. *)
Example C112_ascending_witness : exists t t' P P', 0 < 1000
  /\ values_at_least (- 1000) (two_sides [17; 14; 9] five_sellers) /\ values_at_least (- 1000) (two_sides ([17; 15; 14] ++ [10]) five_sellers)
  /\ improves (two_sides [17; 14; 9] five_sellers) (two_sides ([17; 15; 14] ++ [10]) five_sellers)
  /\ Permutation (cvalues (nth 1 (two_sides [17; 14; 9] five_sellers) no_category)) (cvalues (nth 1 (two_sides ([17; 15; 14] ++ [10]) five_sellers) no_category))
  /\ ascending_auction_M 1000 60 (two_sides [17; 14; 9] five_sellers) [1; 2]%nat = Ok t
  /\ ascending_auction_M 1000 60 (two_sides ([17; 15; 14] ++ [10]) five_sellers) [1; 2]%nat = Ok t'
  /\ tprices t = Some P /\ tprices t' = Some P'
  /\ nth 0 P 0 < nth 0 P' 0 /\ nth 1 P' 0 < nth 1 P 0.
Proof.
  do 4 eexists. split; [reflexivity|]. split; [concrete_values|]. split; [concrete_values|].
  split; [apply better_buyers; [vm_compute; apply Permutation_refl|vm_compute; repeat constructor; discriminate]|].
  split; [apply Permutation_refl|]. split; [vm_compute; reflexivity|]. split; [vm_compute; reflexivity|].
  split; [reflexivity|]. split; [reflexivity|]. split; vm_compute; reflexivity.
Qed.

(** A buyer with value 13 comes: the buyers pay 8 instead of 6, the sellers get 8 instead of 6. *)
Example C112_trade_reduction_witness : exists t t' deals rem P P', 0 < 1000 /\ all_ones [1; 1]%nat
  /\ values_small 1000 [1; 1]%nat (two_sides [17; 14; 9; 6] five_sellers) /\ values_small 1000 [1; 1]%nat (two_sides ([17; 14; 13; 9] ++ [6]) five_sellers)
  /\ cap_suffices 60 (two_sides [17; 14; 9; 6] five_sellers) [1; 1]%nat /\ cap_suffices 60 (two_sides ([17; 14; 13; 9] ++ [6]) five_sellers) [1; 1]%nat
  /\ improves (two_sides [17; 14; 9; 6] five_sellers) (two_sides ([17; 14; 13; 9] ++ [6]) five_sellers)
  /\ trade_reduction_M 1000 60 (two_sides [17; 14; 9; 6] five_sellers) [1; 1]%nat false = Ok t
  /\ trade_reduction_M 1000 60 (two_sides ([17; 14; 13; 9] ++ [6]) five_sellers) [1; 1]%nat false = Ok t'
  /\ optimal_trade 60 (two_sides [17; 14; 9; 6] five_sellers) [1; 1]%nat false = Ok (deals, rem) /\ deals <> []
  /\ tprices t = Some P /\ tprices t' = Some P'
  /\ nth 0 P 0 < nth 0 P' 0 /\ nth 1 P' 0 < nth 1 P 0.
Proof.
  assert (SM : forall b, values_at_least (- 1000) (two_sides b five_sellers) -> (forall v, In v (cvalues (new_category "buyer" b)) -> v <= 17) ->
    values_small 1000 [1; 1]%nat (two_sides b five_sellers)).
  { intros b H H'. split; [exact H|]. exists [17; 0]. split.
    - constructor; [split; [discriminate|exact H']|]. constructor; [|constructor]. split; [discriminate|]. intros v Hv. vm_compute in Hv.
      repeat (destruct Hv as [<-|Hv]); try contradiction; vm_compute; discriminate.
    - intros [|[|l]] r u Hr Hp Hu; cbn in Hr, Hu; [| |destruct l; discriminate]; injection Hr; injection Hu; intros <- <-; vm_compute; reflexivity. }
  assert (UP : forall l, Forall (fun v => v <= 17) l -> forall v, In v l -> v <= 17) by (intros l H; apply Forall_forall; exact H).
  do 6 eexists. split; [reflexivity|]. split; [repeat constructor|].
  split; [apply SM; [concrete_values|apply UP; vm_compute; repeat constructor; discriminate]|].
  split; [apply SM; [concrete_values|apply UP; vm_compute; repeat constructor; discriminate]|].
  split; [exists 0%nat; do 2 eexists; split; [reflexivity|]; split; [reflexivity|]; split; [lia|vm_compute; lia]|].
  split; [exists 0%nat; do 2 eexists; split; [reflexivity|]; split; [reflexivity|]; split; [lia|vm_compute; lia]|].
  split; [apply better_buyers; [vm_compute; apply Permutation_refl|vm_compute; repeat constructor; discriminate]|].
  split; [vm_compute; reflexivity|]. split; [vm_compute; reflexivity|]. split; [vm_compute; reflexivity|]. split; [discriminate|].
  split; [reflexivity|]. split; [reflexivity|]. split; vm_compute; reflexivity.
Qed.

(** The limits. (1) Trade reduction when a procurement-set takes two sellers: a seller who asks for 8 comes, and the sellers
    get 7 instead of 3. (2) McAfee's protocol: a buyer with value 5 comes, and the buyers pay 5 instead of 9. The first half of
    the theorem holds in this case, so it is the witness for it too: the sellers get 3 instead of 2. *)
Theorem C112_own_price_refuted :
  (exists t t' P P', improves (two_sides [16; 14] [-(1); -(1); -(3)]) (two_sides [16; 14] ([-(1); -(1); -(3)] ++ [-(8)]))
    /\ trade_reduction_M 1000 60 (two_sides [16; 14] [-(1); -(1); -(3)]) [1; 2]%nat false = Ok t
    /\ trade_reduction_M 1000 60 (two_sides [16; 14] ([-(1); -(1); -(3)] ++ [-(8)])) [1; 2]%nat false = Ok t'
    /\ tprices t = Some P /\ tprices t' = Some P' /\ nth 1 P' 0 < nth 1 P 0 /\ nth 0 P 0 < nth 0 P' 0)
  /\ (exists t t' deals rem P P', improves (two_sides [10; 9] [-(1); -(2); -(3)]) (two_sides ([10; 9] ++ [5]) [-(1); -(2); -(3)])
    /\ mcafee_M 1000 60 (two_sides [10; 9] [-(1); -(2); -(3)]) [1; 1]%nat false = Ok t
    /\ mcafee_M 1000 60 (two_sides ([10; 9] ++ [5]) [-(1); -(2); -(3)]) [1; 1]%nat false = Ok t'
    /\ optimal_trade 60 (two_sides [10; 9] [-(1); -(2); -(3)]) [1; 1]%nat true = Ok (deals, rem) /\ deals <> []
    /\ tprices t = Some P /\ tprices t' = Some P' /\ nth 0 P' 0 < nth 0 P 0 /\ nth 1 P' 0 < nth 1 P 0).
Proof.
  split.
  - do 4 eexists. split; [apply better_sellers; [vm_compute; apply Permutation_refl|vm_compute; repeat constructor; discriminate]|].
    split; [vm_compute; reflexivity|]. split; [vm_compute; reflexivity|]. split; [reflexivity|]. split; [reflexivity|]. split; vm_compute; reflexivity.
  - do 6 eexists. split; [apply better_buyers; [vm_compute; apply Permutation_refl|vm_compute; repeat constructor; discriminate]|].
    split; [vm_compute; reflexivity|]. split; [vm_compute; reflexivity|]. split; [vm_compute; reflexivity|]. split; [discriminate|].
    split; [reflexivity|]. split; [reflexivity|]. split; vm_compute; reflexivity.
Qed.
Print Assumptions C112_own_price_refuted.

(** A better price is not a better outcome: in the ascending auction a buyer with value 52 comes, the sellers get 52 instead of 49,
    and the seller who asks for 34 is worse off, since another seller stays and takes part in the lottery for the four deals. *)
Theorem C112_utility_refuted : exists t t' P P',
  improves (two_sides [77; 75; 68; 63] [-(14); -(21); -(34); -(35); -(49)]) (two_sides ([77; 75; 68; 63] ++ [52]) [-(14); -(21); -(34); -(35); -(49)])
  /\ ascending_auction_M 1000 60 (two_sides [77; 75; 68; 63] [-(14); -(21); -(34); -(35); -(49)]) [1; 1]%nat = Ok t
  /\ ascending_auction_M 1000 60 (two_sides ([77; 75; 68; 63] ++ [52]) [-(14); -(21); -(34); -(35); -(49)]) [1; 1]%nat = Ok t'
  /\ tprices t = Some P /\ tprices t' = Some P' /\ nth 1 P' 0 < nth 1 P 0 /\ utility t' 1 2 (-(34)) < utility t 1 2 (-(34)).
Proof.
  do 4 eexists. split; [apply better_buyers; [vm_compute; apply Permutation_refl|vm_compute; repeat constructor; discriminate]|].
  split; [vm_compute; reflexivity|]. split; [vm_compute; reflexivity|]. split; [reflexivity|]. split; [reflexivity|]. split; vm_compute; reflexivity.
Qed.
Print Assumptions C112_utility_refuted.

(** ** A witness for the tree: categories 0 - 1 - 2 - 3 and 0 - 4 - 5. An agent with value -2 comes to category 2: its price goes up
    from -9 to -4, the prices of 0, 1 and 3 go down, those of 4 and 5 go up. *)
Definition branch_market (two : list Q) : market :=
  [mkCat "a" [23; 22; 21; 20]; mkCat "b" [-(2); -(4); -(6)]; mkCat "c" two; mkCat "d" [-(5); -(6); -(8)];
   mkCat "e" [-(4); -(7); -(9)]; mkCat "f" [-(4); -(8); -(9)]].

Example C112_tree_witness : let m := branch_market [-(4); -(9)] in let m' := branch_market [-(2); -(4); -(9)] in
  no_ties m /\ no_ties m' /\ values_within 30 m /\ values_within 30 m' /\ 2 * 30 * Qn (height Props_Initial.two_tree) <= MAX_VALUE
  /\ initial_prices_ok 6 Props_Initial.two_recipes (- MAX_VALUE) Props_Initial.two_p
  /\ distinct_categories Props_Initial.two_tree /\ In 2%nat (node_indices Props_Initial.two_tree)
  /\ (forall i, In i (node_indices Props_Initial.two_tree) -> (0 < csize (nth i m no_category))%nat)
  /\ improves m m' /\ (forall j, (j < length m)%nat -> j <> 2%nat -> Permutation (cvalues (nth j m no_category)) (cvalues (nth j m' no_category)))
  /\ related Props_Initial.two_tree 0 2 /\ related Props_Initial.two_tree 3 2 /\ ~ related Props_Initial.two_tree 5 2
  /\ exists r r', tree_auction MAX_VALUE Props_Initial.two_p 30 m Props_Initial.two_struct = Ok r
     /\ tree_auction MAX_VALUE Props_Initial.two_p 30 m' Props_Initial.two_struct = Ok r'
     /\ tt_tree r = Props_Initial.two_tree /\ recipes 6 (tt_tree r) = Ok Props_Initial.two_recipes
     /\ (0 < csize (nth 0 (tt_cats r) no_category))%nat
     /\ Forall2 Qeq (tt_prices r) [18; -(4); -(9); -(5); -(9); -(9)] /\ Forall2 Qeq (tt_prices r') [15; -(5); -(4); -(6); -(7); -(8)].
Proof.
  cbv zeta. split; [|split; [|split; [|split; [|split; [|split; [|split; [|split; [|split; [|split; [|split; [|split; [|split; [|split]]]]]]]]]]]]].
  - apply Props_TreeAuction.no_ties_intro. unfold branch_market. repeat constructor; simpl; intros F; discriminate F.
  - apply Props_TreeAuction.no_ties_intro. unfold branch_market. repeat constructor; simpl; intros F; discriminate F.
  - unfold values_within. apply Props_TreeAuction.in_values. repeat constructor; unfold Qle; simpl; lia.
  - unfold values_within. apply Props_TreeAuction.in_values. repeat constructor; unfold Qle; simpl; lia.
  - unfold Qle; simpl; lia.
  - apply Props_Initial.two_optimal.
  - exact Props_Initial.two_distinct.
  - cbn. tauto.
  - intros i Hi. cbn in Hi. repeat destruct Hi as [<-|Hi]; try (vm_compute; lia); destruct Hi.
  - assert (R : forall l : list Q, Forall2 Qle l l) by (intros l; induction l; constructor; [apply Qle_refl|assumption]).
    assert (K : forall x, category_improves x x).
    { intros x. exists (cvalues x), []. split; [rewrite app_nil_r; apply Permutation_refl|apply R]. }
    constructor; [apply K|]. constructor; [apply K|]. constructor; [|repeat (constructor; [apply K|]); constructor].
    exists [-(4); -(9)], [-(2)]. split; [apply (Permutation_cons_append [-(4); -(9)])|apply R].
  - intros [|[|[|[|[|[|j]]]]]] Hj NJ; try congruence; apply Permutation_refl.
  - exists [0; 1; 2; 3]%nat. split; [repeat (econstructor; [cbn; tauto|]); constructor|cbn; tauto].
  - exists [0; 1; 2; 3]%nat. split; [repeat (econstructor; [cbn; tauto|]); constructor|cbn; tauto].
  - intros (a & Ha & H5 & H2). unfold Props_Initial.two_tree in Ha. inversion Ha as [|? ? d b Hd Hb]; subst.
    destruct Hd as [<-|[<-|[]]].
    + inversion Hb as [|? ? d1 b1 Hd1 Hb1]; subst. destruct Hd1 as [<-|[]]. inversion Hb1 as [|? ? d2 b2 Hd2 Hb2]; subst. destruct Hd2 as [<-|[]].
      inversion Hb2 as [|? ? d3 b3 Hd3 Hb3]; subst; [|destruct Hd3]. cbn in H5. intuition discriminate.
    + inversion Hb as [|? ? d1 b1 Hd1 Hb1]; subst. destruct Hd1 as [<-|[]].
      inversion Hb1 as [|? ? d2 b2 Hd2 Hb2]; subst; [|destruct Hd2]. cbn in H2. intuition discriminate.
  - eexists. eexists. split; [vm_compute; reflexivity|]. split; [vm_compute; reflexivity|]. split; [reflexivity|]. split; [reflexivity|].
    split; [vm_compute; lia|]. split; repeat constructor.
Qed.
