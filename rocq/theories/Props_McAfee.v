(** * Properties C22 - C27: McAfee's trade reduction

    The theorems hold for every value [M] of the constant MAX_VALUE, every iteration cap [cap] of
    optimal_trade and both values [h] of price_heuristic; the function users call is the instance [mcafee]. *)

From Coq Require Import String List Arith Lia QArith Lqa Qabs Permutation.
From Verif Require Import Base Model_Agents Model_Trade Model_Prices Model_Market Model_McAfee
  Spec_Market Spec_Trade Spec_Ascending Spec_TradeReduction Spec_McAfee Proof_Ascending Proof_McAfee2 Proof_McAfee3 Proof_McAfee4.
Import ListNotations.
Open Scope Q_scope.
Open Scope string_scope.

(** ** C22 *)
Theorem C22_two_sided_no_deficit : forall M cap m recipe h t prices, (length m <= 2)%nat ->
  mcafee_M M cap m recipe h = Ok t -> tprices t = Some prices -> 0 <= dot prices recipe.
Proof. exact mcafee_no_deficit_two. Qed.
Print Assumptions C22_two_sided_no_deficit.

Theorem C22_no_heuristic_no_deficit : forall M cap m recipe t prices,
  mcafee_M M cap m recipe false = Ok t -> tprices t = Some prices -> 0 <= dot prices recipe.
Proof. exact mcafee_no_deficit_plain. Qed.
Print Assumptions C22_no_heuristic_no_deficit.

Theorem C22_three_categories_refuted : exists m recipe t prices,
  length m = 3%nat /\ mcafee m recipe true = Ok t /\ (0 < num_of_deals t)%nat
  /\ tprices t = Some prices /\ dot prices recipe < 0.
Proof.
  exists [mkCat "buyer" [10; 1]; mkCat "seller" [-(1); -(5)]; mkCat "mediator" [-(1); -(5)]], [1; 1; 1]%nat.
  eexists. eexists. split; [reflexivity|]. split; [vm_compute; reflexivity|]. split; [vm_compute; lia|].
  split; [reflexivity|]. reflexivity.
Qed.
Print Assumptions C22_three_categories_refuted.

(** ** C23 *)
Theorem C23_individually_rational : forall M cap m recipe h t prices,
  mcafee_M M cap m recipe h = Ok t -> tprices t = Some prices ->
  forall i c p v, nth_error (tcats t) i = Some c -> nth_error prices i = Some p -> In v (cvalues c) -> p <= v.
Proof. exact mcafee_ir. Qed.
Print Assumptions C23_individually_rational.

(** ** C24 *)
Theorem C24_deals_and_traders : forall M cap m recipe h t deals rem, mcafee_M M cap m recipe h = Ok t ->
  optimal_trade cap m recipe true = Ok (deals, rem) ->
  let k := mt_num_of_deals deals in let p := candidate_price M m k in
  (k = 0%nat -> num_of_deals t = 0%nat)
  /\ ((0 < k)%nat -> h = true -> price_accepted p m k -> num_of_deals t = k)
  /\ ((0 < k)%nat -> h = false \/ ~ price_accepted p m k -> num_of_deals t = (k - 1)%nat)
  /\ length (tcats t) = length m
  /\ (forall i c0 c, nth_error m i = Some c0 -> nth_error (tcats t) i = Some c ->
        cname c = cname c0 /\ desc (cvalues c) /\ csize c = num_of_deals t
        /\ exists gone, same_values (cvalues c ++ gone) (cvalues c0)
             /\ (forall x y, In x (cvalues c) -> In y gone -> y <= x))
  /\ exists prices, tprices t = Some prices /\ length prices = length m
     /\ forall i c0 pr, nth_error m i = Some c0 -> nth_error prices i = Some pr -> (0 < k)%nat ->
          (num_of_deals t = k -> (0 <= ranked 0 c0 (k - 1) -> pr == p) /\ (ranked 0 c0 (k - 1) < 0 -> pr == - p))
          /\ (num_of_deals t <> k -> pr == ranked 0 c0 (k - 1)).
Proof. exact mcafee_traders. Qed.
Print Assumptions C24_deals_and_traders.

(** ** C25 *)
Theorem C25_gain : forall M cap m recipe h t deals rem, mcafee_M M cap m recipe h = Ok t ->
  optimal_trade cap m recipe true = Ok (deals, rem) ->
  let k := mt_num_of_deals deals in let opt := mt_gain_from_trade deals in
  exists g g' prices, gain_from_trade t true = Ok g /\ gain_from_trade t false = Ok g' /\ tprices t = Some prices
    /\ g' == g - Qn (num_of_deals t) * dot prices recipe
    /\ g <= opt /\ (Qn k - 1) * opt <= Qn k * g
    /\ (num_of_deals t = k -> g == opt).
Proof. exact mcafee_gain. Qed.
Print Assumptions C25_gain.

(** ** C26 *)

(** Without the heuristic: any number of categories, any values. *)
Theorem C26_truthful_no_heuristic : forall M cap m recipe i name pre post v v' pos pos' t t',
  (i < length m)%nat ->
  possible_position (pre ++ post) v pos -> possible_position (pre ++ post) v' pos' ->
  let honest := set_nth i (mkCat name (pre ++ v :: post)) m in
  let lying := set_nth i (mkCat name (pre ++ v' :: post)) m in
  cap_suffices cap honest recipe -> cap_suffices cap lying recipe ->
  mcafee_M M cap honest recipe false = Ok t -> mcafee_M M cap lying recipe false = Ok t' ->
  utility t' i pos' v <= utility t i pos v.
Proof. exact mcafee_truthful_plain. Qed.
Print Assumptions C26_truthful_no_heuristic.

(** With the heuristic, two categories: buyers (value at least 0). The report [v'] is arbitrary. *)
Theorem C26_truthful_buyer : forall M cap m recipe i name pre post other v v' pos pos' t t', 0 < M ->
  length m = 2%nat -> (i < length m)%nat ->
  possible_position (pre ++ post) v pos -> possible_position (pre ++ post) v' pos' ->
  Forall (fun y => 0 <= y < M) (pre ++ post) ->
  nth_error m (1 - i) = Some other -> Forall (fun y => y <= 0) (cvalues other) -> 0 <= v ->
  let honest := set_nth i (mkCat name (pre ++ v :: post)) m in
  let lying := set_nth i (mkCat name (pre ++ v' :: post)) m in
  cap_suffices cap honest recipe -> cap_suffices cap lying recipe ->
  mcafee_M M cap honest recipe true = Ok t -> mcafee_M M cap lying recipe true = Ok t' ->
  utility t' i pos' v <= utility t i pos v.
Proof.
  intros M cap m recipe i name pre post other v v' pos pos' t t' HM L2 Hi Hp Hp' HO Ho HS.
  apply (mcafee_truthful_buyer M cap m recipe i name pre post v v' pos pos' t t' HM L2 Hi Hp Hp' HO).
  rewrite (nth_error_nth _ _ dcat Ho). assumption.
Qed.
Print Assumptions C26_truthful_buyer.

(** Sellers (value below 0); the buyers' values are below M/2. *)
Theorem C26_truthful_seller : forall M cap m recipe i name pre post other v v' pos pos' t t', 0 < M ->
  length m = 2%nat -> (i < length m)%nat ->
  possible_position (pre ++ post) v pos -> possible_position (pre ++ post) v' pos' ->
  Forall (fun y => y <= 0) (pre ++ post) ->
  nth_error m (1 - i) = Some other -> Forall (fun y => 0 <= y /\ 2 * y < M) (cvalues other) -> v < 0 ->
  let honest := set_nth i (mkCat name (pre ++ v :: post)) m in
  let lying := set_nth i (mkCat name (pre ++ v' :: post)) m in
  cap_suffices cap honest recipe -> cap_suffices cap lying recipe ->
  mcafee_M M cap honest recipe true = Ok t -> mcafee_M M cap lying recipe true = Ok t' ->
  utility t' i pos' v <= utility t i pos v.
Proof.
  intros M cap m recipe i name pre post other v v' pos pos' t t' HM L2 Hi Hp Hp' HO Ho HS.
  apply (mcafee_truthful_seller M cap m recipe i name pre post v v' pos pos' t t' HM L2 Hi Hp Hp' HO).
  rewrite (nth_error_nth _ _ dcat Ho). assumption.
Qed.
Print Assumptions C26_truthful_seller.

(** A profitable misreport. *)
Definition profitable_lie (m : market) (recipe : list nat) (i : nat) (name : string) (pre post : list Q)
    (v v' : Q) : Prop :=
  exists pos pos' t t',
    possible_position (pre ++ post) v pos /\ possible_position (pre ++ post) v' pos'
    /\ mcafee (set_nth i (mkCat name (pre ++ v :: post)) m) recipe true = Ok t
    /\ mcafee (set_nth i (mkCat name (pre ++ v' :: post)) m) recipe true = Ok t'
    /\ utility t i pos v < utility t' i pos' v.

(** A seller of value 0 gains by reporting -1: the price test treats value 0 as a buyer. *)
Theorem C26_zero_seller_refuted :
  profitable_lie [mkCat "buyer" [10; 3]; mkCat "seller" []] [1; 1]%nat 1 "seller" [] [-(4)] 0 (-(1)).
Proof.
  exists 0%nat, 0%nat. eexists. eexists. split; [vm_compute; lia|]. split; [vm_compute; lia|].
  split; [vm_compute; reflexivity|]. split; [vm_compute; reflexivity|]. reflexivity.
Qed.
Print Assumptions C26_zero_seller_refuted.

(** With a buyer of value MAX_VALUE a seller gains: the dummy value enters the price. *)
Theorem C26_large_values_refuted :
  profitable_lie [mkCat "buyer" [MAX_VALUE]; mkCat "seller" []] [1; 1]%nat 1 "seller" [-(1)] [] (-(2)) (-1 # 2).
Proof.
  exists 1%nat, 0%nat. eexists. eexists. split; [vm_compute; lia|]. split; [vm_compute; lia|].
  split; [vm_compute; reflexivity|]. split; [vm_compute; reflexivity|]. reflexivity.
Qed.
Print Assumptions C26_large_values_refuted.

(** With the heuristic and three categories a buyer of value 7 gains by reporting 8. *)
Theorem C26_three_categories_refuted :
  profitable_lie [mkCat "buyer" []; mkCat "seller" [-(4); -(9)]; mkCat "mediator" [-(4); -(9)]] [1; 1; 1]%nat
    0 "buyer" [] [1] 7 8.
Proof.
  exists 0%nat, 0%nat. eexists. eexists. split; [vm_compute; lia|]. split; [vm_compute; lia|].
  split; [vm_compute; reflexivity|]. split; [vm_compute; reflexivity|]. reflexivity.
Qed.
Print Assumptions C26_three_categories_refuted.

(** ** C27 *)

(** [m <> []]: a Market without categories cannot be constructed (ValueError). *)
Theorem C27_errors : forall M cap m recipe h, m <> [] ->
  ((exists t, mcafee_M M cap m recipe h = Ok t) /\ length recipe = length m /\ all_ones recipe)
  \/ (mcafee_M M cap m recipe h = Raise ValueError /\ ~ (length recipe = length m /\ all_ones recipe)).
Proof. exact mcafee_errors. Qed.
Print Assumptions C27_errors.

(** ** Non-vacuity *)

(** Price accepted (k deals), price rejected (k-1 deals), no heuristic. *)
Definition mc_ex1 : market := [mkCat "buyer" [9; 8; 4]; mkCat "seller" [-(3); -(4); -(6)]].
Definition mc_ex2 : market := [mkCat "buyer" [9; 8; 7]; mkCat "seller" [-(3); -(4); -(12)]].

Example C22_C25_accepted : exists t deals rem, mcafee_M MAX_VALUE 10 mc_ex1 [1; 1]%nat true = Ok t
  /\ mcafee mc_ex1 [1; 1]%nat true = Ok t
  /\ optimal_trade 10 mc_ex1 [1; 1]%nat true = Ok (deals, rem) /\ mt_num_of_deals deals = 2%nat
  /\ num_of_deals t = 2%nat /\ tprices t = Some [10 # 2; -10 # 2] /\ map (fun c => cvalues c) (tcats t) = [[9; 8]; [-(3); -(4)]]
  /\ price_accepted (candidate_price MAX_VALUE mc_ex1 2) mc_ex1 2.
Proof.
  eexists. eexists. eexists. split; [vm_compute; reflexivity|]. split; [vm_compute; reflexivity|]. split; [vm_compute; reflexivity|].
  split; [reflexivity|]. split; [reflexivity|]. split; [reflexivity|]. split; [reflexivity|].
  assert (E : candidate_price MAX_VALUE mc_ex1 2 == 5) by reflexivity.
  intros c [<-|[<-|[]]]; rewrite E; vm_compute; split; intros; try discriminate; try contradiction; exfalso; auto.
Qed.

Example C22_C25_rejected : exists t deals rem, mcafee_M MAX_VALUE 10 mc_ex2 [1; 1]%nat true = Ok t
  /\ optimal_trade 10 mc_ex2 [1; 1]%nat true = Ok (deals, rem) /\ mt_num_of_deals deals = 2%nat
  /\ num_of_deals t = 1%nat /\ tprices t = Some [8; -(4)] /\ map (fun c => cvalues c) (tcats t) = [[9]; [-(3)]].
Proof.
  eexists. eexists. eexists. split; [vm_compute; reflexivity|]. split; [vm_compute; reflexivity|].
  split; [reflexivity|]. split; [reflexivity|]. split; reflexivity.
Qed.

(** Truthfulness hypotheses: the seller -4 of the first market reports -2; the buyer 8 reports 100. *)
Example C26_nonvacuous : exists t t' s s',
  mcafee_M MAX_VALUE 10 (set_nth 1 (mkCat "seller" ([-(3)] ++ -(4) :: [-(6)])) mc_ex1) [1; 1]%nat true = Ok t
  /\ mcafee_M MAX_VALUE 10 (set_nth 1 (mkCat "seller" ([-(3)] ++ -(2) :: [-(6)])) mc_ex1) [1; 1]%nat true = Ok t'
  /\ possible_position ([-(3)] ++ [-(6)]) (-(4)) 1 /\ possible_position ([-(3)] ++ [-(6)]) (-(2)) 0
  /\ Forall (fun y => y <= 0) ([-(3)] ++ [-(6)])
  /\ Forall (fun y => 0 <= y /\ 2 * y < MAX_VALUE) [9; 8; 4]
  /\ utility t 1 1 (-(4)) == 1 /\ utility t' 1 0 (-(4)) == 1
  /\ mcafee_M MAX_VALUE 10 (set_nth 0 (mkCat "buyer" ([9] ++ 8 :: [4])) mc_ex1) [1; 1]%nat true = Ok s
  /\ mcafee_M MAX_VALUE 10 (set_nth 0 (mkCat "buyer" ([9] ++ 100 :: [4])) mc_ex1) [1; 1]%nat true = Ok s'
  /\ possible_position ([9] ++ [4]) 8 1 /\ possible_position ([9] ++ [4]) 100 0
  /\ Forall (fun y => 0 <= y < MAX_VALUE) ([9] ++ [4]) /\ Forall (fun y => y <= 0) [-(3); -(4); -(6)]
  /\ utility s 0 1 8 == 3
  /\ cap_suffices 10 (set_nth 0 (mkCat "buyer" ([9] ++ 100 :: [4])) mc_ex1) [1; 1]%nat.
Proof.
  eexists. eexists. eexists. eexists. split; [vm_compute; reflexivity|]. split; [vm_compute; reflexivity|].
  split; [vm_compute; lia|]. split; [vm_compute; lia|].
  split; [repeat constructor; unfold Qle; simpl; lia|].
  split; [repeat constructor; unfold Qle, Qlt; simpl; lia|].
  split; [reflexivity|]. split; [reflexivity|].
  split; [vm_compute; reflexivity|]. split; [vm_compute; reflexivity|].
  split; [vm_compute; lia|]. split; [vm_compute; lia|].
  split; [repeat constructor; unfold Qle, Qlt; simpl; lia|].
  split; [repeat constructor; unfold Qle; simpl; lia|].
  split; [reflexivity|].
  exists 1%nat, (mkCat "seller" [-(3); -(4); -(6)]), 1%nat. split; [reflexivity|]. split; [reflexivity|]. unfold csize; cbn; lia.
Qed.
