(** * C107, C108: two-sided trade reduction; the lemonade industry of trade_reduction_demo_lemonade.py *)

From Coq Require Import String List Arith Lia ZArith QArith Lqa Sorted.
From Verif Require Import Base Model_Agents Model_Prices Model_Trade Model_Market Model_TradeReduction Model_RecipeTree Model_Demos
  Spec_Market Spec_Ascending Spec_Demos Spec_McAfee Spec_TradeReduction Proof_Two Proof_Lemonade Proof_Many.
Import ListNotations.
Open Scope Q_scope.
Open Scope string_scope.

(** ** C107: what the trade-reduction auction does in a market of two categories, recipe [1,1] *)

(** [A] and [B] are the values of the two categories in descending order, and exactly the first [k] pairs are worth
    doing.  If [k = 0] nobody trades.  Otherwise let [a] be the worst value of [A] among the first [k], and [b'] the
    best value of [B] that is left out ([-M] if nobody is left out).  If [a + b'] is worth doing, all [k] pairs
    trade, and [b'] sets the price; otherwise the owner of [a] is expelled, [k-1] pairs trade (the [k] agents of the
    second category are drawn by lot), and [a] sets the price. *)
Theorem C107_two_sided : forall M cap a b z k t, cap_suffices cap [a; b] [1%nat; 1%nat] -> values_at_least (- M) [a; b] ->
  profitable_pairs z (sort_desc (cvalues a)) (sort_desc (cvalues b)) k ->
  trade_reduction_M M cap [a; b] [1%nat; 1%nat] z = Ok t ->
  (k = 0%nat -> num_of_deals t = 0%nat /\ forall c, In c (tcats t) -> cvalues c = [])
  /\ (forall j, k = S j ->
      let A := sort_desc (cvalues a) in let B := sort_desc (cvalues b) in
      exists ta tb pa pb, tcats t = [ta; tb] /\ tprices t = Some [pa; pb]
      /\ cname ta = cname a /\ cname tb = cname b
      /\ Forall2 Qeq (cvalues tb) (firstn (S j) B)
      /\ pa == - pb
      /\ (worth_doing z (nth j A 0 + next_value M (S j) B) ->
            num_of_deals t = S j /\ Forall2 Qeq (cvalues ta) (firstn (S j) A) /\ pb == next_value M (S j) B)
      /\ (~ worth_doing z (nth j A 0 + next_value M (S j) B) ->
            num_of_deals t = j /\ Forall2 Qeq (cvalues ta) (firstn j A) /\ pa == nth j A 0)).
Proof. exact tr_two_sided. Qed.
Print Assumptions C107_two_sided.

(** The number [k] exists and is unique. *)
Theorem C107_pairs : forall z A B, desc A -> desc B ->
  exists k, profitable_pairs z A B k /\ forall k', profitable_pairs z A B k' -> k' = k.
Proof. exact pairs_exist_unique. Qed.
Print Assumptions C107_pairs.

(** Both cases occur: buyers 12, 11, 7 and sellers -3, -6, -8 (the left-out seller sets the price 8), and
    buyers 11, 8, 1 and sellers -3, -6, -9 (the second buyer is expelled and sets the price 8). *)
Example C107_witness : exists t t',
  profitable_pairs true [12; 11; 7] [-(3); -(6); -(8)] 2
  /\ trade_reduction [mkCat "buyer" [12; 11; 7]; mkCat "seller" [-(3); -(6); -(8)]] [1; 1]%nat true = Ok t
  /\ num_of_deals t = 2%nat /\ tprices t = Some [8; -(8)]
  /\ profitable_pairs true [11; 8; 1] [-(3); -(6); -(9)] 2
  /\ trade_reduction [mkCat "buyer" [11; 8; 1]; mkCat "seller" [-(3); -(6); -(9)]] [1; 1]%nat true = Ok t'
  /\ num_of_deals t' = 1%nat /\ map csize (tcats t') = [1; 2]%nat.
Proof.
  do 2 eexists. split.
  { split; [simpl; lia|]. split; [simpl; lia|]. intros [|[|[|t]]] a b Ha Hb; simpl in Ha, Hb;
      try (inversion Ha; inversion Hb; subst; simpl; split; [intros; lra || lia|intros; lra || lia]); destruct t; discriminate. }
  split; [vm_compute; reflexivity|]. split; [reflexivity|]. split; [reflexivity|]. split.
  { split; [simpl; lia|]. split; [simpl; lia|]. intros [|[|[|t]]] a b Ha Hb; simpl in Ha, Hb;
      try (inversion Ha; inversion Hb; subst; simpl; split; [intros; lra || lia|intros; lra || lia]); destruct t; discriminate. }
  split; [vm_compute; reflexivity|]. split; reflexivity.
Qed.

(** The same for any number of categories and a recipe of ones.  Let [j+1] be the number of optimal deals.  The
    categories are gone through in the order in which they are listed: category number [i] is the first one for which
    the total of one value per category - of rank [j] up to category [i], of rank [j+1] after it - is worth doing.
    The worst of the [j+1] agents is expelled in the categories before [i], and sets their prices; in the categories
    after [i] nobody is expelled, and the best agent left out ([-M] if there is none) sets the price; category [i]
    keeps its agents and balances the prices.  If nobody is expelled all deals are done, otherwise one less. *)
Theorem C107_many : forall M cap m recipe z t dealsz remz, cap_suffices cap m recipe -> values_at_least (- M) m ->
  all_ones recipe -> trade_reduction_M M cap m recipe z = Ok t -> optimal_trade cap m recipe z = Ok (dealsz, remz) ->
  (length dealsz = 0%nat -> num_of_deals t = 0%nat /\ forall c, In c (tcats t) -> cvalues c = [])
  /\ (forall j, length dealsz = S j -> exists i P, (i < length m)%nat /\ tprices t = Some P /\ length P = length m
       /\ worth_doing z (total_after M m j (S i)) /\ (forall i', (1 <= i' <= i)%nat -> ~ worth_doing z (total_after M m j i'))
       /\ num_of_deals t = (if (i =? 0)%nat then S j else j)
       /\ Qsum P == 0
       /\ length (tcats t) = length m
       /\ (forall c C T, nth_error m c = Some C -> nth_error (tcats t) c = Some T -> cname T = cname C
           /\ ((c < i)%nat -> Forall2 Qeq (cvalues T) (firstn j (sort_desc (cvalues C))) /\ nth c P 0 == ranked (- M) C j)
           /\ (c = i -> Forall2 Qeq (cvalues T) (firstn (S j) (sort_desc (cvalues C))))
           /\ ((i < c)%nat -> Forall2 Qeq (cvalues T) (firstn (S j) (sort_desc (cvalues C))) /\ nth c P 0 == ranked (- M) C (S j)))).
Proof. exact tr_many. Qed.
Print Assumptions C107_many.

(** The first example of trade_reduction_demo_111.py: three optimal deals, [j = 2]; 13 - 8 - 7 is not worth doing but
    13 - 5 - 7 is, so [i = 1]: the buyer with 13 is expelled, and the seller's price is 7 - 13 = -6. *)
Example C107_many_witness : exists t deals rem,
  let m := [mkCat "buyer" [17; 14; 13; 9; 6]; mkCat "seller" [-(1); -(4); -(5); -(8); -(11)]; mkCat "mediator" [-(1); -(3); -(4); -(7); -(10)]] in
  optimal_trade default_max_iterations m [1; 1; 1]%nat true = Ok (deals, rem) /\ length deals = 3%nat
  /\ total_after MAX_VALUE m 2 1 == -(2) /\ total_after MAX_VALUE m 2 2 == 1
  /\ trade_reduction m [1; 1; 1]%nat true = Ok t /\ num_of_deals t = 2%nat /\ tprices t = Some [13; -(6); -(7)]
  /\ map csize (tcats t) = [2; 3; 3]%nat.
Proof.
  do 3 eexists. cbv zeta. split; [vm_compute; reflexivity|]. split; [reflexivity|]. split; [vm_compute; reflexivity|].
  split; [vm_compute; reflexivity|]. split; [vm_compute; reflexivity|]. split; [reflexivity|]. split; reflexivity.
Qed.

(** ** C108: the lemonade industry *)

(** Cutting the industry into sub-markets loses nothing before the auctions: for lists of values in descending
    order, the industry and each of the three sub-markets have optimal trades with the same number of deals and the
    same gain, in both orders of the categories. *)
Theorem C108_same_optimum : forall cap buyerFirst pickers squeezers drinkers z deals R dl Rl ds Rs dj Rj,
  desc pickers -> desc squeezers -> desc drinkers ->
  (Nat.min (length pickers) (Nat.min (length squeezers) (length drinkers)) <= cap)%nat ->
  optimal_trade cap (lemonade_industry pickers squeezers drinkers) [1; 1; 1]%nat z = Ok (deals, R) ->
  optimal_trade cap (lemon_submarket buyerFirst pickers squeezers drinkers) [1; 1]%nat z = Ok (dl, Rl) ->
  optimal_trade cap (squeezing_submarket buyerFirst pickers squeezers drinkers) [1; 1]%nat z = Ok (ds, Rs) ->
  optimal_trade cap (juice_submarket buyerFirst pickers squeezers drinkers) [1; 1]%nat z = Ok (dj, Rj) ->
  (length dl = length deals /\ mt_gain_from_trade dl == mt_gain_from_trade deals)
  /\ (length ds = length deals /\ mt_gain_from_trade ds == mt_gain_from_trade deals)
  /\ (length dj = length deals /\ mt_gain_from_trade dj == mt_gain_from_trade deals).
Proof. exact submarkets_optimal. Qed.
Print Assumptions C108_same_optimum.

(** The combined outcome with the buyers first: what the drinkers pay never covers what the pickers and the squeezers
    receive (money received counts as negative money paid), and no more juice is bought than lemons and squeezing. *)
Theorem C108_buyers_first_deficit : forall M cap pickers squeezers drinkers z, 0 < M ->
  desc pickers -> desc squeezers -> desc drinkers ->
  (Nat.min (length pickers) (Nat.min (length squeezers) (length drinkers)) <= cap)%nat ->
  (forall v, In v pickers -> - M <= 2 * v /\ v <= 0) -> (forall v, In v squeezers -> - M <= 2 * v /\ v <= 0) ->
  (forall v, In v drinkers -> - M <= 2 * v /\ 2 * v <= M) ->
  forall lemons squeezing juice,
  trade_reduction_M M cap (lemon_submarket true pickers squeezers drinkers) [1; 1]%nat z = Ok lemons ->
  trade_reduction_M M cap (squeezing_submarket true pickers squeezers drinkers) [1; 1]%nat z = Ok squeezing ->
  trade_reduction_M M cap (juice_submarket true pickers squeezers drinkers) [1; 1]%nat z = Ok juice ->
  (num_of_deals juice <= num_of_deals lemons)%nat /\ (num_of_deals juice <= num_of_deals squeezing)%nat
  /\ paid juice 0 + paid lemons 1 + paid squeezing 1 <= 0.
Proof. exact buyers_first. Qed.
Print Assumptions C108_buyers_first_deficit.

(** With the sellers first: the drinkers pay at least what the pickers and the squeezers receive, and at least as
    much juice is bought as lemons and squeezing. *)
Theorem C108_sellers_first_surplus : forall M cap pickers squeezers drinkers z, 0 < M ->
  desc pickers -> desc squeezers -> desc drinkers ->
  (Nat.min (length pickers) (Nat.min (length squeezers) (length drinkers)) <= cap)%nat ->
  (forall v, In v pickers -> - M <= 2 * v /\ v <= 0) -> (forall v, In v squeezers -> - M <= 2 * v /\ v <= 0) ->
  (forall v, In v drinkers -> - M <= 2 * v /\ 2 * v <= M) ->
  forall lemons squeezing juice,
  trade_reduction_M M cap (lemon_submarket false pickers squeezers drinkers) [1; 1]%nat z = Ok lemons ->
  trade_reduction_M M cap (squeezing_submarket false pickers squeezers drinkers) [1; 1]%nat z = Ok squeezing ->
  trade_reduction_M M cap (juice_submarket false pickers squeezers drinkers) [1; 1]%nat z = Ok juice ->
  (num_of_deals lemons <= num_of_deals juice)%nat /\ (num_of_deals squeezing <= num_of_deals juice)%nat
  /\ 0 <= paid juice 1 + paid lemons 0 + paid squeezing 0.
Proof. exact sellers_first. Qed.
Print Assumptions C108_sellers_first_surplus.

(** Demo data, as in the script ([buyerFirst = True]): the drinkers pay 11, the pickers receive 14 and the squeezers 5,
    "the combined outcome is not SBB"; two lemons are picked for one glass of juice.  With the sellers first the same
    data happen to balance. *)
Theorem C108_not_sbb : exists l s j,
  trade_reduction (lemon_submarket true demo_pickers demo_squeezers demo_drinkers) [1; 1]%nat true = Ok l
  /\ trade_reduction (squeezing_submarket true demo_pickers demo_squeezers demo_drinkers) [1; 1]%nat true = Ok s
  /\ trade_reduction (juice_submarket true demo_pickers demo_squeezers demo_drinkers) [1; 1]%nat true = Ok j
  /\ (num_of_deals l = 2 /\ num_of_deals s = 1 /\ num_of_deals j = 1)%nat
  /\ paid j 0 == 11 /\ paid l 1 == -(14) /\ paid s 1 == -(5).
Proof.
  do 3 eexists. split; [vm_compute; reflexivity|]. split; [vm_compute; reflexivity|]. split; [vm_compute; reflexivity|].
  split; [split; [|split]; reflexivity|]. split; [reflexivity|]. split; reflexivity.
Qed.
Print Assumptions C108_not_sbb.

Example C108_sellers_first_demo : exists l s j,
  trade_reduction (lemon_submarket false demo_pickers demo_squeezers demo_drinkers) [1; 1]%nat true = Ok l
  /\ trade_reduction (squeezing_submarket false demo_pickers demo_squeezers demo_drinkers) [1; 1]%nat true = Ok s
  /\ trade_reduction (juice_submarket false demo_pickers demo_squeezers demo_drinkers) [1; 1]%nat true = Ok j
  /\ (num_of_deals l = 1 /\ num_of_deals s = 1 /\ num_of_deals j = 1)%nat
  /\ paid j 1 == 9 /\ paid l 0 == -(6) /\ paid s 0 == -(3).
Proof.
  do 3 eexists. split; [vm_compute; reflexivity|]. split; [vm_compute; reflexivity|]. split; [vm_compute; reflexivity|].
  split; [split; [|split]; reflexivity|]. split; [reflexivity|]. split; reflexivity.
Qed.

(** With the sellers first the surplus can be positive, and juice can be sold for which nobody picks lemons. *)
Theorem C108_sellers_first_not_sbb : exists l s j,
  let pickers := [-(1); -(3)] in let squeezers := [-(1); -(3)] in let drinkers := [12; 3] in
  trade_reduction (lemon_submarket false pickers squeezers drinkers) [1; 1]%nat true = Ok l
  /\ trade_reduction (squeezing_submarket false pickers squeezers drinkers) [1; 1]%nat true = Ok s
  /\ trade_reduction (juice_submarket false pickers squeezers drinkers) [1; 1]%nat true = Ok j
  /\ (num_of_deals l = 0 /\ num_of_deals s = 0 /\ num_of_deals j = 1)%nat
  /\ paid j 1 == 3 /\ paid l 0 == 0 /\ paid s 0 == 0.
Proof.
  do 3 eexists. cbv zeta. split; [vm_compute; reflexivity|]. split; [vm_compute; reflexivity|]. split; [vm_compute; reflexivity|].
  split; [split; [|split]; reflexivity|]. split; [reflexivity|]. split; reflexivity.
Qed.
Print Assumptions C108_sellers_first_not_sbb.

(** The lists must be given in descending order: the script adds them position by position before the categories sort
    them, so with squeezers -6, -1 the lemon sub-market seems to have two deals and the industry has one. *)
Theorem C108_unsorted_refuted : exists deals R dl Rl,
  let pickers := [-(3); -(6)] in let squeezers := [-(6); -(1)] in let drinkers := [12; 11] in
  optimal_trade default_max_iterations (lemonade_industry pickers squeezers drinkers) [1; 1; 1]%nat true = Ok (deals, R)
  /\ length deals = 1%nat
  /\ optimal_trade default_max_iterations (lemon_submarket true pickers squeezers drinkers) [1; 1]%nat true = Ok (dl, Rl)
  /\ length dl = 2%nat.
Proof. do 4 eexists. cbv zeta. split; [vm_compute; reflexivity|]. split; [reflexivity|]. split; [vm_compute; reflexivity|reflexivity]. Qed.
Print Assumptions C108_unsorted_refuted.

(** The demo data meet the hypotheses of the theorems. *)
Example C108_witness : desc demo_pickers /\ desc demo_squeezers /\ desc demo_drinkers
  /\ (forall v, In v demo_pickers -> - MAX_VALUE <= 2 * v /\ v <= 0)
  /\ (forall v, In v demo_squeezers -> - MAX_VALUE <= 2 * v /\ v <= 0)
  /\ (forall v, In v demo_drinkers -> - MAX_VALUE <= 2 * v /\ 2 * v <= MAX_VALUE)
  /\ profitable_triples true demo_pickers demo_squeezers demo_drinkers 2.
Proof.
  assert (Dm : forall a b c, b <= a -> c <= b -> desc [a; b; c]).
  { intros a b c H1 H2. repeat constructor; lra. }
  split; [apply Dm; lra|]. split; [apply Dm; lra|]. split; [apply Dm; lra|].
  assert (HM : MAX_VALUE == 100000000) by reflexivity.
  split; [intros v [<-|[<-|[<-|[]]]]; rewrite HM; split; lra|].
  split; [intros v [<-|[<-|[<-|[]]]]; rewrite HM; split; lra|].
  split; [intros v [<-|[<-|[<-|[]]]]; rewrite HM; split; lra|].
  do 3 (split; [simpl; lia|]).
  intros [|[|[|t]]] a b c Ha Hb Hc; simpl in Ha, Hb, Hc;
      try (inversion Ha; inversion Hb; inversion Hc; subst; simpl; split; [intros; lra || lia|intros; lra || lia]); destruct t; discriminate.
Qed.
