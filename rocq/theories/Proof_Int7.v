(** * The integer auction with unit counts: balance and truthfulness (C44, C45, C56) *)

From Coq Require Import String List Arith Lia QArith Lqa Permutation Sorted Bool.
From Verif Require Import Base Model_Agents Model_Trade Model_Prices Model_Market Model_RecipeTree Model_TreeAuction
  Model_IntPrices Model_IntTree Model_IntAuction
  Spec_Market Spec_RecipeTree Spec_TreeAuction Spec_Int Spec_Ascending Proof_Tree Proof_Tree2 Proof_Tree3 Proof_TA1 Proof_TA2 Proof_TA3
  Proof_TA4 Proof_TA5 Proof_TA7 Proof_Int1 Proof_Int2 Proof_Int3 Proof_Int4 Proof_Int5 Proof_Int6.
Import ListNotations.
Open Scope Q_scope.

(** What is known of a run with unit counts. *)
Lemma int_unit_start : forall M m st counts t, 0 <= M -> new_int_tree (clone_market m) counts st = Ok t ->
  unit_counts counts t -> distinct_categories t -> leaf_last t ->
  exists rs p0, recipes (length m) t = Ok rs /\ int_initial_prices rs (- M) = Ok p0
    /\ initial_prices_ok (length m) rs (- M) p0.
Proof.
  intros M m st counts t HM HT HU HD HL.
  assert (CL : length (clone_market m) = length m) by (unfold clone_market; apply map_length).
  assert (RG := new_tree_indices _ _ _ (int_tree_binary _ _ _ _ HT)). rewrite CL in RG.
  assert (U1 : unit_counts [] t) by (intros i _; reflexivity).
  destruct (int_recipes_any (length m) [] t) as [rs HR]; [congruence|assumption|].
  destruct (int_initial_tree (length m) [] t rs (- M) HD (unit_positive _ _ U1) RG HL (or_introl eq_refl) HR) as (p & Ep & L & B & ES).
  rewrite int_recipes_unit in HR; [|assumption|assumption|congruence].
  exists rs, p. split; [assumption|]. split; [assumption|]. split; [assumption|]. split; [apply B; lra|]. eauto.
Qed.

Theorem int_unit_same : forall M fuel m st counts t rs p0, new_int_tree (clone_market m) counts st = Ok t ->
  unit_counts counts t -> distinct_categories t -> tchildren t <> [] -> recipes (length m) t = Ok rs ->
  int_initial_prices rs (- M) = Ok p0 ->
  match int_auction M fuel m st counts, tree_auction M p0 fuel m st with
  | Ok r, Ok r' => same_trade r r'
  | Raise e, Raise e' => e = e'
  | Timeout, Timeout => True
  | _, _ => False
  end.
Proof.
  intros M fuel m st counts t rs p0 HT HU HD HC HR HP.
  assert (CL : length (clone_market m) = length m) by (unfold clone_market; apply map_length).
  assert (RG := new_tree_indices _ _ _ (int_tree_binary _ _ _ _ HT)). rewrite CL in RG.
  assert (HR' : int_recipes (length m) counts t = Ok rs).
  { rewrite int_recipes_unit; [assumption|assumption|assumption|]. intros; eapply int_tree_counts; eassumption. }
  destruct (int_recipes_lengths _ _ _ _ HR') as [NE LR].
  apply (int_auction_unit M fuel m st counts t rs p0); try assumption. eapply int_initial_length; eassumption.
Qed.

Lemma int_unit_ok : forall M fuel m st counts r, 0 <= M -> int_auction M fuel m st counts = Ok r ->
  unit_counts counts (tt_tree r) -> distinct_categories (tt_tree r) -> leaf_last (tt_tree r) -> tchildren (tt_tree r) <> [] ->
  exists rs p0 r', new_int_tree (clone_market m) counts st = Ok (tt_tree r) /\ recipes (length m) (tt_tree r) = Ok rs
    /\ int_initial_prices rs (- M) = Ok p0 /\ initial_prices_ok (length m) rs (- M) p0
    /\ tree_auction M p0 fuel m st = Ok r' /\ same_trade r r'.
Proof.
  intros M fuel m st counts r HM H HU HD HL HC. destruct (int_auction_returned _ _ _ _ _ _ H) as (rs' & p' & s & R).
  assert (HT := ir_tree _ _ _ _ _ _ _ _ _ R).
  destruct (int_unit_start M m st counts _ HM HT HU HD HL) as (rs & p0 & E1 & E2 & E3).
  assert (X := int_unit_same M fuel m st counts _ rs p0 HT HU HD HC E1 E2). rewrite H in X.
  destruct (tree_auction M p0 fuel m st) as [r'|e|] eqn:ET; try contradiction. exists rs, p0, r'. auto 10.
Qed.

Theorem int_unit_sbb : forall M fuel m st counts r rs, 0 < M -> int_auction M fuel m st counts = Ok r ->
  unit_counts counts (tt_tree r) -> distinct_categories (tt_tree r) -> leaf_last (tt_tree r) -> tchildren (tt_tree r) <> [] ->
  int_recipes (length m) counts (tt_tree r) = Ok rs -> (0 < tt_deals r)%nat ->
  length (tt_prices r) = length m /\ equal_sums rs (tt_prices r) 0.
Proof.
  intros M fuel m st counts r rs HM H HU HD HL HC HR HK.
  destruct (int_unit_ok M fuel m st counts r) as (rs' & p0 & r' & HT & E1 & E2 & E3 & E4 & (S1 & S2 & S3 & S4 & _)); try assumption; [lra|].
  assert (CL : length (clone_market m) = length m) by (unfold clone_market; apply map_length).
  assert (RG := new_tree_indices _ _ _ (int_tree_binary _ _ _ _ HT)). rewrite CL in RG.
  rewrite int_recipes_unit in HR; [|assumption|assumption|intros; eapply int_tree_counts; eassumption].
  assert (rs' = rs) by congruence. subst rs'. rewrite S3, S2 in *. rewrite S4 in HK.
  eapply tree_sbb; eassumption.
Qed.

Theorem int_unit_truthful : forall M m st counts i name pre post v v' pos pos' fuel fuel' r r' sel, 0 < M ->
  (i < length m)%nat ->
  possible_position (pre ++ post)%list v pos -> possible_position (pre ++ post)%list v' pos' ->
  values_within M (set_nth i (mkCat name (pre ++ v :: post)%list) m) ->
  values_within M (set_nth i (mkCat name (pre ++ v' :: post)%list) m) ->
  (forall j sizes, 0 <= sel j sizes) ->
  int_auction M fuel (set_nth i (mkCat name (pre ++ v :: post)%list) m) st counts = Ok r ->
  int_auction M fuel' (set_nth i (mkCat name (pre ++ v' :: post)%list) m) st counts = Ok r' ->
  unit_counts counts (tt_tree r) -> distinct_categories (tt_tree r) -> leaf_last (tt_tree r) -> tchildren (tt_tree r) <> [] ->
  tree_utility sel r' i pos' v <= tree_utility sel r i pos v.
Proof.
  intros M m st counts i name pre post v v' pos pos' fuel fuel' r r' sel HM Hi P1 P2 W1 W2 HS H1 H2 HU HD HL HC.
  set (m1 := set_nth i (mkCat name (pre ++ v :: post)%list) m) in *. set (m2 := set_nth i (mkCat name (pre ++ v' :: post)%list) m) in *.
  assert (L1 : length m1 = length m) by apply set_nth_length. assert (L2 : length m2 = length m) by apply set_nth_length.
  destruct (int_unit_ok M fuel m1 st counts r) as (rs & p0 & q & HT & E1 & E2 & E3 & E4 & S1); try assumption; [lra|].
  destruct (int_auction_returned _ _ _ _ _ _ H2) as (rs2 & p2 & s2 & R2). assert (HT2 := ir_tree _ _ _ _ _ _ _ _ _ R2).
  assert (TT : tt_tree r' = tt_tree r).
  { unfold new_int_tree in HT, HT2. unfold clone_market in HT, HT2. rewrite map_length in HT, HT2. rewrite L1 in HT. rewrite L2 in HT2.
    rewrite HT in HT2. congruence. }
  rewrite <- TT in HU, HD, HL, HC.
  destruct (int_unit_ok M fuel' m2 st counts r') as (rs' & p0' & q' & HT' & E1' & E2' & E3' & E4' & S2); try assumption; [lra|].
  rewrite L2, TT, <- L1 in E1'. assert (rs' = rs) by congruence. subst rs'. assert (p0' = p0) by congruence. subst p0'.
  assert (U : forall a b k p x, same_trade a b -> tree_utility sel a k p x = tree_utility sel b k p x).
  { intros a b k p x (A1 & A2 & A3 & _). unfold tree_utility. rewrite A1, A3. reflexivity. }
  rewrite (U _ _ _ _ _ S1), (U _ _ _ _ _ S2). assert (T := proj1 (proj2 S1)). rewrite T, L1 in E1. rewrite L1 in E3.
  eapply tree_truthful; try eassumption.
Qed.

(** Termination for unit counts. *)
Theorem int_unit_terminates : forall M B fuel m st counts t, 0 < M -> new_int_tree (clone_market m) counts st = Ok t ->
  unit_counts counts t -> distinct_categories t -> leaf_last t -> tchildren t <> [] ->
  values_within B m -> 2 * B * Qn (height t) <= M -> no_ties m ->
  (forall i, In i (node_indices t) -> (0 < csize (cat_at m i))%nat) -> (agents_number m < fuel)%nat ->
  exists r, int_auction M fuel m st counts = Ok r.
Proof.
  intros M B fuel m st counts t HM HT HU HD HL HC HV HB NT NE HF.
  destruct (int_unit_start M m st counts t ltac:(lra) HT HU HD HL) as (rs & p0 & E1 & E2 & E3).
  assert (X := int_unit_same M fuel m st counts t rs p0 HT HU HD HC E1 E2).
  destruct (moderate_terminates M B p0 fuel m st t rs) as [r' R]; try assumption; [eapply int_tree_binary; eassumption|].
  rewrite R in X. destruct (int_auction M fuel m st counts) as [r|e|]; try contradiction. eauto.
Qed.

(** A check of [leaf_last]. *)
Definition leaf_last_b (t : rtree) : bool :=
  forallb (fun p => forallb (fun i => (i <? last p 0)%nat) (removelast p)) (root_leaf_paths t).

Lemma leaf_last_check : forall t, leaf_last_b t = true -> leaf_last t.
Proof.
  intros t H p i j HP Hi. unfold leaf_last_b in H. rewrite forallb_forall in H. apply root_leaf_paths_In in HP.
  specialize (H _ HP). rewrite last_last, removelast_last, forallb_forall in H. apply Nat.ltb_lt. apply H. assumption.
Qed.

(** The gain reported for the remaining agents is at most the optimal gain, and is achieved by a trade among them. *)
Theorem int_at_most_optimal : forall M fuel m st counts r opt k g, 0 <= M -> int_auction M fuel m st counts = Ok r ->
  distinct_categories (tt_tree r) -> values_above (- M) m ->
  int_optimal_trade (clone_market m) counts (tt_tree r) = (opt, k, g) ->
  tt_gft r <= g
  /\ (exists D, int_optimal (tt_cats r) counts (tt_tree r) D /\ int_gain D == tt_gft r)
  /\ (exists D, int_feasible (tt_cats r) counts (tt_tree r) D /\ length D = tt_deals r)
  /\ (forall D, int_feasible (tt_cats r) counts (tt_tree r) D -> (length D <= tt_deals r)%nat).
Proof.
  intros M fuel m st counts r opt k g HM H HD HV HO.
  destruct (int_auction_returned _ _ _ _ _ _ H) as (rs & p0 & s & R). assert (HP := ir_positive _ _ _ _ _ _ _ _ _ R).
  destruct (int_final _ _ _ _ _ _ HM H HD HV) as (rs' & s' & I & E1 & E2).
  assert (CL : length (clone_market m) = length m) by (unfold clone_market; apply map_length).
  assert (RG := new_tree_indices _ _ _ (int_tree_binary _ _ _ _ (ir_tree _ _ _ _ _ _ _ _ _ R))). rewrite CL in RG.
  assert (LP : length (tt_prices r) = length m) by (rewrite E2; destruct I as [[] _ _ _]; assumption).
  destruct (int_optimal_trade_spec _ _ _ _ _ _ HP HD HO) as (D0 & O0 & _ & _ & G0 & _).
  assert (TG : tt_gft r = int_optimal_trade_GFT (tt_cats r) counts (tt_tree r)
            /\ exists x, int_deals_explained (tt_cats r) counts (tt_prices r) (tt_tree r) = Ok x /\ tt_deals r = fst (fst x)).
  { unfold int_auction in H. apply bind_Ok in H. destruct H as [t [_ H]]. apply bind_Ok in H. destruct H as [a [_ H]].
    apply bind_Ok in H. destruct H as [b [_ H]]. apply bind_Ok in H. destruct H as [c [_ H]]. unfold new_int_trade in H.
    apply bind_Ok in H. destruct H as [x [Hx H]]. injection H; intros <-. cbn [tt_gft tt_cats tt_tree tt_prices tt_deals]. eauto. }
  destruct TG as [TG (x & Ex & TD)].
  destruct (int_explained_ok (tt_cats r) counts (tt_prices r) (tt_tree r) HP) as (kmax & Ek & _); [rewrite LP; exact RG|].
  rewrite Ek in Ex. injection Ex; intros <-. cbn [fst] in TD.
  destruct (int_deals_max (tt_cats r) counts (tt_tree r) (tt_deals r) HP) as [DM1 DM2].
  { rewrite int_deals_ok by assumption. rewrite TD. reflexivity. }
  destruct (int_optimal_trade (tt_cats r) counts (tt_tree r)) as [[o1 k1] g1] eqn:EO.
  destruct (int_optimal_trade_spec _ _ _ _ _ _ HP HD EO) as (D1 & O1 & _ & _ & G1 & G2 & _).
  split; [|split; [|split; [apply DM2; assumption|assumption]]].
  - rewrite TG, <- G2, G1, G0. apply O0. destruct O1 as [[F1 F2] _]. split; [assumption|]. intros i.
    destruct (F2 i) as [rest P]. destruct I as [_ PF _ _]. specialize (PF i). rewrite E1 in P. unfold pfx in PF.
    exists (rest ++ skipn (length (cvalues (cat_at (fst s') i))) (cvalues (cat_at (clone_market m) i))).
    rewrite app_assoc. rewrite P. rewrite PF at 1. rewrite firstn_skipn. reflexivity.
  - exists D1. split; [assumption|]. rewrite TG, <- G2, G1. reflexivity.
Qed.

Theorem int_counters_leaf : forall cats counts i opt k g, (0 < count_at counts i)%nat ->
  int_optimal_trade cats counts (Node i []) = (opt, k, g) ->
  exists g' kmin kmax, int_optimal_trade_with_counters cats counts (Node i []) = Ok (opt, (k, g', kmin, kmax)) /\ g' == g.
Proof.
  intros cats counts i opt k g HP H. unfold int_optimal_trade in H. unfold int_optimal_trade_with_counters.
  cbn [int_counted_groups detailed_sets bind] in *. rewrite value_groups_sort by assumption.
  set (o := filter (fun d => Qle_bool 0 (Qsum d)) (value_groups cats counts i)) in *. injection H; intros <- <- <-.
  eexists. eexists. eexists. split; [reflexivity|]. rewrite Qsum_concat. reflexivity.
Qed.
