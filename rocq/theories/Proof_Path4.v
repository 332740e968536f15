(** * The tree auction of a path against the single-recipe auction (C71) *)

From Coq Require Import String List Arith Lia QArith Lqa Permutation Sorted Bool.
From Verif Require Import Base Model_Agents Model_Trade Model_Prices Model_Market Model_Ascending Model_RecipeTree Model_TreeAuction
  Spec_Market Spec_Trade Spec_Ascending Spec_RecipeTree Spec_TreeAuction Spec_Path
  Proof_Market Proof_Trade Proof_Prices Proof_Tree Proof_Tree3 Proof_TA1 Proof_TA2 Proof_TA3 Proof_TA7
  Proof_Ascending Proof_Ascending2 Proof_Path1 Proof_Path2 Proof_Path3.
Import ListNotations.
Open Scope Q_scope.

Lemma used_relevant : forall recipe, used recipe = relevant_indices recipe.
Proof.
  intros. unfold used, relevant_indices. apply filter_ext. intros i. destruct (nth i recipe 0%nat); reflexivity.
Qed.

Lemma build_path : forall n l i t,
  build_node n (SInt i) (match l with [] => SNone | j :: l' => path_struct j l' end) = Ok t -> t = path_tree i l.
Proof.
  intros n. induction l as [|j l IH]; intros i t H.
  - cbn [build_node] in H. destruct (i <? n)%nat; [|discriminate]. injection H; intros <-. reflexivity.
  - assert (E : path_struct j l = SList [SInt j; match l with [] => SNone | k :: l' => path_struct k l' end]) by (destruct l; reflexivity).
    rewrite E in H. cbn [build_node] in H. destruct (i <? n)%nat; [|discriminate].
    apply bind_Ok in H. destruct H as [cs [H1 H2]]. injection H2; intros <-.
    apply bind_Ok in H1. destruct H1 as [t1 [H1 H3]]. cbn [bind] in H3. injection H3; intros <-.
    apply IH in H1. subst t1. reflexivity.
Qed.

Lemma new_tree_path : forall cats i l t, new_tree cats (path_struct i l) = Ok t -> t = path_tree i l.
Proof.
  intros cats i l t H.
  assert (E : path_struct i l = SList [SInt i; match l with [] => SNone | k :: l' => path_struct k l' end]) by (destruct l; reflexivity).
  rewrite E in H. cbn [new_tree length Nat.even] in H. eapply build_path. exact H.
Qed.

Lemma paths_path : forall l i, root_leaf_paths (path_tree i l) = [i :: l].
Proof.
  induction l as [|j l IH]; intros i; [reflexivity|]. cbn [path_tree root_leaf_paths map concat].
  rewrite IH. reflexivity.
Qed.

Lemma path_deals : forall cats l i,
  (forall j, In j (i :: l) -> (tree_num_of_deals cats (path_tree i l) <= csize (cat_at cats j))%nat)
  /\ exists j, In j (i :: l) /\ csize (cat_at cats j) = tree_num_of_deals cats (path_tree i l).
Proof.
  intros cats. induction l as [|k l IH]; intros i.
  - cbn [path_tree tree_num_of_deals]. split; [intros j [<-|[]]; lia|]. exists i. split; [left|]; reflexivity.
  - destruct (IH k) as [A [j [Hj Ej]]].
    change (tree_num_of_deals cats (path_tree i (k :: l)))
      with (Nat.min (tree_num_of_deals cats (path_tree k l) + 0) (csize (cat_at cats i))).
    rewrite Nat.add_0_r. split.
    + intros j' [<-|Hj']; [lia|]. specialize (A j' Hj'). lia.
    + destruct (le_lt_dec (csize (cat_at cats i)) (tree_num_of_deals cats (path_tree k l))) as [L|L].
      * exists i. split; [left; reflexivity|]. lia.
      * exists j. split; [right; assumption|]. lia.
Qed.

Lemma binary_forall : forall recipe, Forall (fun x => x = 0%nat \/ x = 1%nat) recipe -> binary recipe.
Proof.
  intros recipe H j. rewrite Forall_forall in H. destruct (lt_dec j (length recipe)) as [L|L].
  - destruct (H _ (nth_In recipe 0%nat L)); lia.
  - rewrite nth_overflow by lia. lia.
Qed.

Lemma path_recipe_eq : forall n recipe p r, length recipe = n -> binary recipe ->
  Permutation p (relevant_indices recipe) -> path_recipe n p r -> r = recipe.
Proof.
  intros n recipe p r HL HB HP [HL' HI]. apply nth_ext with (d := 0%nat) (d' := 0%nat); [congruence|].
  intros j Hj. rewrite HL' in Hj. destruct (HI j Hj) as [A A'].
  destruct (in_dec Nat.eq_dec j p) as [Y|Y].
  - rewrite (nth_error_nth _ _ _ (A Y)). apply (Permutation_in _ HP) in Y. rewrite (relevant_one _ _ HB Y). reflexivity.
  - rewrite (nth_error_nth _ _ _ (A' Y)). destruct (nth j recipe 0%nat) eqn:E; [reflexivity|].
    exfalso. apply Y. apply (Permutation_in _ (Permutation_sym HP)). apply relevant_In. split; lia.
Qed.

(** Optimal initial prices of a single binary recipe. *)
Lemma optimal_single : forall M n recipe p0, length recipe = n -> binary recipe ->
  initial_prices_optimal n [recipe] (- M) p0 -> forall j, In j (relevant_indices recipe) -> nth j p0 0 == - M.
Proof.
  intros M n recipe p0 HL HB [[Hp [HF [S HS]]] HO] i Hi. assert (Ri := proj1 (relevant_In _ _) Hi).
  rewrite Forall_forall in HF.
  assert (LE : forall j, (j < length recipe)%nat -> nth j p0 0 <= - M) by (intros j Hj; apply HF; apply nth_In; lia).
  assert (X : - M * Qn (nsum recipe) <= S).
  { apply (HO (repeat (- M) n)); [|exact HS|].
    - split; [apply repeat_length|]. split; [apply Forall_forall; intros x Hx; apply repeat_spec in Hx; rewrite Hx; lra|].
      exists (- M * Qn (nsum recipe)). intros r [<-|[]]. rewrite dot_wdot by (rewrite repeat_length; auto).
      rewrite <- wdot_const. apply wdot_ext. intros j Hj _.
      rewrite (nth_indep _ 0 (- M)) by (rewrite repeat_length; lia). rewrite nth_repeat. reflexivity.
    - intros r [<-|[]]. rewrite dot_wdot by (rewrite repeat_length; auto). rewrite <- wdot_const. apply wdot_ext.
      intros j Hj _. rewrite (nth_indep _ 0 (- M)) by (rewrite repeat_length; lia). rewrite nth_repeat. reflexivity. }
  assert (Y : S <= - M * Qn (nsum recipe) + (nth i p0 0 - - M)).
  { rewrite <- (HS recipe (or_introl eq_refl)). rewrite dot_wdot by lia. rewrite <- wdot_const.
    assert (Z := wdot_update (fun _ => - M) (fun j => if (j =? i)%nat then nth i p0 0 else - M) recipe i (proj1 Ri)).
    rewrite (relevant_one _ _ HB Hi), Qn_1, Nat.eqb_refl in Z.
    assert (W : wdot (fun j => nth j p0 0) recipe <= wdot (fun j => if (j =? i)%nat then nth i p0 0 else - M) recipe).
    { apply wdot_le. intros j Hj _. destruct (Nat.eqb_spec j i) as [->|_]; [lra|]. apply LE. assumption. }
    rewrite Z in W.
    - lra.
    - intros j Hj. destruct (Nat.eqb_spec j i); [contradiction|reflexivity]. }
  assert (Z := LE i (proj1 Ri)). lra.
Qed.

Lemma wdot_binary : forall f recipe, binary recipe -> wdot f recipe == Qsum (map f (relevant_indices recipe)).
Proof.
  intros f recipe HB. unfold wdot, relevant_indices. generalize (seq 0 (length recipe)). intros s.
  induction s as [|j s IH]; [reflexivity|]. cbn [map filter]. rewrite Qsum_cons, IH. specialize (HB j).
  destruct (nth j recipe 0%nat) as [|[|k]] eqn:E; [| |lia].
  - cbn [Nat.ltb Nat.leb]. rewrite Qn_0. ring.
  - cbn [Nat.ltb Nat.leb map]. rewrite Qsum_cons, Qn_1. ring.
Qed.

Lemma Qsum_bound : forall (f : nat -> Q) q l, l <> [] -> (forall j, In j l -> f j < q) -> Qsum (map f l) < Qn (length l) * q.
Proof.
  intros f q l. induction l as [|i l IH]; intros HN H; [contradiction|]. cbn [map length]. rewrite Qsum_cons.
  rewrite Qn_S. assert (Hi := H i (or_introl eq_refl)). destruct l as [|k l].
  - cbn [map length]. rewrite Qn_0. unfold Qsum. simpl. lra.
  - assert (X : Qsum (map f (k :: l)) < Qn (length (k :: l)) * q).
    { apply IH; [discriminate|]. intros j Hj. apply H. right. assumption. }
    lra.
Qed.

(** With one used category at the price [- M], the price sum is negative. *)
Lemma low_sum : forall M m recipe ns j0, 0 < M -> binary recipe -> In j0 (relevant_indices recipe) ->
  pr M m ns j0 == - M ->
  (forall j v, In v (vals m j) -> v * Qn (length (relevant_indices recipe) - 1) < M) ->
  psum M m recipe ns < 0.
Proof.
  intros M m recipe ns j0 HM HB Hj Hp HV. unfold psum. rewrite wdot_binary by assumption.
  apply in_split in Hj. destruct Hj as [a [b E]]. rewrite E in *. rewrite map_app, Qsum_app. cbn [map]. rewrite Qsum_cons, Hp.
  assert (L : length (a ++ j0 :: b) = S (length (a ++ b))) by (rewrite !app_length; simpl; lia).
  rewrite L in HV. cbn [Nat.sub] in HV. rewrite Nat.sub_0_r in HV.
  assert (X : Qsum (map (pr M m ns) (a ++ b)) < M).
  { destruct (a ++ b) as [|k l] eqn:Ek; [unfold Qsum; simpl; assumption|].
    assert (K : 0 < Qn (length (k :: l))) by (apply Qn_pos; simpl; lia).
    eapply Qlt_le_trans; [apply (Qsum_bound _ (M / Qn (length (k :: l)))); [discriminate|]|].
    - intros j _. apply Qlt_shift_div_l; [assumption|]. unfold pr.
      destruct (lt_dec (nth j ns 0%nat) (length (vals m j))) as [Y|Y].
      + apply (HV j). apply nth_In. assumption.
      + rewrite nth_overflow by lia. nra.
    - assert (Z : Qn (length (k :: l)) * (M / Qn (length (k :: l))) == M) by (field; lra). rewrite Z. lra. }
  rewrite map_app, Qsum_app in X. lra.
Qed.

Lemma clone_length' : forall m, length (clone_market m) = length m.
Proof. intros. apply map_length. Qed.

Lemma vals_clone : forall m j v, In v (vals (clone_market m) j) <-> In v (cvalues (cat_at m j)).
Proof.
  intros m j v. unfold vals. change (nth j (clone_market m) dcat) with (cat_at (clone_market m) j).
  rewrite clone_at. apply clone_In.
Qed.

Lemma sdesc_clone : forall m, no_ties m -> forall j, sdesc (vals (clone_market m) j).
Proof.
  intros m NT j. unfold vals. change (nth j (clone_market m) dcat) with (cat_at (clone_market m) j).
  rewrite clone_at. unfold clone, new_category. simpl. apply desc_differ; [apply sort_desc_desc|].
  eapply differ_perm; [apply Permutation_sym, sort_desc_perm|]. apply differ_intro. intros l1 x l2 y l3 E.
  unfold cat_at in E. destruct (lt_dec j (length m)) as [L|L].
  - eapply NT; [apply nth_In; exact L|exact E].
  - rewrite nth_overflow in E by lia. simpl in E. destruct l1; discriminate.
Qed.

(** What both auctions have done. *)
Record both (M : Q) (m' : market) (recipe : list nat) (i : nat) (l : list nat) (r : tree_trade) (t : trade) : Prop := mkBoth {
  b_len : length recipe = length m';
  b_bin : binary recipe;
  b_mono : forall ns ns', (forall j, In j (relevant_indices recipe) -> (nth j ns' 0 <= nth j ns 0)%nat) ->
    psum M m' recipe ns <= psum M m' recipe ns';
  b_start : psum M m' recipe (sizes0 m') < 0;
  b_walks : exists ns1 s1 ns2 s2,
    walk (psum M m' recipe) (sch recipe) (sE recipe) (sizes0 m') ns1 s1
    /\ walk (psum M m' recipe) (fun ns => tch (fun j => nth j ns 0%nat) i l) (tE i) (sizes0 m') ns2 s2
    /\ tcats t = shrink m' ns1 /\ tprices t = Some (final_prices M m' recipe ns1 s1)
    /\ min_is (relevant_indices recipe) (num_of_deals t) ns1
    /\ tt_cats r = shrink m' ns2 /\ length (tt_prices r) = length m'
    /\ (forall j, In j (relevant_indices recipe) -> nth j (tt_prices r) 0 == nth j (final_prices M m' recipe ns2 s2) 0)
    /\ min_is (relevant_indices recipe) (tt_deals r) ns2
}.

Lemma sizes_after : forall F ch E ns ns' stop m, walk F ch E ns ns' stop -> sizes_ok m ns -> sizes_ok m ns'.
Proof.
  intros F ch E ns ns' stop m W. induction W; intros H1; auto. apply IHW. apply dec_ok. assumption.
Qed.

Lemma both_intro : forall M p0 fuel fuel' m recipe i l r t, 0 < M ->
  Forall (fun x => x = 0%nat \/ x = 1%nat) recipe -> Permutation (i :: l) (used recipe) ->
  no_ties m -> values_over (- M) m -> initial_prices_optimal (length m) [recipe] (- M) p0 ->
  tree_auction M p0 fuel m (path_struct i l) = Ok r -> ascending_auction_M M fuel' m recipe = Ok t ->
  both M (clone_market m) recipe i l r t.
Proof.
  intros M p0 fuel fuel' m recipe i l r t HM HB Hr NT HV HO HT HA.
  rewrite used_relevant in Hr. apply binary_forall in HB.
  destruct (auction_outcome _ _ _ _ _ HA) as (Hl & Hpos & ns1 & s1 & Ho & Habs & Et & Hs & Hmax).
  set (m' := clone_market m) in *.
  assert (NE : relevant_indices recipe <> []) by (intros E; rewrite E in Hr; apply Permutation_sym, Permutation_nil in Hr; discriminate).
  assert (IN : forall j, In j (relevant_indices recipe) <-> In j (i :: l)) by (intros j; split; apply Permutation_in; [symmetry|]; exact Hr).
  destruct (auction_returned _ _ _ _ _ _ HT) as (rs & sp & s' & R).
  assert (ET := new_tree_path _ _ _ _ (rt_tree _ _ _ _ _ _ _ _ _ R)).
  assert (SU := rt_setup _ _ _ _ _ _ _ _ _ R). rewrite ET in SU.
  assert (Hl0 : length recipe = length m) by (rewrite Hl; apply clone_length').
  assert (ERS : rs = [recipe]).
  { assert (X := su_recipes _ _ _ SU). rewrite paths_path in X. inversion X as [|? y ? ys Y1 Y2]; subst. inversion Y2; subst. f_equal.
    eapply path_recipe_eq; eassumption. }
  subst rs.
  assert (HV' : forall j v, In v (vals m' j) -> - M < v).
  { intros j v Hv. apply (proj1 (vals_clone _ _ _)) in Hv. destruct (cat_at_In _ _ _ Hv) as [HI _]. exact (HV _ _ HI Hv). }
  assert (SM : sorted_market m') by apply clone_sorted.
  assert (VL : values_at_least (- M) m').
  { intros c v Hc Hv. apply Qlt_le_weak. apply In_nth with (d := dcat) in Hc. destruct Hc as [j [_ Ej]].
    apply (HV' j). unfold vals. rewrite Ej. assumption. }
  assert (HOj := optimal_single M (length m) recipe p0 Hl0 HB HO). destruct HO as [[HL [HF [S HS]]] _].
  destruct (start_good _ _ _ _ _ m' SU (rt_sp _ _ _ _ _ _ _ _ _ R)) with (S := S) as [G EP];
    [apply clone_length'|assumption|assumption|].
  assert (R0 : rel M m' recipe (m', sp) (sizes0 m')).
  { split.
    - apply sizes0_ok.
    - cbn [cats_of fst]. symmetry. apply shrink_start.
    - intros j Hj. enough (X0 : nth j p0 0 == pr M m' (sizes0 m') j) by (rewrite <- EP in X0; exact X0).
      rewrite (HOj j Hj). unfold pr. rewrite sizes0_nth, nth_overflow by lia. reflexivity.
    - intros j Hj _. split; [apply sizes0_nth|]. enough (X0 : nth j p0 0 <= - M) by (rewrite <- EP in X0; exact X0).
      rewrite Forall_forall in HF. apply HF. apply nth_In. rewrite HL. unfold m' in Hj. rewrite clone_length' in Hj. assumption. }
  assert (HLP := rt_loop _ _ _ _ _ _ _ _ _ R). rewrite ET in HLP. fold m' in HLP.
  assert (SU' : setup (length m') (path_tree i l) [recipe]) by (unfold m'; rewrite clone_length'; exact SU).
  assert (G' : good (length m') [recipe] (m', sp) S) by (unfold m'; rewrite clone_length'; exact G).
  destruct (sim_loop M m' recipe i l Hl HB Hr (sdesc_clone m NT) HV' SU' _ _ _ _ _ R0 G' HLP) as (ns2 & s2 & W2 & FC & FP).
  assert (LP : length (tt_prices r) = length m).
  { rewrite (rt_prices _ _ _ _ _ _ _ _ _ R).
    assert (SN : exists S0, good (length m) [recipe] (m', sp) S0 /\ S0 < 0).
    { exists S. split; [exact G|]. rewrite (rel_sum M m' recipe Hl _ _ _ R0 G'). apply start_negative; assumption. }
    destruct (Proof_TA3.loop_visited _ _ _ _ _ _ (tv_start _ _ _) HLP) as [s9 [V9 HR9]].
    destruct (sums_visited _ _ _ _ _ _ SU SN V9) as [S9 [G9 _]].
    destruct (round_inv _ _ _ _ _ _ _ _ SU G9 HR9) as [(_ & -> & _)|[d [_ [G8 _]]]].
    - apply (g_prices _ _ _ _ G9).
    - apply (g_prices _ _ _ _ G8). }
  assert (W1 := abs_walk _ _ _ _ _ _ _ NE Habs).
  assert (O1 := sizes_after _ _ _ _ _ _ _ W1 (sizes0_ok m')). assert (O2 := sizes_after _ _ _ _ _ _ _ W2 (sizes0_ok m')).
  split; [assumption|assumption| | |].
  - intros ns ns' H. apply psum_mono; assumption.
  - apply start_negative; assumption.
  - exists ns1, s1, ns2, s2. split; [assumption|]. split; [assumption|]. rewrite Et. cbn [tcats tprices].
    split; [reflexivity|]. split; [reflexivity|]. rewrite <- Et. split; [|split; [|split; [|split]]].
    + destruct (min_exists _ NE ns1) as [n [A [k [Hk Ek]]]].
      assert (N1 : (n <= num_of_deals t)%nat).
      { apply Hmax. intros j c q Hc Hq. assert (Lj : (j < length recipe)%nat) by (apply nth_error_Some; congruence).
        apply (nth_error_nth _ _ dcat) in Hc. apply (nth_error_nth _ _ 0%nat) in Hq. subst c q.
        change (nth j (shrink m' ns1) dcat) with (cat_at (shrink m' ns1) j). rewrite size_shrink by assumption.
        destruct (nth j recipe 0%nat) as [|q] eqn:Eq; [lia|].
        assert (Ij : In j (relevant_indices recipe)) by (apply relevant_In; split; [assumption|lia]).
        rewrite <- Eq, (relevant_one _ _ HB Ij). specialize (A j Ij). lia. }
      assert (N2 : (num_of_deals t <= n)%nat).
      { assert (Ik := proj1 (relevant_In _ _) Hk). specialize (Hs k (cat_at (shrink m' ns1) k) 1%nat).
        rewrite size_shrink, Ek in Hs by assumption. rewrite Nat.mul_1_r in Hs. apply Hs.
        - unfold cat_at. apply nth_error_nth'. rewrite shrink_length. lia.
        - rewrite <- (relevant_one _ _ HB Hk). apply nth_error_nth'. tauto. }
      assert (n = num_of_deals t) by lia. rewrite <- H. split; [assumption|]. exists k. auto.
    + rewrite (rt_cats _ _ _ _ _ _ _ _ _ R). assumption.
    + rewrite LP. symmetry. apply clone_length'.
    + intros j Hj. rewrite (rt_prices _ _ _ _ _ _ _ _ _ R). apply FP. assumption.
    + assert (X := rt_explained _ _ _ _ _ _ _ _ _ R).
      assert (DE : tt_deals r = tree_num_of_deals (cats_of s') (path_tree i l)).
      { destruct (deals_explained_ok (cats_of s') (Proof_TA2.prices_of s') (tt_tree r)) as (k1 & k2 & Y & _).
        - rewrite <- (rt_prices _ _ _ _ _ _ _ _ _ R). rewrite ET.
          rewrite LP. apply SU.
        - rewrite X in Y. injection Y; intros _ _ Y'. rewrite ET in Y'. exact Y'. }
      rewrite DE, FC. destruct (path_deals (shrink m' ns2) l i) as [A [k [Hk Ek]]]. split.
      * intros j Hj. rewrite <- size_shrink with (m := m') by assumption. apply A. apply IN. assumption.
      * exists k. split; [apply IN; assumption|]. rewrite <- Ek. symmetry. apply size_shrink. assumption.
Qed.

(** The leaf of the path is the first used category: the same number of deals. *)
Theorem path_same_deals : forall M p0 fuel fuel' m recipe i l r t, 0 < M ->
  Forall (fun x => x = 0%nat \/ x = 1%nat) recipe -> Permutation (i :: l) (used recipe) ->
  last (i :: l) 0%nat = hd 0%nat (used recipe) ->
  no_ties m -> values_over (- M) m -> initial_prices_optimal (length m) [recipe] (- M) p0 ->
  tree_auction M p0 fuel m (path_struct i l) = Ok r -> ascending_auction_M M fuel' m recipe = Ok t ->
  tt_deals r = num_of_deals t.
Proof.
  intros M p0 fuel fuel' m recipe i l r t HM HB Hr HH NT HV HO HT HA.
  destruct (both_intro _ _ _ _ _ _ _ _ _ _ HM HB Hr NT HV HO HT HA) as [Hl B MO ST (ns1 & s1 & ns2 & s2 & W1 & W2 & _ & _ & M1 & _ & _ & _ & M2)].
  rewrite used_relevant in *.
  assert (NE : relevant_indices recipe <> []) by (intros E; rewrite E in Hr; apply Permutation_sym, Permutation_nil in Hr; discriminate).
  assert (SR := single_rule recipe B NE). assert (ND := relevant_nodup recipe).
  destruct (relevant_indices recipe) as [|c b1] eqn:Ei; [contradiction|]. cbn [hd] in HH.
  destruct (rev (i :: l)) as [|c' b2] eqn:Er; [apply (f_equal (@length nat)) in Er; rewrite rev_length in Er; discriminate|].
  assert (Ec : c' = c).
  { rewrite <- HH. rewrite <- (rev_involutive (i :: l)), Er. cbn [rev]. rewrite last_last. reflexivity. }
  subst c'. assert (PM : Permutation b1 b2).
  { apply Permutation_cons_inv with (a := c). rewrite <- Hr, <- Er. apply Permutation_rev. }
  assert (TR : rule (c :: b2) (fun ns => tch (fun j => nth j ns 0%nat) i l) (tE i)).
  { apply tree_rule. rewrite <- Er, rev_involutive. reflexivity. }
  assert (M2' : min_is (c :: b2) (tt_deals r) ns2).
  { destruct M2 as [A [k [Hk Ek]]]. split.
    - intros j Hj. apply A. eapply Permutation_in; [apply perm_skip, Permutation_sym; exact PM|exact Hj].
    - exists k. split; [|exact Ek]. eapply Permutation_in; [apply perm_skip; exact PM|exact Hk]. }
  symmetry. eapply (same_min_orders (psum M (clone_market m) recipe) c b1 b2 ND PM MO); eassumption.
Qed.

Theorem path_same_outcome : forall M p0 fuel fuel' m recipe i l r t, 0 < M ->
  Forall (fun x => x = 0%nat \/ x = 1%nat) recipe -> rev (used recipe) = i :: l ->
  no_ties m -> values_over (- M) m -> initial_prices_optimal (length m) [recipe] (- M) p0 ->
  (forall j, In j (used recipe) -> (0 < csize (cat_at m j))%nat) ->
  (forall c v, In c m -> In v (cvalues c) -> v * Qn (length l) < M) ->
  tree_auction M p0 fuel m (path_struct i l) = Ok r -> ascending_auction_M M fuel' m recipe = Ok t ->
  tt_deals r = num_of_deals t /\ tt_cats r = tcats t
  /\ exists prices, tprices t = Some prices
     /\ forall j, In j (used recipe) -> exists p q, nth_error (tt_prices r) j = Some p /\ nth_error prices j = Some q /\ p == q.
Proof.
  intros M p0 fuel fuel' m recipe i l r t HM HB Hr NT HV HO HNE HVB HT HA.
  assert (PM : Permutation (i :: l) (used recipe)) by (rewrite <- Hr; apply Permutation_sym, Permutation_rev).
  assert (NU : used recipe <> []) by (intros E; rewrite E in Hr; discriminate).
  split.
  { apply (path_same_deals M p0 fuel fuel' m recipe i l r t); try assumption.
    rewrite <- Hr. destruct (used recipe) as [|c b]; [contradiction|]. cbn [rev hd]. apply last_last. }
  destruct (both_intro _ _ _ _ _ _ _ _ _ _ HM HB PM NT HV HO HT HA)
    as [Hl B MO ST (ns1 & s1 & ns2 & s2 & W1 & W2 & EC & EP & M1 & EC2 & LP & EP2 & M2)].
  rewrite used_relevant in *. set (m' := clone_market m) in *.
  assert (NE : relevant_indices recipe <> []) by (intros E; rewrite E in Hr; discriminate).
  assert (LL : length (relevant_indices recipe) = S (length l)) by (rewrite <- rev_length, Hr; reflexivity).
  destruct (same_end _ _ (relevant_nodup recipe) NE MO _ _ _ _ _ _ _ _ _ (single_rule recipe B NE) (tree_rule _ _ _ Hr) W1 W2 ST) as [-> ->].
  - intros j Hj. rewrite sizes0_nth. specialize (HNE j Hj). unfold vals, m'.
    change (nth j (clone_market m) dcat) with (cat_at (clone_market m) j). rewrite clone_at.
    unfold csize in HNE. unfold clone, new_category. simpl. rewrite sort_desc_length. assumption.
  - intros n ns [A [j0 [Hj0 E0]]] HLv. apply (low_sum M m' recipe ns j0 HM B Hj0).
    + unfold pr. rewrite (HLv j0 Hj0). rewrite sizes0_nth in E0. rewrite nth_overflow by lia. reflexivity.
    + intros j v Hv. rewrite LL. cbn [Nat.sub]. rewrite Nat.sub_0_r. apply (proj1 (vals_clone _ _ _)) in Hv.
      destruct (cat_at_In _ _ _ Hv) as [HI _]. exact (HVB _ _ HI Hv).
  - split; [congruence|]. eexists. split; [exact EP|]. intros j Hj.
    assert (Lj : (j < length m')%nat) by (apply relevant_In in Hj; lia).
    exists (nth j (tt_prices r) 0), (nth j (final_prices M m' recipe ns2 s2) 0).
    split; [apply nth_error_nth'; lia|]. split; [apply nth_error_nth'; rewrite final_length; assumption|]. apply EP2. assumption.
Qed.
