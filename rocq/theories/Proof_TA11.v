(** * The competitive ratio of the tree auction (C63) *)

From Coq Require Import String List Arith NArith Lia QArith Lqa Permutation Sorted Bool.
From Verif Require Import Base Model_Agents Model_Trade Model_Prices Model_Market Model_RecipeTree Model_TreeAuction
  Spec_Market Spec_RecipeTree Spec_TreeAuction Spec_Ascending Proof_Strategy Proof_Tree Proof_Tree2 Proof_Tree3 Proof_TA1 Proof_TA2 Proof_TA3 Proof_TA4
  Proof_TA6 Proof_TA7 Proof_TA10.
Import ListNotations.
Open Scope Q_scope.

(** ** Helpers *)

Lemma at_least_rel : forall p l l', Forall2 Qeq l l' -> at_least p l = at_least p l'.
Proof.
  intros p l l' H. unfold at_least. induction H as [|a b l l' E H IH]; [reflexivity|]. cbn [filter].
  assert (X : Qle_bool p a = Qle_bool p b) by (apply eq_iff_eq_true; rewrite !Qle_bool_iff, E; reflexivity).
  rewrite X. destruct (Qle_bool p b); cbn [length]; congruence.
Qed.

Lemma at_least_compat : forall p q l, p == q -> at_least p l = at_least q l.
Proof.
  intros p q l H. unfold at_least. f_equal. apply filter_ext. intros a.
  apply eq_iff_eq_true. rewrite !Qle_bool_iff, H. reflexivity.
Qed.

Lemma at_least_children : forall p m ch first,
  at_least p (map md_sum (over_children (master m) first ch)) = nsum (map (fun c => at_least p (combined_values m c)) ch).
Proof.
  intros p m. induction ch as [|c ch IH]; intros first; [reflexivity|]. cbn [over_children map nsum fold_right].
  rewrite map_app, at_least_app, IH. f_equal. symmetry. apply at_least_rel.
  assert (X := combined_master m c first). induction X; simpl; constructor; assumption.
Qed.

Lemma zip_m_nth : forall i xs ys d, In d (zip_m i xs ys) -> exists k y, (k < length xs)%nat /\ nth_error ys k = Some y
  /\ d = mkM (i :: md_path y) (nth k xs 0 :: md_vals y) (md_leaf y).
Proof.
  intros i. induction xs as [|x xs IH]; intros [|y ys] d H; try (destruct H; fail). destruct H as [<-|H].
  - exists 0%nat, y. split; [simpl; lia|]. split; reflexivity.
  - destruct (IH ys d H) as (k & z & L & E & ->). exists (S k), z. split; [simpl; lia|]. split; [exact E|reflexivity].
Qed.

Lemma sorted_sums_desc : forall l, desc (map md_sum (sort_by_desc md_sum l)).
Proof.
  intros l. assert (X := sort_rel (fun d q => md_sum d == q) md_sum (fun x => x) (fun a b H => H) l (map md_sum l)).
  assert (Y : Forall2 Qeq (map md_sum (sort_by_desc md_sum l)) (sort_desc (map md_sum l))).
  { rewrite sort_desc_by. assert (Z : Forall2 (fun d q => md_sum d == q) l (map md_sum l)) by (clear; induction l; simpl; constructor; [reflexivity|assumption]).
    specialize (X Z). clear Z. induction X; simpl; constructor; assumption. }
  assert (D := sort_desc_desc (map md_sum l)). clear X. unfold desc in *. set (a := map md_sum _) in *. set (b := sort_desc _) in *. clearbody a b.
  induction Y as [|x y l1 l2 E F IH]; [constructor|]. inversion D; subst. constructor; [auto|].
  rewrite Forall_forall in *. intros z Hz. destruct (Forall2_In_l _ _ _ _ _ _ F Hz) as [w [Hw Ew]]. specialize (H2 w Hw). lra.
Qed.

Lemma subtree_cases : forall t x, subtree t x -> x = t \/ exists c, In c (tchildren t) /\ subtree c x.
Proof.
  intros t x H. induction H as [|i ch c H IH Hc]; [left; reflexivity|]. right.
  destruct IH as [<-|[c' [Hc' IH]]].
  - exists c. split; [exact Hc|constructor].
  - exists c'. split; [assumption|]. econstructor; eassumption.
Qed.

Lemma subtree_index : forall t x, subtree t x -> In (tindex x) (node_indices t).
Proof. intros t x H. eapply subtree_nodes; [exact H|apply tindex_node]. Qed.

Lemma subtree_unique : forall t x y, distinct_categories t -> subtree t x -> subtree t y -> tindex x = tindex y -> x = y.
Proof.
  intros t. induction t as [i ch IH] using rtree_ind'. intros x y HD Hx Hy E. rewrite Forall_forall in IH.
  assert (HC := fun c Hc => distinct_child i ch c HD Hc). apply distinct_inv in HD. destruct HD as [N1 N2].
  assert (IN : forall c z, In c ch -> subtree c z -> In (tindex z) (concat (map node_indices ch))).
  { intros c z Hc Hz. apply in_concat. exists (node_indices c). split; [apply in_map; assumption|apply subtree_index; assumption]. }
  destruct (subtree_cases _ _ Hx) as [->|[c [Hc Hx']]]; destruct (subtree_cases _ _ Hy) as [->|[c' [Hc' Hy']]]; cbn [tchildren tindex] in *.
  - reflexivity.
  - exfalso. apply N1. rewrite E. eapply IN; eassumption.
  - exfalso. apply N1. rewrite <- E. eapply IN; eassumption.
  - assert (c = c').
    { eapply (NoDup_concat_same rtree node_indices ch c c' (tindex x)); try eassumption; [apply subtree_index; assumption|].
      rewrite E. apply subtree_index. assumption. }
    subst c'. eapply IH; eauto.
Qed.

Lemma combine_In_l : forall (p : list nat) (vs : list Q) i v, In (i, v) (combine p vs) -> In i p.
Proof. intros. eapply in_combine_l. eassumption. Qed.

(** At position [k] both the category and the children reach their prices. *)
Lemma zip_at_least : forall m i ch p P k, sorted_cats m -> ch <> [] -> (k <= csize (cat_at m i))%nat ->
  (forall j, (j < k)%nat -> p <= nth j (cvalues (cat_at m i)) 0) ->
  (k <= nsum (map (fun c => at_least P (combined_values m c)) ch))%nat ->
  (k <= at_least (p + P) (combined_values m (Node i ch)))%nat.
Proof.
  intros m i ch p P k HS NE Hk HA HC. rewrite combined_node by assumption.
  set (b := sort_desc (concat (map (combined_values m) ch))).
  assert (HB : (k <= at_least P b)%nat) by (unfold b; rewrite (at_least_perm P _ _ (sort_desc_perm _)), at_least_concat; assumption).
  assert (LB := at_least_length P b). unfold csize in Hk.
  apply at_least_nth; [rewrite zip_add_length; lia|]. intros j Hj. rewrite zip_add_nth by lia.
  assert (X := HA j Hj). assert (Y := nth_at_least P b j (sort_desc_desc _) ltac:(lia)). lra.
Qed.

Lemma path_sum_lt : forall (f g : list Q) q l, (forall j, nth j f 0 <= nth j g 0) -> In l q -> nth l f 0 < nth l g 0 ->
  path_sum f q < path_sum g q.
Proof.
  intros f g q l H. unfold path_sum. induction q as [|a q IH]; intros Hl HL; [destruct Hl|]. cbn [map]. rewrite !Qsum_cons.
  assert (LE : Qsum (map (fun i => nth i f 0) q) <= Qsum (map (fun i => nth i g 0) q)).
  { clear -H. induction q as [|b q IH]; [simpl; lra|]. cbn [map]. rewrite !Qsum_cons. specialize (H b). lra. }
  destruct Hl as [->|Hl]; [lra|]. specialize (IH Hl HL). specialize (H a). lra.
Qed.

Section Ratio.
  Variables (M B : Q) (n : nat) (t : rtree) (rs : list (list nat)) (m : market) (p0 : list Q).
  Hypothesis SU : setup n t rs.
  Hypothesis HD : distinct_categories t.
  Hypothesis HS : sorted_cats m.
  Hypothesis HSD : forall i, sdesc (cvalues (cat_at m i)).
  Hypothesis HB0 : 0 <= B.
  Hypothesis HM : 0 < M.
  Hypothesis HMB : 2 * B * Qn (height t) <= M.
  Hypothesis HV : forall i v, In v (cvalues (cat_at m i)) -> - B <= v <= B.
  Hypothesis HP0 : forall i, In i (node_indices t) -> nth i p0 0 <= - M.

  Let touched := touched p0.

  Record invW (s : tree_state) : Prop := mkInvW {
    w_E : invE M B n t rs m p0 s;
    w_act : forall i ch, subtree t (Node i ch) -> ch <> [] -> (forall c j, In c ch -> In j (node_indices c) -> touched s j) ->
      forall c p, In c ch -> is_path c p ->
      (sz s i <= nsum (map (fun c => at_least (path_sum (prices_of s) p) (combined_values m c)) ch))%nat
  }.

  Lemma remaining_nth : forall s i j, invA n rs m s -> (j < sz s i)%nat -> In (nth j (cvalues (cat_at m i)) 0) (cvalues (cat_at (cats_of s) i)).
  Proof.
    intros s i j IA Hj. rewrite <- (pfx_nth _ _ j (ia_pfx _ _ _ _ IA i)) by exact Hj. apply nth_In. exact Hj.
  Qed.

  Lemma round_prices : forall s s', invT M B n t rs m s -> tree_round M t s = Ok (false, s') ->
    balanced (prices_of s') t /\ (forall i v, In v (cvalues (cat_at (cats_of s) i)) -> pr s' i <= v).
  Proof.
    intros s s' I HR. assert (IA := t_A _ _ _ _ _ _ _ I). destruct (ia_good _ _ _ _ IA) as [S [G NS]].
    destruct (round_inv _ _ _ _ _ _ _ _ SU G HR) as [[X _]|[d [MV [G' _]]]]; [discriminate|].
    split; [eapply good_balanced; eassumption|].
    eapply moved_ir; [exact MV| |exact (ia_ir _ _ _ _ IA)].
    intros i. eapply pfx_desc; [apply (ia_pfx _ _ _ _ IA)|apply sorted_cats_at; assumption].
  Qed.

  Lemma siblings_sum : forall (pl : list Q) i ch p, balanced pl t -> subtree t (Node i ch) -> forall c, In c ch -> is_path c p ->
    forall c' p' x, In c' ch -> is_path c' p' -> at_least (path_sum pl p) x = at_least (path_sum pl p') x.
  Proof.
    intros pl i ch p BAL H c Hc Hp c' p' x Hc' Hp'. apply at_least_compat.
    exact (balanced_siblings _ _ _ _ _ p p' (balanced_sub _ _ _ BAL H) Hc Hc' Hp Hp').
  Qed.

  (** The sizes before a round and the prices after it. *)
  Lemma W_up : forall s s', invW s -> tree_round M t s = Ok (false, s') -> forall x, subtree t x ->
    (forall c j, In c (tchildren x) -> In j (node_indices c) -> touched s' j) -> forall p, is_path x p ->
    (sz s (tindex x) <= at_least (path_sum (prices_of s') p) (combined_values m x))%nat.
  Proof.
    intros s s' I HR. assert (T := e_T _ _ _ _ _ _ _ _ (w_E _ I)). assert (IA := t_A _ _ _ _ _ _ _ T).
    destruct (round_facts M B n t rs m SU HD HS HSD HB0 HM HMB HV _ _ T HR) as (I' & SAME & SZ & MONO).
    destruct (round_prices _ _ T HR) as [BAL IR'].
    intros x. induction x as [i ch IH] using rtree_ind'. intros H HT p Hp. rewrite Forall_forall in IH. cbn [tchildren tindex] in *.
    assert (SI := size_le M B n t rs m s i T).
    assert (HA : forall j, (j < sz s i)%nat -> pr s' i <= nth j (cvalues (cat_at m i)) 0).
    { intros j Hj. apply IR'. apply remaining_nth; assumption. }
    destruct (leaf_or_node _ _ _ Hp) as [[-> ->]|(NE & c & q & Hc & Hq & ->)].
    - cbn [combined_values]. rewrite (at_least_compat _ (pr s' i)) by apply path_sum_one. apply at_least_nth; assumption.
    - rewrite (at_least_compat _ (pr s' i + path_sum (prices_of s') q)) by apply path_sum_cons.
      apply zip_at_least; try assumption.
      assert (OLD : (forall c j, In c ch -> In j (node_indices c) -> ~ In j (chosen t s)) ->
        (sz s i <= nsum (map (fun c => at_least (path_sum (prices_of s') q) (combined_values m c)) ch))%nat).
      { intros NC.
        assert (TB : forall c j, In c ch -> In j (node_indices c) -> touched s j).
        { intros c1 j Hc1 Hj. specialize (HT c1 j Hc1 Hj). unfold touched, Proof_TA10.touched in *. destruct (SAME j (NC c1 j Hc1 Hj)) as [<- _]. assumption. }
        assert (X := w_act _ I i ch H NE TB c q Hc Hq).
        assert (PE : path_sum (prices_of s') q = path_sum (prices_of s) q).
        { unfold path_sum. f_equal. apply map_ext_in. intros j Hj. apply (SAME j). apply (NC c j Hc). eapply is_path_indices; eassumption. }
        rewrite PE. exact X. }
      destruct (in_dec Nat.eq_dec i (chosen t s)) as [Ci|Ci].
      + apply OLD. apply (chosen_node t (cats_of s) i ch HD H Ci).
      + destruct (chosen_restrict t (cats_of s) _ HD H) as [K|K].
        * apply OLD. intros c1 j Hc1 Hj. apply K. eapply child_node; eassumption.
        * destruct (largest_node (cats_of s) i ch) as [[E _]|[_ [CS NZ]]].
          { exfalso. apply Ci. unfold chosen. apply K; [left; reflexivity|]. rewrite E. left. reflexivity. }
          fold (sz s i) in CS. eapply Nat.le_trans; [exact CS|]. apply nsum_map_le. intros c1 Hc1.
          destruct (path_exists c1) as [q1 Hq1]. rewrite (siblings_sum _ _ _ _ BAL H c Hc Hq c1 q1 _ Hc1 Hq1).
          apply (IH c1 Hc1 (st_down _ _ _ _ H Hc1)); [|assumption].
          intros c2 j Hc2 Hj. apply (HT c1 j Hc1). destruct c1 as [k chk]. eapply child_node; eassumption.
  Qed.

  Lemma W_step : forall s s', invW s -> tree_round M t s = Ok (false, s') -> invW s'.
  Proof.
    intros s s' I HR. assert (T := e_T _ _ _ _ _ _ _ _ (w_E _ I)). assert (IA := t_A _ _ _ _ _ _ _ T).
    destruct (round_facts M B n t rs m SU HD HS HSD HB0 HM HMB HV _ _ T HR) as (I' & SAME & SZ & MONO).
    destruct (round_prices _ _ T HR) as [BAL IR']. split.
    - eapply invE_step; try eassumption. apply I.
    - intros i ch H NE HT c p Hc Hp.
      assert (UP : (sz s i <= nsum (map (fun c => at_least (path_sum (prices_of s') p) (combined_values m c)) ch))%nat); [|specialize (SZ i); lia].
      assert (OLD : (forall c j, In c ch -> In j (node_indices c) -> ~ In j (chosen t s)) ->
        (sz s i <= nsum (map (fun c => at_least (path_sum (prices_of s') p) (combined_values m c)) ch))%nat).
      { intros NC.
        assert (TB : forall c j, In c ch -> In j (node_indices c) -> touched s j).
        { intros c1 j Hc1 Hj. specialize (HT c1 j Hc1 Hj). unfold touched, Proof_TA10.touched in *. destruct (SAME j (NC c1 j Hc1 Hj)) as [<- _]. assumption. }
        assert (X := w_act _ I i ch H NE TB c p Hc Hp).
        assert (PE : path_sum (prices_of s') p = path_sum (prices_of s) p).
        { unfold path_sum. f_equal. apply map_ext_in. intros j Hj. apply (SAME j). apply (NC c j Hc). eapply is_path_indices; eassumption. }
        rewrite PE. exact X. }
      destruct (in_dec Nat.eq_dec i (chosen t s)) as [Ci|Ci].
      + apply OLD. apply (chosen_node t (cats_of s) i ch HD H Ci).
      + destruct (chosen_restrict t (cats_of s) _ HD H) as [K|K].
        * apply OLD. intros c1 j Hc1 Hj. apply K. eapply child_node; eassumption.
        * destruct (largest_node (cats_of s) i ch) as [[E _]|[_ [CS NZ]]].
          { exfalso. apply Ci. unfold chosen. apply K; [left; reflexivity|]. rewrite E. left. reflexivity. }
          fold (sz s i) in CS. eapply Nat.le_trans; [exact CS|]. apply nsum_map_le. intros c1 Hc1.
          destruct (path_exists c1) as [q1 Hq1]. rewrite (siblings_sum _ _ _ _ BAL H c Hc Hp c1 q1 _ Hc1 Hq1).
          apply (W_up s s' I HR c1 (st_down _ _ _ _ H Hc1)); [|assumption].
          intros c2 j Hc2 Hj. apply (HT c1 j Hc1). destruct c1 as [k chk]. eapply child_node; eassumption.
  Qed.

  Lemma master_low : forall x first d, In d (master m first x) -> - B * Qn (length (md_path d)) <= md_sum d.
  Proof.
    intros x. induction x as [i ch IH] using rtree_ind'. intros first d Hd. rewrite Forall_forall in IH.
    destruct (list_eq_nil_dec ch) as [->|NE].
    - rewrite master_leaf in Hd. apply in_map_iff in Hd. destruct Hd as [v [<- Hv]]. destruct (HV i v Hv).
      unfold md_sum. cbn [md_path md_vals length]. rewrite Qn_1. simpl. lra.
    - rewrite master_node in Hd by assumption. apply zip_m_nth in Hd. destruct Hd as (k & y & Hk & Hy & ->).
      assert (Vk := HV i _ (nth_In _ 0 Hk)). apply nth_error_In in Hy.
      apply (Permutation_in _ (sort_by_desc_perm _ _ _)) in Hy. apply over_children_In in Hy. destruct Hy as (c & f & Hc & Hy).
      assert (X := IH c Hc f y Hy). unfold md_sum in *. cbn [md_path md_vals length]. rewrite Qn_S, Qsum_cons. lra.
  Qed.

  (** A deal whose leaf agent is not above its price is not worth more than the prices, when a leaf price rises. *)
  Lemma leaf_deal : forall s s', invW s -> tree_round M t s = Ok (false, s') -> forall l, subtree t (Node l []) -> In l (chosen t s) ->
    pr s l < pr s' l -> forall x, subtree t x -> forall first d v p, In d (master m first x) -> In (l, v) (combine (md_path d) (md_vals d)) ->
    v <= pr s l -> is_path x p -> md_sum d <= path_sum (prices_of s) p.
  Proof.
    intros s s' I HR l HL Cl LT. assert (T := e_T _ _ _ _ _ _ _ _ (w_E _ I)). assert (IA := t_A _ _ _ _ _ _ _ T).
    destruct (ia_good _ _ _ _ IA) as [S0 [G NS]]. assert (BAL0 := good_balanced _ _ _ _ _ SU HD G).
    destruct (round_facts M B n t rs m SU HD HS HSD HB0 HM HMB HV _ _ T HR) as (I' & SAME & SZ & MONO).
    destruct (round_prices _ _ T HR) as [BAL IR'].
    intros x. induction x as [i ch IH] using rtree_ind'. intros H first d v p Hd Hv LE Hp. rewrite Forall_forall in IH.
    destruct (list_eq_nil_dec ch) as [->|NE].
    - rewrite master_leaf in Hd. apply in_map_iff in Hd. destruct Hd as [w [<- _]]. cbn [md_path md_vals combine] in Hv.
      destruct Hv as [E|[]]. injection E; intros <- <-. inversion Hp as [?|? ? ? ? F]; subst; [|destruct F].
      rewrite path_sum_one. fold (pr s i). unfold md_sum. simpl. lra.
    - rewrite master_node in Hd by assumption. apply zip_m_nth in Hd. destruct Hd as (k & y & Hk & Hy & ->).
      set (L := sort_by_desc md_sum (over_children (master m) first ch)) in *.
      assert (InL := nth_error_In _ _ Hy). unfold L in InL. apply (Permutation_in _ (sort_by_desc_perm _ _ _)) in InL.
      apply over_children_In in InL. destruct InL as (c & f & Hc & InC).
      cbn [md_path md_vals combine] in Hv. destruct Hv as [E|Hv].
      { exfalso. injection E; intros _ ->. assert (X := subtree_unique t _ _ HD HL H eq_refl). injection X; intros; congruence. }
      assert (MO := master_ok m c f). rewrite Forall_forall in MO. destruct (MO y InC) as [Py _]. cbn [to_deal fst] in Py.
      assert (HLy : In l (md_path y)) by (eapply combine_In_l; exact Hv).
      assert (Hlc : In l (node_indices c)) by (eapply is_path_indices; eassumption).
      assert (IHy := IH c Hc (st_down _ _ _ _ H Hc) f y v (md_path y) InC Hv LE Py).
      rewrite (balanced_sub _ _ _ BAL0 H p (i :: md_path y) Hp (path_down _ _ _ _ Hc Py)), path_sum_cons. fold (pr s i).
      set (a := nth k (cvalues (cat_at m i)) 0). unfold md_sum at 1. cbn [md_vals]. rewrite Qsum_cons. fold (md_sum y).
      destruct (Qlt_le_dec (pr s i + path_sum (prices_of s) (md_path y)) (a + md_sum y)) as [BAD|OK]; [exfalso|exact OK].
      assert (PA : pr s i < a) by lra.
      assert (SK : (k < sz s i)%nat).
      { destruct (le_lt_dec (sz s i) k) as [X|X]; [|assumption].
        assert (Y := ib_gone _ _ _ (t_B _ _ _ _ _ _ _ T) i a). assert (Z : In a (skipn (sz s i) (cvalues (cat_at m i)))).
        { unfold a. replace k with (sz s i + (k - sz s i))%nat by lia. rewrite <- nth_skipn. apply nth_In. rewrite skipn_length. lia. }
        specialize (Y Z). lra. }
      destruct (chosen_below t (cats_of s) i ch c l HD H Hc Hlc Cl) as [[CS _] _]. fold (sz s i) in CS.
      assert (LOW : - B * Qn (height (Node i ch) - 1) <= path_sum (prices_of s) (md_path y)).
      { assert (X := master_low c f y InC). assert (Y := path_length _ _ Py). assert (Z := height_child i ch c Hc).
        assert (V : (length (md_path y) <= height (Node i ch) - 1)%nat) by lia. apply (BQ_mono B _ _ HB0) in V. lra. }
      assert (TO := all_touched M B n t rs m p0 SU HD HB0 HM HMB HV HP0 s T i ch c (md_path y) H Hc Py LOW).
      assert (TO' : forall c' j, In c' ch -> In j (node_indices c') -> touched s' j).
      { intros c' j Hc' Hj. assert (X := TO c' j Hc' Hj). unfold touched, Proof_TA10.touched in *. specialize (MONO j). lra. }
      set (P' := path_sum (prices_of s') (md_path y)).
      assert (PP : path_sum (prices_of s) (md_path y) < P') by (apply path_sum_lt with (l := l); assumption).
      assert (CNT : (children_size (cats_of s) ch <= nsum (map (fun c => at_least P' (combined_values m c)) ch))%nat).
      { apply nsum_map_le. intros c1 Hc1. destruct (path_exists c1) as [q1 Hq1]. unfold P'.
        rewrite (siblings_sum _ _ _ _ BAL H c Hc Py c1 q1 _ Hc1 Hq1).
        apply (W_up s s' I HR c1 (st_down _ _ _ _ H Hc1)); [|assumption].
        intros c2 j Hc2 Hj. apply (TO' c1 j Hc1). destruct c1 as [k1 chk]. eapply child_node; eassumption. }
      rewrite <- (at_least_children P' m ch first) in CNT.
      rewrite <- (at_least_perm P' (map md_sum L)) in CNT by (apply Permutation_map, sort_by_desc_perm).
      assert (X := nth_at_least P' (map md_sum L) k (sorted_sums_desc _) ltac:(lia)).
      assert (Y : nth k (map md_sum L) 0 = md_sum y) by (apply nth_error_nth; apply map_nth_error; exact Hy).
      rewrite Y in X. lra.
  Qed.

  Let D := map to_deal (opt_master m t).

  Lemma used_val : forall l v (E : list tree_deal), In v (used_in l E) -> exists d, In d E /\ In (l, v) (combine (fst d) (snd d)).
  Proof.
    intros l v E H. unfold used_in in H. apply in_concat in H. destruct H as [vs [Hvs Hv]]. apply in_map_iff in Hvs.
    destruct Hvs as [d [<- Hd]]. exists d. split; [assumption|]. apply in_map_iff in Hv. destruct Hv as [[k w] [E1 Hf]].
    apply filter_In in Hf. destruct Hf as [Hc Ek]. cbn [fst snd] in *. subst w. apply Nat.eqb_eq in Ek. subst k. assumption.
  Qed.

  Lemma all_exceed : forall p l, (forall v, In v l -> p < v) -> exceed p l = length l.
  Proof.
    intros p l. induction l as [|v l IH]; intros H; [reflexivity|]. destruct (exceed_cons p v l) as [[L E]|[L E]]; rewrite E.
    - specialize (H v (or_introl eq_refl)). lra.
    - cbn [length]. f_equal. apply IH. intros w Hw. apply H. right. assumption.
  Qed.

  Lemma low_used : forall s l, invT M B n t rs m s -> (sz s l < length (used_in l D))%nat -> exists v, In v (used_in l D) /\ v <= pr s l.
  Proof.
    intros s l T L. destruct (existsb (fun v => Qle_bool v (pr s l)) (used_in l D)) eqn:E.
    - apply existsb_exists in E. destruct E as [v [Hv E]]. apply Qle_bool_iff in E. eauto.
    - exfalso. assert (A : forall v, In v (used_in l D) -> pr s l < v).
      { intros v Hv. apply Qle_bool_false. destruct (Qle_bool v (pr s l)) eqn:F; [|reflexivity].
        rewrite <- E. symmetry. apply existsb_exists. eauto. }
      apply all_exceed in A. assert (X := exceed_size M B n t rs m s l T).
      destruct (opt_feasible m t HD) as [_ SB]. destruct (SB l) as [r Hr]. fold D in Hr.
      rewrite <- (exceed_perm (pr s l) _ _ Hr), exceed_app in X. lia.
  Qed.

  Lemma leaf_keeps : forall s0, invW s0 -> (forall i, sz s0 i = csize (cat_at m i)) -> forall s, tree_visited M t s0 s ->
    invW s /\ forall l, subtree t (Node l []) -> (length (used_in l D) <= S (sz s l))%nat.
  Proof.
    intros s0 I0 Z0 s V. induction V as [|s s' V [I IH] HR].
    - split; [assumption|]. intros l _. rewrite Z0. destruct (opt_feasible m t HD) as [_ SB].
      assert (X := sub_bag_length _ _ (SB l)). fold D in X. unfold csize. lia.
    - split; [eapply W_step; eassumption|]. intros l HL. specialize (IH l HL).
      assert (T := e_T _ _ _ _ _ _ _ _ (w_E _ I)). assert (IA := t_A _ _ _ _ _ _ _ T).
      destruct (ia_good _ _ _ _ IA) as [S0 [G NS]].
      destruct (round_facts M B n t rs m SU HD HS HSD HB0 HM HMB HV _ _ T HR) as (I' & SAME & SZ & MONO).
      destruct (Nat.eq_dec (sz s' l) (sz s l)) as [->|NEQ]; [assumption|].
      destruct (le_lt_dec (length (used_in l D)) (sz s l)) as [OK|BAD]; [specialize (SZ l); lia|exfalso].
      assert (Cl : In l (chosen t s)).
      { destruct (in_dec Nat.eq_dec l (chosen t s)) as [X|X]; [assumption|]. destruct (SAME l X). contradiction. }
      assert (LT : pr s l < pr s' l).
      { destruct (round_inv _ _ _ _ _ _ _ _ SU G HR) as [[X _]|[d [MV [G' [[X _]|[_ [Hd HC]]]]]]]; try discriminate.
        destruct (beat_cases (cat_at (cats_of s) l) (pr s' l)) as [[_ X]|(_ & Hn & Hl & X)].
        - exfalso. apply NEQ. unfold sz. rewrite HC, X. reflexivity.
        - assert (W := t_strict _ _ _ _ _ _ _ T l _ (last_In _ Hn)). lra. }
      destruct (low_used s l T BAD) as [v [Hv LE]]. destruct (used_val _ _ _ Hv) as [d [Hd Hc]].
      unfold D in Hd. apply in_map_iff in Hd. destruct Hd as [d0 [<- Hd]]. cbn [to_deal fst snd] in Hc.
      apply filter_In in Hd. destruct Hd as [Hd NN]. apply Qle_bool_iff in NN.
      destruct (path_exists t) as [p Hp].
      assert (X := leaf_deal s s' I HR l HL Cl LT t (st_here t) 0%nat d0 v p Hd Hc LE Hp).
      rewrite (sums_paths _ _ _ _ _ SU HD (g_prices _ _ _ _ G) (g_sums _ _ _ _ G) p Hp) in X. lra.
  Qed.
End Ratio.
