(** * The tree auction loses at most one deal per recipe (C55) *)

From Coq Require Import String List Arith Lia QArith Lqa Permutation Sorted Bool.
From Verif Require Import Base Model_Agents Model_Trade Model_Prices Model_Market Model_RecipeTree Model_TreeAuction
  Spec_Market Spec_RecipeTree Spec_TreeAuction Spec_Ascending Proof_Strategy Proof_Tree Proof_Tree2 Proof_Tree3 Proof_TA1 Proof_TA2 Proof_TA3 Proof_TA4
  Proof_TA6 Proof_TA7.
Import ListNotations.
Open Scope Q_scope.

(** ** How many values exceed a number *)

Definition exceed (p : Q) (l : list Q) : nat := length (filter (fun v => negb (Qle_bool v p)) l).

Lemma exceed_cons : forall p v l, (v <= p /\ exceed p (v :: l) = exceed p l) \/ (p < v /\ exceed p (v :: l) = S (exceed p l)).
Proof.
  intros p v l. unfold exceed. cbn [filter]. destruct (Qle_bool v p) eqn:E; cbn [negb].
  - left. apply Qle_bool_iff in E. auto.
  - right. apply Qle_bool_false in E. auto.
Qed.

Lemma exceed_app : forall p a b, exceed p (a ++ b) = (exceed p a + exceed p b)%nat.
Proof. intros. unfold exceed. rewrite filter_app, app_length. reflexivity. Qed.

Lemma exceed_perm : forall p a b, Permutation a b -> exceed p a = exceed p b.
Proof.
  intros p a b H. induction H as [|x l l' H IH|x y l|l l' l'' H1 IH1 H2 IH2].
  - reflexivity.
  - unfold exceed in *. cbn [filter]. destruct (negb (Qle_bool x p)); simpl; auto.
  - unfold exceed. cbn [filter]. destruct (negb (Qle_bool x p)), (negb (Qle_bool y p)); reflexivity.
  - congruence.
Qed.

Lemma exceed_length : forall p l, (exceed p l <= length l)%nat.
Proof. intros p l. induction l as [|v l IH]; [reflexivity|]. destruct (exceed_cons p v l) as [[_ E]|[_ E]]; rewrite E; simpl; lia. Qed.

Lemma exceed_zero : forall p l, (forall v, In v l -> v <= p) -> exceed p l = 0%nat.
Proof.
  intros p l. induction l as [|v l IH]; intros H; [reflexivity|]. destruct (exceed_cons p v l) as [[_ E]|[L E]]; rewrite E.
  - apply IH. intros w Hw. apply H. right. assumption.
  - specialize (H v (or_introl eq_refl)). lra.
Qed.

Lemma exceed_concat : forall A p (f : A -> list Q) l, exceed p (concat (map f l)) = nsum (map (fun a => exceed p (f a)) l).
Proof. intros A p f. induction l as [|a l IH]; [reflexivity|]. cbn [map concat nsum fold_right]. rewrite exceed_app, IH. reflexivity. Qed.

Lemma exceed_compat : forall p q l, p == q -> exceed p l = exceed q l.
Proof.
  intros p q l H. induction l as [|v l IH]; [reflexivity|].
  destruct (exceed_cons p v l) as [[L E]|[L E]]; destruct (exceed_cons q v l) as [[L' E']|[L' E']]; rewrite E, E'; try lra; congruence.
Qed.

Lemma exceed_zip : forall a b xs ys, desc xs -> desc ys -> (exceed (a + b) (zip_add xs ys) <= Nat.max (exceed a xs) (exceed b ys))%nat.
Proof.
  intros a b. induction xs as [|x xs IH]; intros [|y ys] HX HY; cbn [zip_add]; try (cbn; lia).
  apply desc_inv in HX. apply desc_inv in HY. destruct HX as [HX FX]. destruct HY as [HY FY]. specialize (IH ys HX HY).
  rewrite Forall_forall in FX, FY.
  assert (ZX : x <= a -> exceed a xs = 0%nat) by (intros L; apply exceed_zero; intros v Hv; specialize (FX v Hv); lra).
  assert (ZY : y <= b -> exceed b ys = 0%nat) by (intros L; apply exceed_zero; intros v Hv; specialize (FY v Hv); lra).
  destruct (exceed_cons a x xs) as [[LX EX]|[LX EX]]; destruct (exceed_cons b y ys) as [[LY EY]|[LY EY]];
    destruct (exceed_cons (a + b) (x + y) (zip_add xs ys)) as [[LZ EZ]|[LZ EZ]]; rewrite EX, EY, EZ; try lra; try lia.
  - rewrite (ZX LX) in *. lia.
  - rewrite (ZY LY) in *. lia.
Qed.

Lemma exceed_nonneg : forall p l, p < 0 -> (length (filter (fun v => Qle_bool 0 v) l) <= exceed p l)%nat.
Proof.
  intros p l H. induction l as [|v l IH]; [reflexivity|]. cbn [filter].
  destruct (Qle_bool 0 v) eqn:E; destruct (exceed_cons p v l) as [[L X]|[L X]]; rewrite X; cbn [length]; try lia.
  apply Qle_bool_iff in E. lra.
Qed.


Lemma at_least_exceed : forall p y l, p < y -> (at_least y l <= exceed p l)%nat.
Proof.
  intros p y l H. unfold at_least. induction l as [|v l IH]; [reflexivity|]. cbn [filter].
  destruct (Qle_bool y v) eqn:E; destruct (exceed_cons p v l) as [[L X]|[L X]]; rewrite X; cbn [length]; try lia.
  apply Qle_bool_iff in E. lra.
Qed.

Lemma at_least_nth : forall y l k, (k <= length l)%nat -> (forall j, (j < k)%nat -> y <= nth j l 0) -> (k <= at_least y l)%nat.
Proof.
  intros y l. induction l as [|v l IH]; intros k Hk H; [simpl in Hk; lia|]. destruct k as [|k]; [lia|].
  assert (X := H 0%nat ltac:(lia)). cbn [nth] in X. assert (Y := IH k). simpl in Hk.
  specialize (Y ltac:(lia) (fun j Hj => H (S j) ltac:(lia))). unfold at_least in *. cbn [filter].
  apply Qle_bool_iff in X. rewrite X. simpl. lia.
Qed.

Lemma nth_at_least : forall y l k, desc l -> (k < at_least y l)%nat -> y <= nth k l 0.
Proof.
  intros y l k D H. assert (X := firstn_at_least l y (S k) D ltac:(lia)). assert (L := at_least_length y l).
  rewrite Forall_forall in X. apply X. rewrite <- (firstn_skipn (S k) l) at 1.
  rewrite app_nth1 by (rewrite firstn_length; lia). apply nth_In. rewrite firstn_length. lia.
Qed.

Lemma at_least_concat : forall A p (f : A -> list Q) l, at_least p (concat (map f l)) = nsum (map (fun a => at_least p (f a)) l).
Proof. intros A p f. induction l as [|a l IH]; [reflexivity|]. cbn [map concat nsum fold_right]. rewrite at_least_app, IH. reflexivity. Qed.

Lemma pfx_nth : forall l L j, pfx l L -> (j < length l)%nat -> nth j l 0 = nth j L 0.
Proof.
  intros l L j H Hj. unfold pfx in H. rewrite <- (firstn_skipn (length l) L), <- H. rewrite app_nth1 by assumption. reflexivity.
Qed.

Lemma zip_add_nth : forall xs ys j, (j < length xs)%nat -> (j < length ys)%nat -> nth j (zip_add xs ys) 0 = nth j xs 0 + nth j ys 0.
Proof.
  induction xs as [|x xs IH]; intros [|y ys] [|j] H1 H2; simpl in *; try lia; [reflexivity|]. apply IH; lia.
Qed.

(** ** Sums over children *)

Lemma nsum_map_le : forall A (f g : A -> nat) l, (forall a, In a l -> (f a <= g a)%nat) -> (nsum (map f l) <= nsum (map g l))%nat.
Proof.
  intros A f g. induction l as [|a l IH]; intros H; [reflexivity|]. cbn [map nsum fold_right]. specialize (IH (fun b Hb => H b (or_intror Hb))).
  specialize (H a (or_introl eq_refl)). unfold nsum in *. lia.
Qed.

Lemma nsum_map_add : forall A (f g : A -> nat) l, nsum (map (fun a => (f a + g a)%nat) l) = (nsum (map f l) + nsum (map g l))%nat.
Proof. intros A f g. induction l as [|a l IH]; [reflexivity|]. cbn [map nsum fold_right]. unfold nsum in *. lia. Qed.

Lemma deals_le_size : forall cats x, (tree_num_of_deals cats x <= csize (cat_at cats (tindex x)))%nat.
Proof. intros cats [i [|c ch]]; cbn [tree_num_of_deals tindex]; lia. Qed.

Lemma deals_children_le : forall cats ch, (nsum (map (tree_num_of_deals cats) ch) <= children_size cats ch)%nat.
Proof. intros. apply nsum_map_le. intros. apply deals_le_size. Qed.

Lemma leaves_node : forall i ch, ch <> [] -> leaves (Node i ch) = nsum (map leaves ch).
Proof. intros i [|c ch] H; [congruence|reflexivity]. Qed.

Lemma deals_same : forall cats cats' x, (forall j, In j (node_indices x) -> csize (cat_at cats' j) = csize (cat_at cats j)) ->
  tree_num_of_deals cats' x = tree_num_of_deals cats x.
Proof.
  intros cats cats' x. induction x as [i ch IH] using rtree_ind'. intros H. destruct ch as [|c0 ch0].
  - cbn. apply H. left. reflexivity.
  - rewrite !deals_node by discriminate. rewrite (H i (or_introl eq_refl)). f_equal. f_equal. apply map_ext_in. intros c Hc.
    rewrite Forall_forall in IH. apply IH; [assumption|]. intros j Hj. apply H. eapply child_node; eassumption.
Qed.

Section Efficient.
  Variables (M B : Q) (n : nat) (t : rtree) (rs : list (list nat)) (m : market) (p0 : list Q).
  Hypothesis SU : setup n t rs.
  Hypothesis HD : distinct_categories t.
  Hypothesis HS : sorted_cats m.
  Hypothesis HSD : forall i, sdesc (cvalues (cat_at m i)).
  Hypothesis HB0 : 0 <= B.
  Hypothesis HM : 0 < M.
  Hypothesis HMB : 2 * B * Qn (height t) <= M.
  Hypothesis HV : forall i v, In v (cvalues (cat_at m i)) -> - B <= v <= B.
  Hypothesis HP0 : forall i, In i (node_indices t) -> nth i p0 0 <= - M.

  Let inv := invT M B n t rs m.

  (** The price was raised. *)
  Definition touched (s : tree_state) (j : nat) : Prop := nth j p0 0 < pr s j.

  Record invE (s : tree_state) : Prop := mkInvE {
    e_T : inv s;
    e_lose : forall i ch, subtree t (Node i ch) -> (sz s i < csize (cat_at m i))%nat -> (children_size (cats_of s) ch <= sz s i)%nat;
    e_act : forall i ch, subtree t (Node i ch) -> (forall c j, In c ch -> In j (node_indices c) -> touched s j) ->
      (sz s i <= tree_num_of_deals (cats_of s) (Node i ch) + leaves (Node i ch))%nat
  }.

  (** What a round does to prices and sizes. *)
  Lemma round_facts : forall s s', inv s -> tree_round M t s = Ok (false, s') ->
    inv s'
    /\ (forall j, ~ In j (chosen t s) -> pr s' j = pr s j /\ sz s' j = sz s j)
    /\ (forall j, (sz s' j <= sz s j <= S (sz s' j))%nat)
    /\ (forall j, pr s j <= pr s' j).
  Proof.
    intros s s' I HR. destruct (invT_step _ _ _ _ _ _ SU HD HS HSD HB0 HM HMB HV _ _ I HR) as [I' _].
    assert (IA := t_A _ _ _ _ _ _ _ I). destruct (ia_good _ _ _ _ IA) as [S [G NS]].
    destruct (invB_step _ _ _ _ _ _ _ SU IA (t_B _ _ _ _ _ _ _ I) (val_M M B t m HB0 HM HMB HV) HR) as [_ MONO].
    destruct (round_inv _ _ _ _ _ _ _ _ SU G HR) as [[X _]|[d [MV [G' [[X _]|[_ [Hd HC]]]]]]]; try discriminate.
    split; [assumption|]. split; [|split; [|assumption]].
    - intros j Hj. assert (E := mv_other _ _ _ _ _ _ MV j Hj). split; [assumption|]. unfold sz. rewrite HC, E.
      destruct (beat_cases (cat_at (cats_of s) j) (pr s j)) as [[_ X]|(_ & Hn & Hl & X)]; rewrite X; [reflexivity|].
      assert (W := t_strict _ _ _ _ _ _ _ I j _ (last_In _ Hn)). lra.
    - intros j. unfold sz. rewrite HC. destruct (beat_cases (cat_at (cats_of s) j) (pr s' j)) as [[_ X]|(_ & Hn & Hl & X)]; rewrite X; [lia|].
      unfold csize. cbn [cvalues]. rewrite removelast_firstn_len, firstn_length. destruct (cvalues (cat_at (cats_of s) j)); [congruence|]. simpl. lia.
  Qed.

  (** The sizes before a round, and the deals after it. *)
  Lemma act_step : forall s s', invE s -> tree_round M t s = Ok (false, s') -> forall x, subtree t x ->
    (forall c j, In c (tchildren x) -> In j (node_indices c) -> touched s' j) ->
    (sz s (tindex x) <= tree_num_of_deals (cats_of s') x + leaves x)%nat.
  Proof.
    intros s s' I HR. destruct (round_facts _ _ (e_T _ I) HR) as (I' & SAME & SZ & MONO).
    intros x. induction x as [i ch IH] using rtree_ind'. intros H HT. rewrite Forall_forall in IH. cbn [tchildren tindex] in *.
    destruct (in_dec Nat.eq_dec i (chosen t s)) as [Ci|Ci].
    - (* chosen *)
      destruct (chosen_node t (cats_of s) i ch HD H Ci) as [CS NC].
      assert (E := e_act _ I i ch H). assert (TB : forall c j, In c ch -> In j (node_indices c) -> touched s j).
      { intros c j Hc Hj. specialize (HT c j Hc Hj). unfold touched in *. destruct (SAME j (NC c j Hc Hj)) as [<- _]. assumption. }
      specialize (E TB). destruct ch as [|c0 ch0].
      + cbn [tree_num_of_deals leaves] in *. fold (sz s' i). specialize (SZ i). lia.
      + rewrite deals_node in * by discriminate. fold (sz s i) in E. fold (sz s' i).
        assert (EQ : nsum (map (tree_num_of_deals (cats_of s')) (c0 :: ch0)) = nsum (map (tree_num_of_deals (cats_of s)) (c0 :: ch0))).
        { f_equal. apply map_ext_in. intros c Hc. apply deals_same. intros j Hj. apply (SAME j (NC c j Hc Hj)). }
        rewrite EQ. assert (LE := deals_children_le (cats_of s) (c0 :: ch0)). fold (sz s i) in CS. specialize (SZ i).
        set (X := nsum (map (tree_num_of_deals (cats_of s)) (c0 :: ch0))) in *. lia.
    - destruct (SAME i Ci) as [_ Si]. destruct (chosen_restrict t (cats_of s) _ HD H) as [K|K].
      + (* nothing chosen below *)
        assert (TB : forall c j, In c ch -> In j (node_indices c) -> touched s j).
        { intros c j Hc Hj. specialize (HT c j Hc Hj). unfold touched in *. destruct (SAME j) as [<- _]; [|assumption].
          apply K. eapply child_node; eassumption. }
        assert (E := e_act _ I i ch H TB). rewrite (deals_same (cats_of s) (cats_of s')); [exact E|].
        intros j Hj. apply (SAME j (K j Hj)).
      + destruct (largest_node (cats_of s) i ch) as [[E _]|[_ [CS NZ]]].
        { exfalso. apply Ci. unfold chosen. apply K; [left; reflexivity|]. rewrite E. left. reflexivity. }
        assert (NE : ch <> []) by (intros ->; apply NZ; reflexivity).
        rewrite deals_node, leaves_node by assumption. fold (sz s i) in CS. fold (sz s' i). rewrite Si.
        assert (LE : (children_size (cats_of s) ch <= nsum (map (tree_num_of_deals (cats_of s')) ch) + nsum (map leaves ch))%nat).
        { rewrite <- nsum_map_add. apply nsum_map_le. intros c Hc. apply (IH c Hc (st_down _ _ _ _ H Hc)).
          intros c1 j Hc1 Hj. apply (HT c j Hc). destruct c as [k chk]. eapply child_node; eassumption. }
        lia.
  Qed.

  Lemma children_size_mono : forall s s' ch, (forall j, (sz s' j <= sz s j)%nat) -> (children_size (cats_of s') ch <= children_size (cats_of s) ch)%nat.
  Proof. intros s s' ch H. apply nsum_map_le. intros c _. apply (H (tindex c)). Qed.

  Lemma invE_step : forall s s', invE s -> tree_round M t s = Ok (false, s') -> invE s'.
  Proof.
    intros s s' I HR. destruct (round_facts _ _ (e_T _ I) HR) as (I' & SAME & SZ & MONO). split.
    - assumption.
    - intros i ch H L. assert (CM := children_size_mono s s' ch (fun j => proj1 (SZ j))).
      destruct (in_dec Nat.eq_dec i (chosen t s)) as [Ci|Ci].
      + destruct (chosen_node t (cats_of s) i ch HD H Ci) as [CS NC]. fold (sz s i) in CS. specialize (SZ i). lia.
      + destruct (SAME i Ci) as [_ Si]. rewrite Si in *. assert (E := e_lose _ I i ch H L). lia.
    - intros i ch H HT. assert (E := act_step s s' I HR _ H HT). cbn [tindex] in E. specialize (SZ i). lia.
  Qed.

  (** ** Prices in one state *)

  Lemma small : forall s, inv s -> forall x, subtree t x -> (0 < sz s (tindex x))%nat -> forall p, is_path x p ->
    path_sum (prices_of s) p <= B * Qn (height x)
    /\ (forall c q, In c (tchildren x) -> is_path c q -> path_sum (prices_of s) q <= B * Qn (height x - 1)).
  Proof.
    intros s I x. assert (IA := t_A _ _ _ _ _ _ _ I). destruct (ia_good _ _ _ _ IA) as [S [G NS]].
    assert (BAL := good_balanced _ _ _ _ _ SU HD G).
    induction x as [i ch IH] using rtree_ind'. intros H Hs p Hp. cbn [tindex tchildren] in *. rewrite Forall_forall in IH.
    assert (PI : pr s i <= B).
    { destruct (nonempty_val s i Hs) as [v Hv]. assert (X := t_strict _ _ _ _ _ _ _ I i v Hv).
      destruct (cur_val M B n t rs m HV s i v I Hv). lra. }
    assert (CH : forall c q, In c ch -> is_path c q -> path_sum (prices_of s) q <= B * Qn (height (Node i ch) - 1)).
    { intros c q Hc Hq. destruct (Nat.eq_dec (children_size (cats_of s) ch) 0) as [Z|Z].
      - apply (t_K _ _ _ _ _ _ _ I i ch H Hs) with (c := c); try assumption. intros c0 Hc0. apply (nsum_zero _ _ _ Z c0 Hc0).
      - apply nsum_nonzero in Z. destruct Z as [c' [Hc' Hp']]. destruct (path_exists c') as [q' Hq'].
        destruct (IH c' Hc' (st_down _ _ _ _ H Hc') Hp' q' Hq') as [X _].
        rewrite (balanced_siblings _ _ _ _ _ q q' (balanced_sub _ _ _ BAL H) Hc Hc' Hq Hq').
        assert (Y := height_child i ch c' Hc'). assert (V : (height c' <= height (Node i ch) - 1)%nat) by lia.
        apply (BQ_mono B _ _ HB0) in V. lra. }
    split; [|assumption].
    inversion Hp as [?|? ? c q Hc Hq]; subst.
    - rewrite path_sum_one. fold (pr s i). cbn [height map fold_right]. rewrite Qn_1. lra.
    - rewrite path_sum_cons. fold (pr s i). specialize (CH c q Hc Hq).
      assert (HP := height_pos (Node i ch)). assert (E : Qn (height (Node i ch)) == Qn (height (Node i ch) - 1) + 1).
      { rewrite <- Qn_S. replace (Datatypes.S (height (Node i ch) - 1)) with (height (Node i ch)) by lia. reflexivity. }
      rewrite E. lra.
  Qed.

  Lemma up_nonempty : forall s, inv s -> forall x, subtree t x -> forall j, In j (node_indices x) -> (0 < sz s j)%nat -> (0 < sz s (tindex x))%nat.
  Proof.
    intros s I x. induction x as [i ch IH] using rtree_ind'. intros H j Hj Hs. rewrite Forall_forall in IH.
    destruct Hj as [<-|Hj]; [assumption|]. apply in_concat in Hj. destruct Hj as [l [Hl Hj]]. apply in_map_iff in Hl. destruct Hl as [c [<- Hc]].
    assert (X := IH c Hc (st_down _ _ _ _ H Hc) j Hj Hs). cbn [tindex]. destruct (Nat.eq_dec (sz s i) 0) as [Z|Z]; [|lia].
    assert (Y := t_down _ _ _ _ _ _ _ I i ch c H Z Hc). lia.
  Qed.

  Lemma untouched_low : forall s, inv s -> forall x, subtree t x -> forall j, In j (node_indices x) -> (0 < sz s j)%nat -> pr s j <= - M ->
    forall p, is_path x p -> path_sum (prices_of s) p <= - M + B * Qn (height x - 1).
  Proof.
    intros s I x. assert (IA := t_A _ _ _ _ _ _ _ I). destruct (ia_good _ _ _ _ IA) as [S [G NS]].
    assert (BAL := good_balanced _ _ _ _ _ SU HD G).
    induction x as [i ch IH] using rtree_ind'. intros H j Hj Hs HJ p Hp. rewrite Forall_forall in IH.
    destruct Hj as [<-|Hj].
    - inversion Hp as [?|? ? c q Hc Hq]; subst.
      + rewrite path_sum_one. fold (pr s i). cbn [height map fold_right Nat.sub]. rewrite Qn_0. lra.
      + rewrite path_sum_cons. fold (pr s i). destruct (small s I _ H Hs _ Hp) as [_ X]. specialize (X c q Hc Hq). lra.
    - apply in_concat in Hj. destruct Hj as [l [Hl Hj]]. apply in_map_iff in Hl. destruct Hl as [c [<- Hc]].
      destruct (path_exists c) as [q Hq]. assert (X := IH c Hc (st_down _ _ _ _ H Hc) j Hj Hs HJ q Hq).
      assert (Y := up_nonempty s I _ H j (child_node _ _ _ _ Hc Hj) Hs). cbn [tindex] in Y.
      rewrite (balanced_sub _ _ _ BAL H p (i :: q) Hp (path_down _ _ _ _ Hc Hq)). rewrite path_sum_cons. fold (pr s i).
      assert (PI : pr s i <= B).
      { destruct (nonempty_val s i Y) as [v Hv]. assert (Z := t_strict _ _ _ _ _ _ _ I i v Hv).
        destruct (cur_val M B n t rs m HV s i v I Hv). lra. }
      assert (HC := height_child i ch c Hc). assert (HP := height_pos c).
      assert (V : (Datatypes.S (height c - 1) <= height (Node i ch) - 1)%nat) by lia. apply (BQ_mono B _ _ HB0) in V. rewrite Qn_S in V. lra.
  Qed.

  Lemma M_big : forall x, subtree t x -> B * (2 * Qn (height x)) - B < M.
  Proof.
    intros x H. assert (X := height_sub _ _ H). apply Qn_mono in X. assert (Y := height_pos x). apply Qn_mono in Y. rewrite Qn_1 in Y.
    destruct (Qlt_le_dec 0 B) as [P|P]; nra.
  Qed.

  Lemma all_touched : forall s, inv s -> forall i ch c p, subtree t (Node i ch) -> In c ch -> is_path c p ->
    - B * Qn (height (Node i ch) - 1) <= path_sum (prices_of s) p ->
    forall c' j, In c' ch -> In j (node_indices c') -> touched s j.
  Proof.
    intros s I i ch c p H Hc Hp HL c' j Hc' Hj. assert (IA := t_A _ _ _ _ _ _ _ I). destruct (ia_good _ _ _ _ IA) as [S [G NS]].
    assert (BAL := good_balanced _ _ _ _ _ SU HD G).
    unfold touched. destruct (Qlt_le_dec (nth j p0 0) (pr s j)) as [X|X]; [assumption|exfalso].
    assert (Hjt : In j (node_indices t)) by (eapply subtree_nodes; [exact H|eapply child_node; eassumption]).
    assert (PJ : pr s j <= - M) by (specialize (HP0 j Hjt); lra).
    assert (BM : - M < - B).
    { assert (Y := M_big t (st_here t)). assert (Y2 := height_pos t). apply Qn_mono in Y2. rewrite Qn_1 in Y2. nra. }
    assert (Hs : (0 < sz s j)%nat).
    { destruct (Nat.eq_dec (sz s j) 0) as [Z|Z]; [|lia]. assert (Y := t_low _ _ _ _ _ _ _ I j Hjt Z). lra. }
    destruct (path_exists c') as [q Hq].
    assert (U := untouched_low s I c' (st_down _ _ _ _ H Hc') j Hj Hs PJ q Hq).
    rewrite (balanced_siblings _ _ _ _ _ p q (balanced_sub _ _ _ BAL H) Hc Hc' Hp Hq) in HL.
    assert (HC := height_child i ch c' Hc'). assert (HP := height_pos c').
    assert (V : (height c' - 1 <= height (Node i ch) - 1)%nat) by lia. apply (BQ_mono B _ _ HB0) in V.
    assert (E : Qn (height (Node i ch)) == Qn (height (Node i ch) - 1) + 1).
    { rewrite <- Qn_S. replace (Datatypes.S (height (Node i ch) - 1)) with (height (Node i ch)) by lia. reflexivity. }
    assert (MB := M_big _ H). rewrite E in MB. nra.
  Qed.

  Lemma size_le : forall s i, inv s -> (sz s i <= csize (cat_at m i))%nat.
  Proof.
    intros s i I. assert (X := ia_pfx _ _ _ _ (t_A _ _ _ _ _ _ _ I) i). unfold pfx in X. unfold sz, csize.
    rewrite X, firstn_length. lia.
  Qed.

  Lemma loser_price : forall s i, inv s -> (sz s i < csize (cat_at m i))%nat -> - B <= pr s i.
  Proof.
    intros s i I L. destruct (skipn (sz s i) (cvalues (cat_at m i))) as [|v l] eqn:E.
    - apply (f_equal (@length Q)) in E. rewrite skipn_length in E. unfold csize in L. simpl in E. lia.
    - assert (X := ib_gone _ _ _ (t_B _ _ _ _ _ _ _ I) i v). rewrite E in X. specialize (X (or_introl eq_refl)).
      assert (Y : In v (cvalues (cat_at m i))).
      { rewrite <- (firstn_skipn (sz s i)). apply in_app_iff. right. rewrite E. left. reflexivity. }
      destruct (HV i v Y). lra.
  Qed.

  Lemma not_loser : forall s i, inv s -> ~ (sz s i < csize (cat_at m i))%nat -> csize (cat_at m i) = sz s i.
  Proof. intros s i I L. assert (X := size_le s i I). lia. Qed.

  Lemma leaf_or_node : forall i ch p, is_path (Node i ch) p -> (ch = [] /\ p = [i]) \/ (ch <> [] /\ exists c q, In c ch /\ is_path c q /\ p = i :: q).
  Proof.
    intros i ch p H. inversion H as [?|? ? c q Hc Hq]; subst; [left; auto|]. right. split; [intros ->; destruct Hc|]. exists c, q. auto.
  Qed.

  (** While prices are very low, at most one deal per leaf is lost. *)
  Lemma low_prices : forall s, invE s -> forall x, subtree t x -> forall p, is_path x p -> path_sum (prices_of s) p < - B * Qn (height x) ->
    (tree_num_of_deals m x <= tree_num_of_deals (cats_of s) x + leaves x)%nat.
  Proof.
    intros s I x. assert (T := e_T _ I). assert (IA := t_A _ _ _ _ _ _ _ T). destruct (ia_good _ _ _ _ IA) as [S [G NS]].
    assert (BAL := good_balanced _ _ _ _ _ SU HD G).
    induction x as [i ch IH] using rtree_ind'. intros H p Hp HL. rewrite Forall_forall in IH.
    destruct (leaf_or_node _ _ _ Hp) as [[-> ->]|(NE & c & q & Hc & Hq & ->)].
    - rewrite path_sum_one in HL. fold (pr s i) in HL. cbn [height map fold_right] in HL. rewrite Qn_1 in HL.
      cbn [tree_num_of_deals leaves]. fold (sz s i). rewrite (not_loser s i T); [lia|]. intros X. assert (Y := loser_price s i T X). lra.
    - rewrite path_sum_cons in HL. fold (pr s i) in HL.
      assert (HP := height_pos (Node i ch)). assert (E : Qn (height (Node i ch)) == Qn (height (Node i ch) - 1) + 1).
      { rewrite <- Qn_S. replace (Datatypes.S (height (Node i ch) - 1)) with (height (Node i ch)) by lia. reflexivity. }
      destruct (Qlt_le_dec (path_sum (prices_of s) q) (- B * Qn (height (Node i ch) - 1))) as [A|A].
      + assert (LE : (nsum (map (tree_num_of_deals m) ch) <= nsum (map (tree_num_of_deals (cats_of s)) ch) + nsum (map leaves ch))%nat).
        { rewrite <- nsum_map_add. apply nsum_map_le. intros c' Hc'. destruct (path_exists c') as [q' Hq'].
          apply (IH c' Hc' (st_down _ _ _ _ H Hc') q' Hq').
          rewrite (balanced_siblings _ _ _ _ _ q q' (balanced_sub _ _ _ BAL H) Hc Hc' Hq Hq') in A.
          assert (HC := height_child i ch c' Hc'). assert (V : (height c' <= height (Node i ch) - 1)%nat) by lia. apply (BQ_mono B _ _ HB0) in V. lra. }
        rewrite !deals_node, leaves_node by assumption. fold (sz s i).
        destruct (lt_dec (sz s i) (csize (cat_at m i))) as [L|L].
        * assert (X := e_lose _ I i ch H L). assert (Y := deals_children_le (cats_of s) ch). lia.
        * rewrite (not_loser s i T L). lia.
      + assert (X := e_act _ I i ch H (all_touched s T i ch c q H Hc Hq A)).
        assert (Y := deals_le_size m (Node i ch)). cbn [tindex] in Y. rewrite (not_loser s i T) in Y; [lia|].
        intros L. assert (Z := loser_price s i T L). rewrite E in HL. lra.
  Qed.

  Lemma exceed_size : forall s i, inv s -> (exceed (pr s i) (cvalues (cat_at m i)) <= sz s i)%nat.
  Proof.
    intros s i I. rewrite <- (firstn_skipn (sz s i) (cvalues (cat_at m i))), exceed_app.
    rewrite (exceed_zero _ (skipn _ _)) by (intros v Hv; eapply ib_gone; [exact (t_B _ _ _ _ _ _ _ I)|exact Hv]).
    assert (X := exceed_length (pr s i) (firstn (sz s i) (cvalues (cat_at m i)))). rewrite firstn_length in X. lia.
  Qed.

  (** The deals that are worth more than the current price-sum. *)
  Lemma good_deals : forall s, invE s -> forall x, subtree t x -> forall p, is_path x p ->
    (exceed (path_sum (prices_of s) p) (combined_values m x) <= tree_num_of_deals (cats_of s) x + leaves x)%nat.
  Proof.
    intros s I x. assert (T := e_T _ I). assert (IA := t_A _ _ _ _ _ _ _ T). destruct (ia_good _ _ _ _ IA) as [S [G NS]].
    assert (BAL := good_balanced _ _ _ _ _ SU HD G). assert (DM := sorted_cats_at _ HS).
    induction x as [i ch IH] using rtree_ind'. intros H p Hp. rewrite Forall_forall in IH.
    destruct (leaf_or_node _ _ _ Hp) as [[-> ->]|(NE & c & q & Hc & Hq & ->)].
    - cbn [combined_values tree_num_of_deals leaves]. rewrite (exceed_compat _ (pr s i)) by (rewrite path_sum_one; reflexivity).
      assert (X := exceed_size s i T). fold (sz s i). lia.
    - set (P := path_sum (prices_of s) q).
      assert (L0 := exceed_length (path_sum (prices_of s) (i :: q)) (combined_values m (Node i ch))). rewrite combined_length in L0.
      assert (LN := deals_le_size m (Node i ch)). cbn [tindex] in LN.
      rewrite (deals_node (cats_of s)), leaves_node by assumption. fold (sz s i).
      assert (NL : (sz s i < nsum (map (tree_num_of_deals (cats_of s)) ch))%nat -> csize (cat_at m i) = sz s i).
      { intros X. apply (not_loser s i T). intros L. assert (Y := e_lose _ I i ch H L). assert (Z := deals_children_le (cats_of s) ch). lia. }
      destruct (Qlt_le_dec P (- B * Qn (height (Node i ch) - 1))) as [A|A].
      + assert (LE : (nsum (map (tree_num_of_deals m) ch) <= nsum (map (tree_num_of_deals (cats_of s)) ch) + nsum (map leaves ch))%nat).
        { rewrite <- nsum_map_add. apply nsum_map_le. intros c' Hc'. destruct (path_exists c') as [q' Hq'].
          apply (low_prices s I c' (st_down _ _ _ _ H Hc') q' Hq').
          unfold P in A. rewrite (balanced_siblings _ _ _ _ _ q q' (balanced_sub _ _ _ BAL H) Hc Hc' Hq Hq') in A.
          assert (HC := height_child i ch c' Hc'). assert (V : (height c' <= height (Node i ch) - 1)%nat) by lia. apply (BQ_mono B _ _ HB0) in V. lra. }
        rewrite deals_node in L0 by assumption. rewrite deals_node in LN by assumption.
        destruct (lt_dec (sz s i) (nsum (map (tree_num_of_deals (cats_of s)) ch))) as [X|X]; [specialize (NL X); lia|lia].
      + assert (X := e_act _ I i ch H (all_touched s T i ch c q H Hc Hq A)).
        rewrite deals_node, leaves_node in X by assumption. fold (sz s i) in X.
        assert (LE : (nsum (map (fun c => exceed P (combined_values m c)) ch) <= nsum (map (tree_num_of_deals (cats_of s)) ch) + nsum (map leaves ch))%nat).
        { rewrite <- nsum_map_add. apply nsum_map_le. intros c' Hc'. destruct (path_exists c') as [q' Hq'].
          assert (Y := IH c' Hc' (st_down _ _ _ _ H Hc') q' Hq').
          rewrite (exceed_compat _ (path_sum (prices_of s) q')); [exact Y|]. unfold P.
          exact (balanced_siblings _ _ _ _ _ q q' (balanced_sub _ _ _ BAL H) Hc Hc' Hq Hq'). }
        assert (ZIP : (exceed (path_sum (prices_of s) (i :: q)) (combined_values m (Node i ch)) <=
                       Nat.max (sz s i) (nsum (map (fun c => exceed P (combined_values m c)) ch)))%nat).
        { rewrite (exceed_compat _ (pr s i + P)) by (rewrite path_sum_cons; reflexivity).
          assert (CE : combined_values m (Node i ch) = zip_add (cvalues (cat_at m i)) (sort_desc (concat (map (combined_values m) ch))))
            by (destruct ch; [congruence|reflexivity]).
          rewrite CE. eapply Nat.le_trans; [apply exceed_zip; [apply DM|apply sort_desc_desc]|].
          rewrite (exceed_perm P _ _ (sort_desc_perm _)), exceed_concat. assert (Y := exceed_size s i T). lia. }
        destruct (lt_dec (sz s i) (nsum (map (tree_num_of_deals (cats_of s)) ch))) as [Y|Y]; [specialize (NL Y); lia|lia].
  Qed.

  (** The same with any threshold above the price-sum: for every gain y, at most one deal per leaf of that gain is lost. *)
  Lemma combined_above : forall s, inv s -> forall x, subtree t x -> forall p, is_path x p ->
    forall v, In v (combined_values (cats_of s) x) -> path_sum (prices_of s) p <= v.
  Proof.
    intros s T x H p Hp v Hv. assert (IA := t_A _ _ _ _ _ _ _ T). destruct (ia_good _ _ _ _ IA) as [S [G NS]].
    assert (BAL := good_balanced _ _ _ _ _ SU HD G).
    destruct (combined_ge (cats_of s) (prices_of s) x (ia_ir _ _ _ _ IA) v Hv) as [q [Hq Hs]].
    rewrite (balanced_sub _ _ _ BAL H p q Hp Hq). assumption.
  Qed.

  Lemma good_gains : forall s, invE s -> forall x, subtree t x -> forall p, is_path x p -> forall y, path_sum (prices_of s) p < y ->
    (at_least y (combined_values m x) <= at_least y (combined_values (cats_of s) x) + leaves x)%nat.
  Proof.
    intros s I x. assert (T := e_T _ I). assert (IA := t_A _ _ _ _ _ _ _ T). destruct (ia_good _ _ _ _ IA) as [S [G NS]].
    assert (BAL := good_balanced _ _ _ _ _ SU HD G). assert (DM := sorted_cats_at _ HS).
    assert (DC : forall i, desc (cvalues (cat_at (cats_of s) i))) by (intros i; eapply pfx_desc; [apply (ia_pfx _ _ _ _ IA)|apply DM]).
    induction x as [i ch IH] using rtree_ind'. intros H p Hp y Hy. rewrite Forall_forall in IH.
    assert (GD := good_deals s I _ H p Hp). rewrite <- (combined_length (cats_of s)) in GD.
    assert (AE : (at_least y (combined_values m (Node i ch)) <= exceed (path_sum (prices_of s) p) (combined_values m (Node i ch)))%nat)
      by (apply at_least_exceed; assumption).
    set (K := at_least y (combined_values m (Node i ch))) in *. set (L := leaves (Node i ch)) in *.
    enough (X : (K - L <= at_least y (combined_values (cats_of s) (Node i ch)))%nat) by lia.
    apply at_least_nth; [lia|]. intros j Hj.
    assert (OJ : y <= nth (j + L) (combined_values m (Node i ch)) 0).
    { apply nth_at_least; [apply combined_desc; assumption|]. fold K. lia. }
    assert (LO := at_least_length y (combined_values m (Node i ch))). fold K in LO.
    destruct (leaf_or_node _ _ _ Hp) as [[-> ->]|(NE & c & q & Hc & Hq & ->)].
    - cbn [combined_values] in *. assert (PW := pfx_pw _ _ (ia_pfx _ _ _ _ IA i)).
      assert (EJ : nth j (cvalues (cat_at (cats_of s) i)) 0 = nth j (cvalues (cat_at m i)) 0) by (apply pfx_nth; [apply (ia_pfx _ _ _ _ IA)|lia]).
      rewrite EJ. assert (Z := desc_nth (cvalues (cat_at m i)) 0 j (j + L) (DM i) ltac:(lia) ltac:(lia)). lra.
    - assert (LC : (j < length (combined_values (cats_of s) (Node i ch)))%nat) by lia.
      assert (LM : (j + L < length (combined_values m (Node i ch)))%nat) by lia.
      rewrite combined_node in * by assumption.
      rewrite zip_add_length in LC, LM.
      rewrite zip_add_nth in OJ by lia. rewrite zip_add_nth by lia.
      set (b := sort_desc (concat (map (combined_values m) ch))) in *.
      set (b' := sort_desc (concat (map (combined_values (cats_of s)) ch))) in *.
      rewrite (pfx_nth _ _ j (ia_pfx _ _ _ _ IA i)) by lia.
      assert (Z := desc_nth (cvalues (cat_at m i)) 0 j (j + L) (DM i) ltac:(lia) ltac:(lia)).
      enough (W : nth (j + L) b 0 <= nth j b' 0) by lra.
      assert (BP : path_sum (prices_of s) q <= nth j b' 0).
      { assert (W : In (nth j b' 0) b') by (apply nth_In; lia). unfold b' in W at 2. apply (Permutation_in _ (sort_desc_perm _)) in W.
        apply in_concat in W. destruct W as [l [Hl W]]. apply in_map_iff in Hl. destruct Hl as [c' [<- Hc']].
        destruct (path_exists c') as [q' Hq']. rewrite (balanced_siblings _ _ _ _ _ q q' (balanced_sub _ _ _ BAL H) Hc Hc' Hq Hq').
        apply (combined_above s T c' (st_down _ _ _ _ H Hc') q' Hq' _ W). }
      destruct (Qlt_le_dec (path_sum (prices_of s) q) (nth (j + L) b 0)) as [A|A]; [|lra].
      set (z := nth (j + L) b 0) in *.
      apply nth_at_least; [apply sort_desc_desc|].
      assert (N1 : (Datatypes.S (j + L) <= at_least z b)%nat).
      { apply at_least_nth; [lia|]. intros k Hk. unfold z. apply desc_nth; [apply sort_desc_desc|lia|lia]. }
      unfold b in N1. rewrite (at_least_perm z _ _ (sort_desc_perm _)) in N1. unfold b'. rewrite (at_least_perm z _ _ (sort_desc_perm _)).
      rewrite at_least_concat in *.
      assert (LE : (nsum (map (fun c => at_least z (combined_values m c)) ch) <= nsum (map (fun c => at_least z (combined_values (cats_of s) c)) ch) + nsum (map leaves ch))%nat).
      { rewrite <- nsum_map_add. apply nsum_map_le. intros c' Hc'. destruct (path_exists c') as [q' Hq'].
        apply (IH c' Hc' (st_down _ _ _ _ H Hc') q' Hq').
        rewrite <- (balanced_siblings _ _ _ _ _ q q' (balanced_sub _ _ _ BAL H) Hc Hc' Hq Hq'). assumption. }
      unfold L in N1. rewrite leaves_node in N1 by assumption. lia.
  Qed.
End Efficient.

(** The state in which the auction ends, and what was lost on the way. *)
Lemma final_losses : forall M B p0 fuel m st r rs, 0 < M ->
  tree_auction M p0 fuel m st = Ok r -> recipes (length m) (tt_tree r) = Ok rs ->
  distinct_categories (tt_tree r) -> initial_prices_ok (length m) rs (- M) p0 ->
  values_within B m -> 2 * B * Qn (height (tt_tree r)) <= M -> no_ties m ->
  (forall i, In i (node_indices (tt_tree r)) -> (0 < csize (cat_at m i))%nat) ->
  leaves (tt_tree r) = length rs /\ tt_deals r = tree_num_of_deals (tt_cats r) (tt_tree r)
  /\ tt_gft r = optimal_trade_GFT (tt_cats r) (tt_tree r)
  /\ (forall i, desc (cvalues (cat_at (tt_cats r) i)))
  /\ exists P, P < 0
     /\ (exceed P (combined_values (clone_market m) (tt_tree r)) <= tree_num_of_deals (tt_cats r) (tt_tree r) + leaves (tt_tree r))%nat
     /\ forall y, P < y -> (at_least y (combined_values (clone_market m) (tt_tree r))
                            <= at_least y (combined_values (tt_cats r) (tt_tree r)) + leaves (tt_tree r))%nat.
Proof.
  intros M B p0 fuel m st r rs HM H Hrs HD HP HV HMB NT NE.
  assert (HB0 : 0 <= B).
  { assert (X := NE (tindex (tt_tree r)) (tindex_node _)). unfold csize in X. destruct (cvalues (cat_at m (tindex (tt_tree r)))) as [|v l] eqn:E; [simpl in X; lia|].
    assert (Hv : In v (cvalues (cat_at m (tindex (tt_tree r))))) by (rewrite E; left; reflexivity).
    destruct (cat_at_In _ _ _ Hv) as [HI _]. destruct (HV _ _ HI Hv). lra. }
  assert (HV' : forall i v, In v (cvalues (cat_at (clone_market m) i)) -> - B <= v <= B).
  { intros i v Hv. rewrite clone_at, clone_In in Hv. destruct (cat_at_In _ _ _ Hv) as [HI _]. apply (HV _ _ HI Hv). }
  assert (HSD : forall i, sdesc (cvalues (cat_at (clone_market m) i))).
  { intros i. rewrite clone_at. unfold clone, new_category. simpl. apply desc_differ; [apply sort_desc_desc|].
    eapply differ_perm; [apply Permutation_sym, sort_desc_perm|]. apply differ_intro. intros l1 x l2 y l3 E.
    unfold cat_at in E. destruct (lt_dec i (length m)) as [L|L].
    - eapply NT; [apply nth_In; exact L|exact E].
    - rewrite nth_overflow in E by lia. simpl in E. destruct l1; discriminate. }
  assert (BM2 : - M < - B).
  { assert (X := height_pos (tt_tree r)). apply Qn_mono in X. rewrite Qn_1 in X. destruct (Qlt_le_dec 0 B) as [P|P]; nra. }
  assert (VA : values_above (- M) m).
  { intros c v Hc Hv. destruct (HV c v Hc Hv). lra. }
  destruct (auction_final _ _ _ _ _ _ _ HM H Hrs HP VA) as (sp & s & s' & R & V & I0 & EP & I & HR).
  assert (SU := rt_setup _ _ _ _ _ _ _ _ _ R). destruct HP as [HL [HF [S HS]]].
  assert (J0 := invB_start M (length m) p0 sp m HM HL HF EP).
  assert (HSZ : forall i, sz (clone_market m, sp) i = csize (cat_at (clone_market m) i)) by reflexivity.
  assert (NE' : forall i, In i (node_indices (tt_tree r)) -> (0 < sz (clone_market m, sp) i)%nat).
  { intros i Hi. specialize (NE i Hi). rewrite HSZ. rewrite clone_at. unfold csize, clone, new_category in *. simpl.
    rewrite sort_desc_length. assumption. }
  assert (HP0 : forall i, In i (node_indices (tt_tree r)) -> nth i p0 0 <= - M).
  { intros i Hi. rewrite Forall_forall in HF. apply HF, nth_In. rewrite HL. assert (X := su_range _ _ _ SU).
    unfold indices_in_range in X. rewrite Forall_forall in X. apply X. assumption. }
  assert (E0 : invE M B (length m) (tt_tree r) rs (clone_market m) p0 (clone_market m, sp)).
  { split.
    - split; [exact I0|exact J0| | | | ].
      + intros i v Hv. assert (Hv' : In v (cvalues (cat_at (clone_market m) i))) by exact Hv.
        destruct (HV' i v Hv') as [X _]. enough (X0 : nth i p0 0 < v) by (rewrite <- EP in X0; exact X0).
        destruct (lt_dec i (length p0)) as [L|L].
        * rewrite Forall_forall in HF. assert (Y := HF _ (nth_In p0 0 L)). lra.
        * destruct (cat_at_In _ _ _ Hv') as [_ L']. unfold clone_market in L'. rewrite map_length in L'. lia.
      + intros i ch c Hx Hz. assert (X := NE' i (subtree_nodes _ _ _ Hx (or_introl eq_refl))). lia.
      + intros i Hi Hz. assert (X := NE' i Hi). lia.
      + intros i ch Hx Hp Hz c p Hc. assert (X := NE' (tindex c) (subtree_nodes _ _ _ (st_down _ _ _ _ Hx Hc) (tindex_node c))).
        specialize (Hz c Hc). lia.
    - intros i ch Hx L. rewrite HSZ in L. lia.
    - intros i ch Hx HT. destruct ch as [|c0 ch0].
      + cbn [tree_num_of_deals]. unfold sz. lia.
      + specialize (HT c0 (tindex c0) (or_introl eq_refl) (tindex_node c0)). unfold touched, pr in HT. rewrite EP in HT. lra. }
  assert (ES : invE M B (length m) (tt_tree r) rs (clone_market m) p0 s).
  { clear HR I. induction V as [|s1 s2 V IH HR]; [assumption|].
    eapply invE_step; try eassumption. apply clone_sorted. }
  destruct (ia_good _ _ _ _ I) as [S1 [G NS]].
  destruct (path_exists (tt_tree r)) as [p Hp].
  assert (PS : path_sum (prices_of s) p == S1) by exact (sums_paths _ _ _ _ _ SU HD (g_prices _ _ _ _ G) (g_sums _ _ _ _ G) p Hp).
  destruct (final_shape _ _ _ _ _ _ _ SU (clone_sorted m) I HR) as (E & F & L1 & L2).
  assert (GD := good_deals M B (length m) (tt_tree r) rs (clone_market m) p0 SU HD (clone_sorted m) HB0 HM HMB HV' HP0 s ES
    _ (st_here _) p Hp).
  assert (GG := good_gains M B (length m) (tt_tree r) rs (clone_market m) p0 SU HD (clone_sorted m) HB0 HM HMB HV' HP0 s ES
    _ (st_here _) p Hp).
  rewrite (rt_cats _ _ _ _ _ _ _ _ _ R), E.
  split; [rewrite leaves_paths; apply (Forall2_length _ _ _ _ _ (su_recipes _ _ _ SU))|]. split; [|split; [|split]].
  - destruct (deals_explained_ok (cats_of s') (prices_of s') (tt_tree r)) as (k1 & k2 & Y & _).
    { rewrite L1. apply SU. }
    rewrite (rt_explained _ _ _ _ _ _ _ _ _ R) in Y. injection Y; intros _ _ Y'. rewrite E in Y'. exact Y'.
  - rewrite (rt_gft _ _ _ _ _ _ _ _ _ R), E. reflexivity.
  - intros i. eapply pfx_desc; [apply (ia_pfx _ _ _ _ I)|apply sorted_cats_at; apply clone_sorted].
  - exists (path_sum (prices_of s) p). split; [lra|]. split; assumption.
Qed.

Theorem tree_efficiency : forall M B p0 fuel m st r rs opt k g, 0 < M ->
  tree_auction M p0 fuel m st = Ok r -> recipes (length m) (tt_tree r) = Ok rs ->
  distinct_categories (tt_tree r) -> initial_prices_ok (length m) rs (- M) p0 ->
  values_within B m -> 2 * B * Qn (height (tt_tree r)) <= M -> no_ties m ->
  (forall i, In i (node_indices (tt_tree r)) -> (0 < csize (cat_at m i))%nat) ->
  tree_optimal_trade (clone_market m) (tt_tree r) = Ok (opt, k, g) ->
  (k <= tt_deals r + length rs)%nat.
Proof.
  intros M B p0 fuel m st r rs opt k g HM H Hrs HD HP HV HMB NT NE HO.
  destruct (final_losses _ _ _ _ _ _ _ _ HM H Hrs HD HP HV HMB NT NE) as (LR & ED & _ & _ & P & PN & GD & _).
  destruct (tree_optimal_trade_spec _ _ _ _ _ HO) as (_ & Ek & _).
  rewrite <- (Forall2_length _ _ _ _ _ (opt_combined (clone_market m) (tt_tree r))) in Ek.
  assert (N := exceed_nonneg P (combined_values (clone_market m) (tt_tree r)) PN). lia.
Qed.

Lemma at_least_filter : forall y l, 0 <= y -> at_least y (filter (fun v => Qle_bool 0 v) l) = at_least y l.
Proof.
  intros y l H. unfold at_least. induction l as [|v l IH]; [reflexivity|]. cbn [filter].
  destruct (Qle_bool 0 v) eqn:E; cbn [filter]; destruct (Qle_bool y v) eqn:E'; cbn [length]; try congruence.
  apply Qle_bool_iff in E'. apply Qle_bool_false in E. lra.
Qed.

Lemma pw_sum : forall l' l, pw l' l -> Forall (fun v => 0 <= v) l -> Qsum l' <= Qsum l.
Proof.
  induction l' as [|a' l' IH]; intros l H F; [apply Qsum_nonneg; assumption|].
  destruct l as [|a l]; [destruct H as [H _]; simpl in H; lia|].
  apply pw_cons in H. destruct H as [Ha H]. inversion F; subst. rewrite !Qsum_cons. specialize (IH l H ltac:(assumption)). lra.
Qed.

Lemma nth_skipn : forall (l : list Q) n k, nth k (skipn n l) 0 = nth (n + k) l 0.
Proof. induction l as [|a l IH]; intros [|n] k; try reflexivity; [destruct k; reflexivity|]. simpl. apply IH. Qed.

Lemma filter_desc : forall (f : Q -> bool) l, desc l -> desc (filter f l).
Proof.
  intros f l H. induction l as [|a l IH]; [exact H|]. apply desc_inv in H. destruct H as [H F]. specialize (IH H).
  cbn [filter]. destruct (f a); [|assumption]. constructor; [assumption|]. rewrite Forall_forall in *. intros x Hx. apply F.
  apply filter_In in Hx. apply Hx.
Qed.

Lemma shift_pw : forall L l' l, desc l' -> desc l -> (forall y, In y l -> (at_least y l <= at_least y l' + L)%nat) -> pw (skipn L l) l'.
Proof.
  intros L l' l D' D H.
  assert (K : forall j, (j + L < length l)%nat -> (j < length l')%nat /\ nth (j + L) l 0 <= nth j l' 0).
  { intros j Hj. set (y := nth (j + L) l 0). assert (X := H y (nth_In _ _ Hj)).
    assert (N : (S (j + L) <= at_least y l)%nat).
    { apply at_least_nth; [lia|]. intros k Hk. apply desc_nth; [assumption|lia|lia]. }
    assert (Z := at_least_length y l'). split; [lia|]. apply nth_at_least; [assumption|lia]. }
  split.
  - rewrite skipn_length. destruct (le_lt_dec (length l - L) (length l')) as [X|X]; [assumption|].
    destruct (K (length l') ltac:(lia)). lia.
  - intros k Hk. rewrite skipn_length in Hk. destruct (K k ltac:(lia)) as [_ X].
    rewrite nth_skipn, Nat.add_comm. exact X.
Qed.

Lemma Forall2_skipn : forall A B (R : A -> B -> Prop) n l l', Forall2 R l l' -> Forall2 R (skipn n l) (skipn n l').
Proof. intros A B R. induction n as [|n IH]; intros l l' H; [exact H|]. destruct H; [constructor|]. simpl. auto. Qed.

Theorem tree_gain_loss : forall M B p0 fuel m st r rs opt k g, 0 < M ->
  tree_auction M p0 fuel m st = Ok r -> recipes (length m) (tt_tree r) = Ok rs ->
  distinct_categories (tt_tree r) -> initial_prices_ok (length m) rs (- M) p0 ->
  values_within B m -> 2 * B * Qn (height (tt_tree r)) <= M -> no_ties m ->
  (forall i, In i (node_indices (tt_tree r)) -> (0 < csize (cat_at m i))%nat) ->
  tree_optimal_trade (clone_market m) (tt_tree r) = Ok (opt, k, g) ->
  exists lost kept, Permutation opt (lost ++ kept) /\ (length lost <= length rs)%nat /\ Qsum (map Qsum kept) <= tt_gft r.
Proof.
  intros M B p0 fuel m st r rs opt k g HM H Hrs HD HP HV HMB NT NE HO.
  destruct (final_losses _ _ _ _ _ _ _ _ HM H Hrs HD HP HV HMB NT NE) as (LR & ED & EG & DC & P & PN & _ & GG).
  destruct (tree_optimal_trade_spec _ _ _ _ _ HO) as (EO & _ & _).
  exists (firstn (length rs) opt), (skipn (length rs) opt).
  split; [rewrite firstn_skipn; apply Permutation_refl|]. split; [rewrite firstn_length; lia|].
  assert (OC := opt_combined (clone_market m) (tt_tree r)).
  set (cv := filter (fun v => Qle_bool 0 v) (combined_values (clone_market m) (tt_tree r))) in *.
  set (cv' := filter (fun v => Qle_bool 0 v) (combined_values (tt_cats r) (tt_tree r))).
  assert (E1 : Qsum (skipn (length rs) cv) == Qsum (map Qsum (skipn (length rs) opt))).
  { rewrite EO, !map_map, skipn_map, map_map. rewrite (rel_sum _ md_sum _ _ (Forall2_skipn _ _ _ _ _ _ OC)). reflexivity. }
  rewrite <- E1, EG. unfold optimal_trade_GFT. fold cv'. apply pw_sum.
  - apply shift_pw; [apply filter_desc; apply combined_desc; assumption|
      apply filter_desc; apply combined_desc; apply sorted_cats_at; apply clone_sorted|].
    intros y Hy. apply filter_In in Hy. destruct Hy as [_ Hy]. apply Qle_bool_iff in Hy.
    unfold cv, cv'. rewrite !at_least_filter by assumption. rewrite <- LR. apply GG. lra.
  - rewrite Forall_forall. intros v Hv. apply filter_In in Hv. apply Qle_bool_iff. apply Hv.
Qed.
