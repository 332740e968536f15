(** * Termination of the tree auction with ties outside the deep inner categories (C38) *)

From Coq Require Import String List Arith Lia QArith Lqa Permutation Sorted Bool.
From Verif Require Import Base Model_Agents Model_Trade Model_Prices Model_Market Model_RecipeTree Model_TreeAuction
  Spec_Market Spec_RecipeTree Spec_TreeAuction Spec_Ties Proof_Tree Proof_Tree2 Proof_Tree3 Proof_TA1 Proof_TA2 Proof_TA3 Proof_TA4
  Proof_TA6 Proof_TA7.
Import ListNotations.
Open Scope Q_scope.

Lemma nonroot_below : forall t y e, subtree t y -> In e (tchildren y) -> exists a, In a (tchildren t) /\ subtree a e.
Proof.
  intros t y e H. revert e. induction H as [|i ch c H IH Hc]; intros e He.
  - exists e. split; [assumption|constructor].
  - destruct (IH c Hc) as (a & Ha & Hs). exists a. split; [assumption|]. destruct c as [k chk]. eapply st_down; eassumption.
Qed.

(** ** The invariant *)

Section Ties.
  Variables (M B : Q) (n : nat) (t : rtree) (rs : list (list nat)) (m : market).
  Hypothesis SU : setup n t rs.
  Hypothesis HD : distinct_categories t.
  Hypothesis HS : sorted_cats m.
  Hypothesis HSD : forall i, deep_inner t i -> sdesc (cvalues (cat_at m i)).
  Hypothesis HB0 : 0 <= B.
  Hypothesis HM : 0 < M.
  Hypothesis HMB : 2 * B * Qn (height t) <= M.
  Hypothesis HV : forall i v, In v (cvalues (cat_at m i)) -> - B <= v <= B.

  Record invU (s : tree_state) : Prop := mkInvU {
    ut_A : invA n rs m s;
    ut_B : invB M m s;
    ut_strict : forall i v, deep_inner t i -> In v (cvalues (cat_at (cats_of s) i)) -> pr s i < v;
    ut_down : forall i ch c, deep_inner t i -> subtree t (Node i ch) -> sz s i = 0%nat -> In c ch -> sz s (tindex c) = 0%nat;
    ut_low : forall i, In i (node_indices t) -> sz s i = 0%nat -> - B <= pr s i;
    ut_K : forall i ch, subtree t (Node i ch) -> (0 < sz s i)%nat -> (forall c, In c ch -> sz s (tindex c) = 0%nat) ->
      forall c p, In c ch -> is_path c p -> path_sum (prices_of s) p <= B * Qn (height (Node i ch) - 1)
  }.

  Lemma B_le_M : B <= M.
  Proof. assert (X := height_pos t). apply Qn_mono in X. rewrite Qn_1 in X. nra. Qed.

  Lemma val_M : values_below M m.
  Proof.
    intros c v Hc Hv. assert (X := B_le_M). apply In_nth_error in Hc. destruct Hc as [i Hi].
    apply (nth_error_nth _ _ (mkCat "" [])) in Hi. destruct (HV i v) as [_ Y]; [unfold cat_at; rewrite Hi; assumption|]. lra.
  Qed.

  Lemma cur_val : forall s i v, invU s -> In v (cvalues (cat_at (cats_of s) i)) -> - B <= v <= B.
  Proof. intros s i v I Hv. apply HV with (i := i). eapply pfx_In; [apply (ia_pfx _ _ _ _ (ut_A _ I))|assumption]. Qed.

  Lemma nonempty_val : forall s i, (0 < sz s i)%nat -> exists v, In v (cvalues (cat_at (cats_of s) i)).
  Proof. intros s i H. unfold sz, csize in H. destruct (cvalues (cat_at (cats_of s) i)) as [|v l]; [simpl in H; lia|]. exists v. left. reflexivity. Qed.

  (** Prices along a path of unchosen categories do not change. *)
  Lemma path_sum_same : forall s s' S d p, moved M t s s' S d -> (forall j, In j p -> ~ In j (chosen t s)) ->
    path_sum (prices_of s') p == path_sum (prices_of s) p.
  Proof.
    intros s s' S d p MV. induction p as [|j p IH]; intros H; [reflexivity|]. rewrite !path_sum_cons.
    rewrite IH by (intros k Hk; apply H; right; assumption).
    assert (X := mv_other _ _ _ _ _ _ MV j (H j (or_introl eq_refl))). unfold pr in X. rewrite X. reflexivity.
  Qed.

  (** The sum below a non-empty category is small, also after the move of the prices. *)
  Lemma nonempty_small : forall s s' S d, invU s -> moved M t s s' S d ->
    (forall i v, In v (cvalues (cat_at (cats_of s) i)) -> pr s' i <= v) ->
    balanced (prices_of s') t ->
    forall x, subtree t x -> (0 < sz s (tindex x))%nat -> forall p, is_path x p -> path_sum (prices_of s') p <= B * Qn (height x).
  Proof.
    intros s s' S d I MV IR BAL x. induction x as [i ch IH] using rtree_ind'. intros H Hs p Hp. simpl in Hs.
    assert (PI : pr s' i <= B).
    { destruct (nonempty_val s i Hs) as [v Hv]. specialize (IR i v Hv). destruct (cur_val s i v I Hv). lra. }
    rewrite Forall_forall in IH.
    inversion Hp as [?|? ? c q Hc Hq]; subst.
    - rewrite path_sum_one. fold (pr s' i). cbn [height map fold_right]. rewrite Qn_1. lra.
    - rewrite path_sum_cons. fold (pr s' i).
      destruct (Nat.eq_dec (children_size (cats_of s) ch) 0) as [Z|Z].
      + assert (Z' : forall c0, In c0 ch -> sz s (tindex c0) = 0%nat).
        { intros c0 Hc0. apply (nsum_zero _ _ _ Z c0 Hc0). }
        assert (K := ut_K _ I i ch H Hs Z' c q Hc Hq).
        rewrite (path_sum_same s s' S d q MV).
        2: { intros j Hj X. destruct (chosen_below t (cats_of s) i ch c j HD H Hc (is_path_indices _ _ _ Hq Hj) X) as [[_ Y] _]. contradiction. }
        assert (HP := height_pos (Node i ch)). assert (E : Qn (height (Node i ch)) == Qn (height (Node i ch) - 1) + 1).
        { rewrite <- Qn_S. replace (Datatypes.S (height (Node i ch) - 1)) with (height (Node i ch)) by lia. reflexivity. }
        rewrite E. lra.
      + apply nsum_nonzero in Z. destruct Z as [c' [Hc' Hp']].
        destruct (path_exists c') as [q' Hq'].
        assert (X := IH c' Hc' (st_down _ _ _ _ H Hc') Hp' q' Hq').
        rewrite (balanced_siblings _ _ _ _ _ q q' (balanced_sub _ _ _ BAL H) Hc Hc' Hq Hq').
        assert (Y := height_child i ch c' Hc'). apply (BQ_mono B _ _ HB0) in Y. rewrite Qn_S in Y. lra.
  Qed.

  (** Prices of empty categories below an empty one are not too low. *)
  Lemma empty_low : forall s a, invU s -> In a (tchildren t) -> forall x, subtree t x -> (exists y, subtree a y /\ In x (tchildren y)) ->
    sz s (tindex x) = 0%nat -> forall p, is_path x p -> - B * Qn (length p) <= path_sum (prices_of s) p.
  Proof.
    intros s a I Ha x H Hy Hs p Hp. revert H Hy Hs. induction Hp as [i|i ch c p Hc Hp IH]; intros H Hy Hs; simpl in Hs.
    - rewrite path_sum_one. assert (X := ut_low _ I i (subtree_nodes _ _ _ H (or_introl eq_refl)) Hs). fold (pr s i).
      cbn [length]. rewrite Qn_1. lra.
    - rewrite path_sum_cons. fold (pr s i). assert (X := ut_low _ I i (subtree_nodes _ _ _ H (or_introl eq_refl)) Hs).
      assert (DI : deep_inner t i).
      { destruct Hy as (y & Hy1 & Hy2). exists a, y, ch. split; [assumption|]. split; [assumption|]. split; [assumption|].
        intros ->. destruct Hc. }
      assert (Y : - B * Qn (length p) <= path_sum (prices_of s) p).
      { apply IH; [exact (st_down _ _ _ _ H Hc)| |exact (ut_down _ I i ch c DI H Hs Hc)].
        exists (Node i ch). split; [|exact Hc]. destruct Hy as ([k chk] & Hy1 & Hy2). eapply st_down; eassumption. }
      cbn [length]. rewrite Qn_S. lra.
  Qed.

  Lemma tgt_empty : forall s i, sz s i = 0%nat -> tgt M (cat_at (cats_of s) i) = M.
  Proof. intros s i Z. unfold sz, csize in Z. unfold tgt. destruct (cvalues (cat_at (cats_of s) i)); [reflexivity|discriminate]. Qed.

  (** In a round that goes on, a non-empty category reaches its target. *)
  Lemma moderate_progress : forall s s' S d, invU s -> moved M t s s' S d -> good n rs s' (S + d) -> d < - S -> S < 0 ->
    (forall i v, In v (cvalues (cat_at (cats_of s) i)) -> pr s' i <= v) ->
    (exists i, In i (chosen t s) /\ (0 < sz s i)%nat /\ d == tgt M (cat_at (cats_of s) i) - pr s i).
  Proof.
    intros s s' S d I MV G' Hd NS IR.
    destruct (mv_min _ _ _ _ _ _ MV) as [E|[i [Hi E]]]; [lra|].
    destruct (Nat.eq_dec (sz s i) 0) as [Z|Z]; [|exists i; split; [assumption|]; split; [lia|assumption]].
    exfalso. rewrite (tgt_empty s i Z) in E.
    assert (PM : pr s' i == M) by (rewrite (mv_chosen _ _ _ _ _ _ MV i Hi); lra).
    destruct (empty_sibling _ _ _ _ _ _ _ HD MV Hi Z) as (ch & j & chj & c & H & Hc & Hc' & Hp & NJ).
    assert (BAL := good_balanced _ _ _ _ _ SU HD G').
    destruct (path_exists c) as [q Hq].
    assert (NS1 := nonempty_small s s' S d I MV IR BAL c (st_down _ _ _ _ H Hc') Hp q Hq).
    assert (HSub : subtree t (Node i ch)) by (eapply st_down; eassumption).
    (* a path below the empty category *)
    destruct (path_exists (Node i ch)) as [a Ha].
    assert (EQ := balanced_siblings _ _ _ _ _ a q (balanced_sub _ _ _ BAL H) Hc Hc' Ha Hq).
    assert (LOW : M - B * Qn (height (Node i ch) - 1) <= path_sum (prices_of s') a).
    { inversion Ha as [?|? ? c0 a0 Hc0 Ha0]; subst.
      - rewrite path_sum_one. fold (pr s' i). cbn [height map fold_right Nat.sub]. rewrite Qn_0. lra.
      - rewrite path_sum_cons. fold (pr s' i).
        destruct (chosen_node t (cats_of s) i ch HD HSub Hi) as [_ NC].
        rewrite (path_sum_same s s' S d a0 MV).
        2: { intros k Hk. apply (NC c0 k Hc0). eapply is_path_indices; eassumption. }
        destruct (nonroot_below t (Node j chj) (Node i ch) H Hc) as (top & Htop & Hbelow).
        assert (CZ : sz s (tindex c0) = 0%nat).
        { destruct (chosen_node t (cats_of s) i ch HD HSub Hi) as [[CS|CS] _].
          - unfold sz in Z. lia.
          - apply (nsum_zero _ _ _ CS c0 Hc0). }
        assert (X := empty_low s top I Htop c0 (st_down _ _ _ _ HSub Hc0) (ex_intro _ (Node i ch) (conj Hbelow Hc0)) CZ a0 Ha0).
        assert (Y := path_length _ _ Ha0). assert (W := height_child i ch c0 Hc0).
        assert (V : (length a0 <= height (Node i ch) - 1)%nat) by lia. apply (BQ_mono B _ _ HB0) in V. lra. }
    assert (H1 := height_child j chj _ Hc). assert (H2 := height_child j chj _ Hc'). assert (H3 := height_sub _ _ H).
    assert (P1 := height_pos (Node i ch)).
    assert (V : (height c + (height (Node i ch) - 1) + 3 <= 2 * height t)%nat) by lia.
    apply (BQ_mono B _ _ HB0) in V.
    assert (E2 : Qn (height c + (height (Node i ch) - 1) + 3) == Qn (height c) + Qn (height (Node i ch) - 1) + 3).
    { unfold Qn. rewrite !Nat2Z.inj_add, !inject_Z_plus. reflexivity. }
    assert (E3 : Qn (2 * height t) == 2 * Qn (height t)).
    { unfold Qn. rewrite Nat2Z.inj_mul, inject_Z_mult. reflexivity. }
    rewrite E2, E3 in V.
    (* M <= B (h c + h x - 1) *)
    assert (W : M + 3 * B <= 2 * B * Qn (height t)) by nra.
    assert (B == 0) by nra. nra.
  Qed.

  Lemma invU_step : forall s s', invU s -> tree_round M t s = Ok (false, s') ->
    invU s' /\ (agents_number (cats_of s') < agents_number (cats_of s))%nat.
  Proof.
    intros s s' I HR. assert (IA := ut_A _ I). destruct (ia_good _ _ _ _ IA) as [S [G NS]].
    assert (IA' := invA_step _ _ _ _ _ _ _ SU HS IA HR).
    destruct (invB_step _ _ _ _ _ _ _ SU IA (ut_B _ I) val_M HR) as [IB' MONO].
    destruct (round_inv _ _ _ _ _ _ _ _ SU G HR) as [[X _]|[d [MV [G' [[X _]|[_ [Hd HC]]]]]]]; try discriminate.
    assert (HDs : forall i, desc (cvalues (cat_at (cats_of s) i))).
    { intros i. eapply pfx_desc; [apply (ia_pfx _ _ _ _ IA)|]. apply sorted_cats_at. assumption. }
    assert (SDs : forall i, deep_inner t i -> sdesc (cvalues (cat_at (cats_of s) i))).
    { intros i DI. assert (Y := ia_pfx _ _ _ _ IA i). unfold pfx in Y. rewrite Y. apply sdesc_firstn. apply HSD. exact DI. }
    assert (IR := moved_ir _ _ _ _ _ _ MV HDs (ia_ir _ _ _ _ IA)).
    assert (PG := moderate_progress s s' S d I MV G' Hd NS IR).
    split; [|eapply progress_agents; eassumption].
    assert (BAL' := good_balanced _ _ _ _ _ SU HD G').
    (* a category that loses its last agent *)
    assert (LOST : forall i ch, subtree t (Node i ch) -> (0 < sz s i)%nat -> sz s' i = 0%nat ->
      (deep_inner t i -> In i (chosen t s) /\ (forall c, In c ch -> sz s (tindex c) = 0%nat)) /\ - B <= pr s' i <= B).
    { intros i ch H Hp Hz. destruct (nonempty_val s i Hp) as [v Hv].
      assert (Bt : beaten (cat_at (cats_of s) i) (pr s' i) = true).
      { unfold sz in Hz, Hp. rewrite HC in Hz. destruct (beat_cases (cat_at (cats_of s) i) (pr s' i)) as [[_ E]|(Y & _)]; [|assumption].
        rewrite E in Hz. lia. }
      destruct (beat_cases (cat_at (cats_of s) i) (pr s' i)) as [[Y _]|(_ & Hn & Hl & E)]; [congruence|].
      assert (LI := last_In _ Hn).
      split; [|assert (W := IR i _ LI); destruct (cur_val s i _ I LI); lra]. intros DI.
      assert (Ci : In i (chosen t s)).
      { destruct (in_dec Nat.eq_dec i (chosen t s)) as [C|C]; [assumption|]. exfalso.
        assert (Y := mv_other _ _ _ _ _ _ MV i C). assert (W := ut_strict _ I i _ DI LI). rewrite <- Y in W. lra. }
      split; [assumption|].
      assert (S1 : sz s i = 1%nat).
      { unfold sz in *. rewrite HC, E in Hz. unfold csize in *. simpl in Hz. rewrite removelast_firstn_len, firstn_length in Hz. lia. }
      destruct (chosen_node t (cats_of s) i ch HD H Ci) as [[CS|CS] _].
      - unfold sz in S1. assert (Z : children_size (cats_of s) ch = 0%nat) by lia. intros c Hc. apply (nsum_zero _ _ _ Z c Hc).
      - intros c Hc. apply (nsum_zero _ _ _ CS c Hc). }
    assert (SZ : forall i, (sz s' i <= sz s i)%nat).
    { intros i. unfold sz. rewrite HC. apply beat_size'. }
    split; try assumption.
    - intros i v DI Hv. rewrite HC in Hv. destruct (beat_cases (cat_at (cats_of s) i) (pr s' i)) as [[Bt E]|(_ & Hn & Hl & E)]; rewrite E in Hv.
      + assert (W := last_le _ _ (HDs i) Hv). unfold beaten in Bt. destruct (cvalues (cat_at (cats_of s) i)) as [|a l]; [destruct Hv|].
        apply Qle_bool_false in Bt. lra.
      + simpl in Hv. assert (W := sdesc_last _ _ (SDs i DI) Hv). assert (Y := IR i _ (last_In _ Hn)). lra.
    - intros i ch c DI H Hz Hc. destruct (Nat.eq_dec (sz s i) 0) as [Z|Z].
      + assert (Y := ut_down _ I i ch c DI H Z Hc). specialize (SZ (tindex c)). lia.
      + destruct (LOST i ch H ltac:(lia) Hz) as (X & _). destruct (X DI) as [_ Y]. specialize (Y c Hc). specialize (SZ (tindex c)). lia.
    - intros i Hi Hz. destruct (Nat.eq_dec (sz s i) 0) as [Z|Z].
      + assert (Y := ut_low _ I i Hi Z). specialize (MONO i). lra.
      + destruct (node_subtree t i Hi) as [ch H]. destruct (LOST i ch H ltac:(lia) Hz) as (_ & Y & _). assumption.
    - intros i ch H Hp Hz c p Hc Hpc. assert (Hp0 : (0 < sz s i)%nat) by (specialize (SZ i); lia).
      destruct (Nat.eq_dec (children_size (cats_of s) ch) 0) as [Z|Z].
      + rewrite (path_sum_same s s' S d p MV).
        * apply (ut_K _ I i ch H Hp0) with (c := c); try assumption. intros c0 Hc0. apply (nsum_zero _ _ _ Z c0 Hc0).
        * intros j Hj X. destruct (chosen_below t (cats_of s) i ch c j HD H Hc (is_path_indices _ _ _ Hpc Hj) X) as [[_ Y] _]. contradiction.
      + apply nsum_nonzero in Z. destruct Z as [c' [Hc' Hp']]. destruct c' as [k chk]. simpl in Hp'. fold (sz s k) in Hp'.
        assert (Hk := st_down _ _ _ _ H Hc').
        destruct (path_exists (Node k chk)) as [q Hq].
        rewrite (balanced_siblings _ _ _ _ _ p q (balanced_sub _ _ _ BAL' H) Hc Hc' Hpc Hq).
        assert (HC1 := height_child i ch _ Hc'). assert (V : (height (Node k chk) <= height (Node i ch) - 1)%nat) by lia.
        apply (BQ_mono B _ _ HB0) in V. eapply Qle_trans; [|exact V].
        exact (nonempty_small s s' S d I MV IR BAL' (Node k chk) Hk Hp' q Hq).
  Qed.
End Ties.

Theorem ties_terminates : forall M B p0 fuel m st t rs, 0 < M -> new_tree (clone_market m) st = Ok t ->
  distinct_categories t -> tchildren t <> [] -> recipes (length m) t = Ok rs ->
  initial_prices_ok (length m) rs (- M) p0 ->
  values_within B m -> 2 * B * Qn (height t) <= M -> (forall i, deep_inner t i -> distinct_values (cat_at m i)) ->
  (forall i, In i (node_indices t) -> (0 < csize (cat_at m i))%nat) -> (agents_number m < fuel)%nat ->
  exists r, tree_auction M p0 fuel m st = Ok r.
Proof.
  intros M B p0 fuel m st t rs HM Ht HD HN Hrs [HL [HF [S HS]]] HV HMB NT NE Hf.
  assert (HB0 : 0 <= B).
  { assert (X := NE (tindex t) (tindex_node t)). unfold csize in X. destruct (cvalues (cat_at m (tindex t))) as [|v l] eqn:E; [simpl in X; lia|].
    assert (Hv : In v (cvalues (cat_at m (tindex t)))) by (rewrite E; left; reflexivity).
    destruct (cat_at_In _ _ _ Hv) as [HI _]. destruct (HV _ _ HI Hv). lra. }
  apply (auction_ends M p0 fuel m st t rs Ht HD Hrs HL (ex_intro _ S HS)); [intros [X _]; contradiction|].
  intros sp Hsp. destruct (new_tree_setup _ _ _ Ht) as [rs' [E' SU]]. rewrite Hrs in E'. injection E'; intros <-. clear E'.
  assert (HV' : forall i v, In v (cvalues (cat_at (clone_market m) i)) -> - B <= v <= B).
  { intros i v Hv. rewrite clone_at, clone_In in Hv. destruct (cat_at_In _ _ _ Hv) as [HI _]. apply (HV _ _ HI Hv). }
  assert (HSD : forall i, deep_inner t i -> sdesc (cvalues (cat_at (clone_market m) i))).
  { intros i DI. rewrite clone_at. unfold clone, new_category. simpl. apply desc_differ; [apply sort_desc_desc|].
    eapply differ_perm; [apply Permutation_sym, sort_desc_perm|]. apply differ_intro. intros l1 x l2 y l3 E.
    exact (NT i DI l1 x l2 y l3 E). }
  assert (BM : B <= M) by (eapply B_le_M; eassumption).
  assert (BM2 : - M < - B).
  { assert (X := height_pos t). apply Qn_mono in X. rewrite Qn_1 in X. destruct (Qlt_le_dec 0 B) as [P|P]; nra. }
  assert (VA : values_above (- M) m).
  { intros c v Hc Hv. destruct (HV c v Hc Hv). lra. }
  assert (I0 := invA_start M _ _ _ _ _ m S HM SU Hsp eq_refl HL HF HS VA).
  destruct (start_good _ _ _ _ _ (clone_market m) SU Hsp) with (S := S) as [G EP]; [apply map_length|assumption|assumption|].
  assert (J0 := invB_start M (length m) p0 sp m HM HL HF EP).
  assert (NE' : forall i, In i (node_indices t) -> (0 < sz (clone_market m, sp) i)%nat).
  { intros i Hi. specialize (NE i Hi). enough (X : (0 < csize (cat_at (clone_market m) i))%nat) by exact X.
    rewrite clone_at. unfold csize, clone, new_category in *. simpl. rewrite sort_desc_length. assumption. }
  apply (loop_ends M t (invU M B (length m) t rs (clone_market m))).
  - intros s I. destruct (ia_good _ _ _ _ (ut_A _ _ _ _ _ _ _ I)) as [S1 [G1 _]].
    destruct (round_total M _ _ _ _ _ SU HD G1) as [b [s' HR]]. exists b, s'. split; [assumption|]. intros ->.
    exact (invU_step M B (length m) t rs (clone_market m) SU HD (clone_sorted m) HSD HB0 HM HMB HV' s s' I HR).
  - split; [exact I0|exact J0| | | | ].
    + intros i v _ Hv. assert (Hv' : In v (cvalues (cat_at (clone_market m) i))) by exact Hv.
      destruct (HV' i v Hv') as [X _]. enough (X0 : nth i p0 0 < v) by (rewrite <- EP in X0; exact X0).
      destruct (lt_dec i (length p0)) as [L|L].
      * rewrite Forall_forall in HF. assert (Y := HF _ (nth_In p0 0 L)). lra.
      * destruct (cat_at_In _ _ _ Hv') as [_ L']. unfold clone_market in L'. rewrite map_length in L'. lia.
    + intros i ch c _ H Hz. assert (X := NE' i (subtree_nodes _ _ _ H (or_introl eq_refl))). lia.
    + intros i Hi Hz. assert (X := NE' i Hi). lia.
    + intros i ch H Hp Hz c p Hc. assert (X := NE' (tindex c) (subtree_nodes _ _ _ (st_down _ _ _ _ H Hc) (tindex_node c))).
      specialize (Hz c Hc). lia.
  - rewrite <- clone_agents in Hf. exact Hf.
Qed.
