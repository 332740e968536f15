(** * Prices in a better market (C112): the tree auction *)

From Coq Require Import String List Arith Lia QArith Lqa Permutation Sorted Bool.
From Verif Require Import Base Model_Agents Model_Trade Model_Prices Model_Market Model_RecipeTree Model_TreeAuction
  Spec_Market Spec_RecipeTree Spec_TreeAuction Spec_Statics Spec_Reorder Spec_Better Proof_Market Proof_Tree Proof_Tree2 Proof_Tree3 Proof_TA1 Proof_TA2 Proof_TA3 Proof_TA4
  Proof_TA6 Proof_TA7 Proof_TA10 Proof_Renumber Proof_Initial Proof_Better Proof_Better3.
Import ListNotations.
Open Scope Q_scope.

Section Supply.
  Variables (M B : Q) (n : nat) (t : rtree) (rs : list (list nat)) (m : market).
  Hypothesis SU : setup n t rs.
  Hypothesis HD : distinct_categories t.
  Hypothesis HS : sorted_cats m.
  Hypothesis HSD : forall i, sdesc (cvalues (cat_at m i)).
  Hypothesis HB0 : 0 <= B.
  Hypothesis HM : 0 < M.
  Hypothesis HMB : 2 * B * Qn (height t) <= M.
  Hypothesis HV : forall i v, In v (cvalues (cat_at m i)) -> - B <= v <= B.

  Definition stock (f : nat -> Q) : Prop := supply M B (V m) t f
    /\ forall L, floor M B t <= L -> L <= level f t -> exists g, can M B (V m) t g /\ ripe M B g t /\ level g t == L.

  Lemma stock_raised : forall p s e, run M B n t rs m p s -> within M t s e -> stock (pr s) -> stock (raised t s e).
  Proof.
    intros p s e [I C _] W [H1 H2]. split.
    - intros i ch L Hs NE HF HL. destruct (Qlt_le_dec (clevel (pr s) ch) L) as [A|A]; [|apply (H1 i ch L); assumption].
      assert (ST : (forall c, In c ch -> still t s c) -> False).
      { intros K. rewrite (clevel_ext (raised t s e) (pr s)) in HL; [lra|]. intros c j Hc Hj. apply raised_out. apply (K c Hc j Hj). }
      destruct (round_cases t HD s i ch Hs) as [K|[(_ & K & _)|(_ & K & _)]]; [exfalso; apply ST; intros c Hc; eapply still_child; eassumption|contradiction|].
      assert (CL : forall e', clevel (raised t s e') ch == clevel (pr s) ch + e').
      { intros e'. destruct ch as [|c ch]; [congruence|]. unfold clevel. cbn [map hd].
        apply (level_active t HD s e' c); [eapply st_down; [exact Hs|left; reflexivity]|apply K; left; reflexivity]. }
      rewrite CL in HL. set (e1 := L - clevel (pr s) ch) in *.
      assert (W1 : within M t s e1) by (apply (within_less M t s e e1 W); unfold e1; lra).
      assert (EV := even_raised M B n t rs m SU HD s e1 i ch I Hs). exists (raised t s e1).
      split; [|split; [|split; [exact EV|rewrite CL; unfold e1; lra]]].
      + intros d Hd. apply (can_raised M B n t rs m SU HD HS HB0 HM HMB HV); [assumption|eapply st_down; eassumption| |assumption].
        apply (can_sub M B (V m) t (pr s) C). eapply st_down; eassumption.
      + intros d Hd. apply (level_ripe M B n t rs m SU HD HS HB0 HM HMB HV); [assumption|assumption|eapply st_down; eassumption|].
        rewrite (EV d Hd), CL. specialize (HF d Hd). unfold e1. lra.
    - intros L HF HL. destruct (Qlt_le_dec (level (pr s) t) L) as [A|A]; [|apply H2; assumption].
      assert (CL := fun e' => level_active t HD s e' t (st_here t) (root_active t s)). rewrite CL in HL.
      set (e1 := L - level (pr s) t) in *. assert (W1 : within M t s e1) by (apply (within_less M t s e e1 W); unfold e1; lra).
      exists (raised t s e1). split; [|split; [|rewrite CL; unfold e1; lra]].
      + apply (can_raised M B n t rs m SU HD HS HB0 HM HMB HV); [assumption|constructor|assumption|assumption].
      + apply (level_ripe M B n t rs m SU HD HS HB0 HM HMB HV); [assumption|assumption|constructor|]. rewrite CL. unfold e1. lra.
  Qed.

  Lemma stock_ext : forall f g, (forall j, f j == g j) -> stock f -> stock g.
  Proof.
    intros f g E [H1 H2]. split.
    - apply (supply_less M B (V m) t f); [assumption|]. intros j _. rewrite E. lra.
    - intros L HF HL. apply H2; [assumption|]. rewrite (level_ext f g t) by (intros j _; apply E). assumption.
  Qed.

  Variable p : list Q.
  Hypothesis HP : forall i, In i (node_indices t) -> nth i p 0 <= - M.

  Lemma stock_start : forall s, run M B n t rs m p s -> (forall j, pr s j = nth j p 0) -> stock (pr s).
  Proof.
    intros s [I C _] E.
    assert (LOW : forall x, subtree t x -> level (pr s) x <= - M).
    { intros x Hx. rewrite (level_ext (pr s) (fun i => nth i p 0)) by (intros j _; rewrite E; reflexivity). apply (start_level M t HM p HP x Hx). }
    assert (FL : forall x, subtree t x -> - M <= floor M B x).
    { intros x Hx. destruct (BH M B t HB0 HMB x Hx) as [_ Y]. unfold floor. nra. }
    assert (RP : forall x, subtree t x -> floor M B x <= level (pr s) x -> ripe M B (pr s) x).
    { intros x Hx F. assert (R := level_ripe M B n t rs m SU HD HS HB0 HM HMB HV s 0 I (within_zero M B n t rs m s I) x Hx).
      rewrite (level_ext (raised t s 0) (pr s)) in R by (intros j _; apply raised_zero). specialize (R F).
      intros y Hy. destruct (R y Hy) as [R1 R2]. rewrite raised_zero in R2.
      rewrite (level_ext (raised t s 0) (pr s)) in R1 by (intros j _; apply raised_zero). auto. }
    split.
    - intros i ch L Hs NE HF HL. destruct ch as [|c ch]; [congruence|]. assert (EV := even_start M B n t rs m SU HD s i _ I Hs).
      assert (Hc := st_down _ _ _ c Hs (or_introl eq_refl)).
      assert (EL : clevel (pr s) (c :: ch) == L).
      { assert (X := HF c (or_introl eq_refl)). assert (Y := FL c Hc). assert (Z := LOW c Hc).
        unfold clevel in *. cbn [map hd] in *. lra. }
      exists (pr s). split; [|split; [|split; assumption]].
      + intros d Hd. apply (can_sub M B (V m) t (pr s) C). eapply st_down; eassumption.
      + intros d Hd. apply RP; [eapply st_down; eassumption|]. rewrite (EV d Hd), EL. auto.
    - intros L HF HL. assert (Y := FL t (st_here t)). assert (Z := LOW t (st_here t)). exists (pr s). split; [assumption|].
      split; [apply RP; [constructor|lra]|lra].
  Qed.

  Lemma stock_run : forall s0 s, run M B n t rs m p s0 -> (forall j, pr s0 j = nth j p 0) -> tree_visited M t s0 s ->
    run M B n t rs m p s /\ stock (pr s).
  Proof.
    intros s0 s R0 E0 VS. induction VS as [|s1 s2 VS IH HR]; [split; [assumption|apply stock_start; assumption]|].
    destruct IH as [R1 S1]. split; [eapply run_step; eassumption|]. assert (I := r_inv _ _ _ _ _ _ _ _ R1).
    destruct (ia_good _ _ _ _ (t_A _ _ _ _ _ _ _ I)) as [S [G NS]].
    destruct (round_inv _ _ _ _ _ _ _ _ SU G HR) as [[X _]|[d [MV _]]]; [discriminate|].
    destruct (moved_within M B n t rs m s1 s2 S d I (Qlt_le_weak _ _ NS) MV) as [D W].
    apply (stock_ext (raised t s1 d)); [intros j; symmetry; eapply moved_raised; eassumption|]. eapply stock_raised; eassumption.
  Qed.

  (** An auction in which some agents of the root category are left. *)
  Lemma outcome : forall s0 s u, run M B n t rs m p s0 -> (forall j, pr s0 j = nth j p 0) -> tree_visited M t s0 s ->
    tree_round M t s = Ok (true, u) -> (0 < sz s (tindex t))%nat ->
    exists f, (forall j, pr u j == f j) /\ can M B (V m) t f /\ ripe M B f t /\ level f t == 0 /\ supply M B (V m) t f
      /\ (0 < B -> forall j, In j (node_indices t) -> - M < f j)
      /\ forall L, floor M B t <= L -> L < 0 -> exists g, can M B (V m) t g /\ ripe M B g t /\ level g t == L /\ supply M B (V m) t g
           /\ (0 < exceed (g (tindex t)) (V m (tindex t)))%nat.
  Proof.
    intros s0 s u R0 E0 VS HR NZ. destruct (stock_run s0 s R0 E0 VS) as [R [SP SL]].
    assert (I := r_inv _ _ _ _ _ _ _ _ R). assert (C := r_can _ _ _ _ _ _ _ _ R).
    destruct (ia_good _ _ _ _ (t_A _ _ _ _ _ _ _ I)) as [S [G NS]].
    assert (LS := run_level M B n t rs m SU HD s S I G).
    destruct (round_inv _ _ _ _ _ _ _ _ SU G HR) as [(_ & -> & Z)|[d [MV [Gd [[_ [Hd Ec]]|[X _]]]]]]; [lia| |discriminate].
    destruct (moved_within M B n t rs m s u S d I (Qlt_le_weak _ _ NS) MV) as [D W].
    assert (LA := fun e => level_active t HD s e t (st_here t) (root_active t s)).
    assert (FN := floor_neg M B t HB0 HM HMB).
    assert (RP : forall e, within M t s e -> floor M B t <= level (pr s) t + e -> ripe M B (raised t s e) t).
    { intros e We F. apply (level_ripe M B n t rs m SU HD HS HB0 HM HMB HV); [assumption|assumption|constructor|rewrite LA; assumption]. }
    assert (CR : forall e, within M t s e -> can M B (V m) t (raised t s e)).
    { intros e We. apply (can_raised M B n t rs m SU HD HS HB0 HM HMB HV); [assumption|constructor|assumption|assumption]. }
    assert (ST : forall e, within M t s e -> stock (raised t s e)).
    { intros e We. eapply stock_raised; [exact R|assumption|split; assumption]. }
    assert (RF : ripe M B (raised t s d) t) by (apply RP; [assumption|lra]).
    exists (raised t s d). split; [intros j; eapply moved_raised; eassumption|]. split; [auto|]. split; [assumption|].
    split; [rewrite LA; lra|]. split; [apply ST; assumption|]. split.
    - intros HB j Hj.
      assert (Y : exists y, subtree t y /\ tindex y = j).
      { clear -Hj. induction t as [i ch IH] using rtree_ind'. rewrite Forall_forall in IH. apply node_cases in Hj.
        destruct Hj as [->|[c [Hc Hj]]]; [exists (Node i ch); split; [constructor|reflexivity]|].
        destruct (IH c Hc Hj) as [y [Hy Ey]]. exists y. split; [|assumption]. eapply subtree_trans; [|exact Hy]. eapply st_down; [constructor|assumption]. }
      destruct Y as [y [Hy <-]]. destruct (RF y Hy) as [Y1 _]. destruct (BH M B t HB0 HMB y Hy) as [Y2 Y3].
      destruct (Nat.eq_dec (sz s (tindex y)) 0) as [Z|Z].
      + assert (X := t_low _ _ _ _ _ _ _ I (tindex y) Hj Z). assert (X' := raised_ge t s d (tindex y) D). nra.
      + destruct (level_small M B n t rs m SU HD HS HB0 HV s d I W y Hy) as [_ X]; [lia|]. destruct y as [i ch]. cbn [tindex tchildren] in *.
        rewrite level_node in Y1. unfold floor in Y1. rewrite Qn_pred in Y1. lra.
    - intros L F LN. destruct (Qlt_le_dec (level (pr s) t) L) as [A|A].
      + set (e := L - level (pr s) t). assert (We : within M t s e) by (apply (within_less M t s d e W); unfold e; lra).
        exists (raised t s e). split; [auto|]. split; [apply RP; [assumption|unfold e; lra]|]. split; [rewrite LA; unfold e; lra|].
        split; [apply ST; assumption|].
        rewrite (size_exceed M B n t rs m HS s d e (tindex t) I W); [assumption|unfold e; lra|right; unfold e; lra].
      + assert (W0 := within_zero M B n t rs m s I). assert (Z := raised_zero t s).
        destruct (SL L F A) as (g & G1 & G2 & G3). exists g. split; [assumption|]. split; [assumption|]. split; [assumption|].
        assert (LE : forall j, In j (node_indices t) -> g j <= pr s j).
        { intros j Hj. rewrite <- Z. apply (can_mono M B (V m) t g (raised t s 0)); auto; [apply RP; [assumption|lra]|]. rewrite LA. lra. }
        split; [apply (supply_less M B (V m) t (pr s)); assumption|].
        assert (X := size_now M B n t rs m HS s (tindex t) I). assert (Y := exceed_anti _ _ (V m (tindex t)) (LE _ (tindex_node t))). lia.
  Qed.
End Supply.

(** ** The whole auction *)

Lemma clone_sdesc : forall m, no_ties m -> forall i, sdesc (cvalues (cat_at (clone_market m) i)).
Proof.
  intros m NT i. rewrite clone_at. unfold clone, new_category. simpl. apply desc_differ; [apply sort_desc_desc|].
  eapply differ_perm; [apply Permutation_sym, sort_desc_perm|]. apply differ_intro. intros l1 x l2 y l3 E.
  unfold cat_at in E. destruct (lt_dec i (length m)) as [L|L].
  - eapply NT; [apply nth_In; exact L|exact E].
  - rewrite nth_overflow in E by lia. simpl in E. destruct l1; discriminate.
Qed.

Lemma vals_at : forall m j, Permutation (cvalues (nth j (clone_market m) (mkCat "" []))) (cvalues (nth j m no_category)).
Proof.
  intros m j. change (nth j (clone_market m) (mkCat "" [])) with (cat_at (clone_market m) j). rewrite clone_at. unfold clone, new_category. cbn [cvalues].
  apply sort_desc_perm.
Qed.

Lemma auction_run : forall M B p fuel m st r rs, 0 < M -> 0 < B ->
  tree_auction M p fuel m st = Ok r -> recipes (length m) (tt_tree r) = Ok rs ->
  distinct_categories (tt_tree r) -> initial_prices_ok (length m) rs (- M) p ->
  values_within B m -> 2 * B * Qn (height (tt_tree r)) <= M -> no_ties m ->
  (forall i, In i (node_indices (tt_tree r)) -> (0 < csize (cat_at m i))%nat) ->
  exists s0 s u, setup (length m) (tt_tree r) rs /\ run M B (length m) (tt_tree r) rs (clone_market m) p s0
    /\ (forall j, pr s0 j = nth j p 0) /\ tree_visited M (tt_tree r) s0 s /\ tree_round M (tt_tree r) s = Ok (true, u)
    /\ (forall i, In i (node_indices (tt_tree r)) -> nth i p 0 <= - M)
    /\ tt_prices r = prices_of u /\ tt_cats r = cats_of s.
Proof.
  intros M B p fuel m st r rs HM HB H Hrs HD HP HV HMB NT NE.
  assert (HB0 : 0 <= B) by lra.
  assert (HV' : forall i v, In v (cvalues (cat_at (clone_market m) i)) -> - B <= v <= B).
  { intros i v Hv. rewrite clone_at, clone_In in Hv. destruct (cat_at_In _ _ _ Hv) as [HI _]. apply (HV _ _ HI Hv). }
  assert (BM2 : - M < - B).
  { assert (X := height_pos (tt_tree r)). apply Qn_mono in X. rewrite Qn_1 in X. nra. }
  assert (VA : values_above (- M) m).
  { intros c v Hc Hv. destruct (HV c v Hc Hv). lra. }
  destruct (auction_final _ _ _ _ _ _ _ HM H Hrs HP VA) as (sp & s & u & R & VS & I0 & EP & I & HR).
  assert (SU := rt_setup _ _ _ _ _ _ _ _ _ R). set (t := tt_tree r) in *.
  assert (NE' : forall i, In i (node_indices t) -> (0 < csize (cat_at (clone_market m) i))%nat).
  { intros i Hi. specialize (NE i Hi). rewrite clone_at. unfold csize, clone, new_category in *. simpl. rewrite sort_desc_length. assumption. }
  assert (LOW : forall i, In i (node_indices t) -> nth i p 0 <= - M).
  { destruct HP as [HL [HF _]]. intros i Hi. rewrite Forall_forall in HF. apply HF, nth_In. rewrite HL. assert (X := su_range _ _ _ SU).
    unfold indices_in_range in X. rewrite Forall_forall in X. apply X. assumption. }
  exists (clone_market m, sp), s, u. split; [assumption|].
  split; [|split; [intros j; unfold pr; rewrite EP; reflexivity|split; [assumption|split; [assumption|split; [assumption|]]]]].
  2: { rewrite (rt_prices _ _ _ _ _ _ _ _ _ R), (rt_cats _ _ _ _ _ _ _ _ _ R). split; [reflexivity|].
    destruct (final_shape _ _ _ _ _ _ _ SU (Proof_TA3.clone_sorted m) I HR) as (E & _). exact E. }
  destruct HP as [HL [HF _]]. assert (J0 := invB_start M (length m) p sp m HM HL HF EP).
  assert (T0 : invT M B (length m) t rs (clone_market m) (clone_market m, sp)).
  { split; [exact I0|exact J0| | | | ].
    + intros i v Hv. assert (Hv' : In v (cvalues (cat_at (clone_market m) i))) by exact Hv.
      destruct (HV' i v Hv') as [X _]. enough (X0 : nth i p 0 < v) by (rewrite <- EP in X0; exact X0).
      destruct (lt_dec i (length p)) as [L|L].
      * rewrite Forall_forall in HF. assert (Y := HF _ (nth_In p 0 L)). lra.
      * destruct (cat_at_In _ _ _ Hv') as [_ L']. unfold clone_market in L'. rewrite map_length in L'. lia.
    + intros i ch c Hx Hz. assert (X := NE' i (subtree_nodes _ _ _ Hx (or_introl eq_refl))).
      assert (Y : csize (cat_at (clone_market m) i) = 0%nat) by exact Hz. lia.
    + intros i Hi Hz. assert (X := NE' i Hi). assert (Y : csize (cat_at (clone_market m) i) = 0%nat) by exact Hz. lia.
    + intros i ch Hx Hp Hz c a Hc. assert (X := NE' (tindex c) (subtree_nodes _ _ _ (st_down _ _ _ _ Hx Hc) (tindex_node c))).
      assert (Y : csize (cat_at (clone_market m) (tindex c)) = 0%nat) by exact (Hz c Hc). lia. }
  split; [exact T0| |].
  - apply (start_can M B (length m) t rs (clone_market m) SU HD HB0 HM HMB p LOW); [exact T0| |constructor].
    intros j. unfold pr. rewrite EP. reflexivity.
  - intros j _. unfold pr. rewrite EP. reflexivity.
Qed.

Lemma room_for_values : forall M B t m, 0 < M -> values_within B m -> 2 * B * Qn (height t) <= M ->
  exists B', 0 < B' /\ B <= B' /\ 2 * B' * Qn (height t) <= M.
Proof.
  intros M B t m HM HV HMB. assert (X := height_pos t). apply Qn_mono in X. rewrite Qn_1 in X.
  destruct (Qlt_le_dec 0 B) as [P|P]; [exists B; split; [assumption|]; split; [lra|assumption]|].
  exists (M * (/ (2 * Qn (height t)))). assert (NZ : 0 < 2 * Qn (height t)) by lra.
  assert (IP := Qinv_lt_0_compat _ NZ). split; [nra|]. split; [nra|].
  assert (E : 2 * (M * / (2 * Qn (height t))) * Qn (height t) == M) by (field; lra). lra.
Qed.

Theorem tree_better : forall M B p p' fuel fuel' m m' c st r r' rs, 0 < M -> length m' = length m ->
  tree_auction M p fuel m st = Ok r -> tree_auction M p' fuel' m' st = Ok r' -> recipes (length m) (tt_tree r) = Ok rs ->
  distinct_categories (tt_tree r) -> In c (node_indices (tt_tree r)) ->
  initial_prices_ok (length m) rs (- M) p -> initial_prices_ok (length m) rs (- M) p' ->
  values_within B m -> values_within B m' -> 2 * B * Qn (height (tt_tree r)) <= M -> no_ties m -> no_ties m' ->
  (forall i, In i (node_indices (tt_tree r)) -> (0 < csize (nth i m no_category))%nat) ->
  improves m m' -> (forall j, (j < length m)%nat -> j <> c -> Permutation (cvalues (nth j m no_category)) (cvalues (nth j m' no_category))) ->
  (0 < csize (nth (tindex (tt_tree r)) (tt_cats r) no_category))%nat ->
  (0 < csize (nth (tindex (tt_tree r)) (tt_cats r') no_category))%nat
  /\ nth c (tt_prices r) 0 <= nth c (tt_prices r') 0
  /\ forall j, In j (node_indices (tt_tree r)) -> j <> c ->
       (related (tt_tree r) j c -> nth j (tt_prices r') 0 <= nth j (tt_prices r) 0)
       /\ (~ related (tt_tree r) j c -> nth j (tt_prices r) 0 <= nth j (tt_prices r') 0).
Proof.
  intros M B0 p p' fuel fuel' m m' c st r r' rs HM LM H H' Hrs HD Hc HP HP' HV0 HV0' HMB0 NT NT' NE HI HK LEFT.
  destruct (room_for_values M B0 (tt_tree r) m HM HV0 HMB0) as (B & HB & LB & HMB).
  assert (HV : values_within B m) by (intros x v Hx Hv; destruct (HV0 x v Hx Hv); lra).
  assert (HV' : values_within B m') by (intros x v Hx Hv; destruct (HV0' x v Hx Hv); lra). clear HV0 HV0' HMB0 LB B0.
  assert (HB0 : 0 <= B) by lra.
  assert (ET : tt_tree r' = tt_tree r).
  { destruct (auction_returned _ _ _ _ _ _ H) as (? & ? & ? & R). destruct (auction_returned _ _ _ _ _ _ H') as (? & ? & ? & R').
    assert (X := rt_tree _ _ _ _ _ _ _ _ _ R). assert (X' := rt_tree _ _ _ _ _ _ _ _ _ R'). unfold new_tree, clone_market in X, X'.
    rewrite map_length in X, X'. rewrite LM in X'. congruence. }
  assert (EX : forall j q, (exceed q (V (clone_market m) j) <= exceed q (V (clone_market m') j))%nat).
  { intros j q. unfold V, cat_at. rewrite (exceed_perm q _ _ (vals_at m j)), (exceed_perm q _ _ (vals_at m' j)).
    apply improves_exceed, improves_nth. assumption. }
  assert (SAME : forall j q, j <> c -> exceed q (V (clone_market m') j) = exceed q (V (clone_market m) j)).
  { intros j q NJ. unfold V, cat_at. rewrite (exceed_perm q _ _ (vals_at m j)), (exceed_perm q _ _ (vals_at m' j)).
    destruct (lt_dec j (length m)) as [L|L]; [symmetry; apply exceed_perm; auto|]. rewrite !nth_overflow by lia. reflexivity. }
  assert (NE' : forall i, In i (node_indices (tt_tree r)) -> (0 < csize (nth i m' no_category))%nat).
  { intros i Hi. specialize (NE i Hi). destruct (improves_nth m m' i HI) as (kept & extra & P1 & P2).
    assert (Q1 := Permutation_length P1). rewrite app_length, <- (Forall2_length _ _ _ _ _ P2) in Q1. change Proof_Ascending.dcat with no_category in Q1. unfold csize in *. lia. }
  destruct (auction_run M B p fuel m st r rs HM HB H Hrs HD HP HV HMB NT NE) as (s0 & s & u & SU & R0 & E0 & VS & HR & LOW & EP & EC).
  destruct (auction_run M B p' fuel' m' st r' rs HM HB H') as (s0' & s' & u' & SU' & R0' & E0' & VS' & HR' & LOW' & EP' & EC');
    try (rewrite ?ET, ?LM; assumption).
  rewrite ET, LM in *. set (t := tt_tree r) in *.
  assert (HS := Proof_TA3.clone_sorted m). assert (HS' := Proof_TA3.clone_sorted m').
  assert (SD := clone_sdesc m NT). assert (SD' := clone_sdesc m' NT').
  assert (VC : forall i v, In v (cvalues (cat_at (clone_market m) i)) -> - B <= v <= B).
  { intros i v Hv. rewrite clone_at, clone_In in Hv. destruct (cat_at_In _ _ _ Hv) as [J _]. apply (HV _ _ J Hv). }
  assert (VC' : forall i v, In v (cvalues (cat_at (clone_market m') i)) -> - B <= v <= B).
  { intros i v Hv. rewrite clone_at, clone_In in Hv. destruct (cat_at_In _ _ _ Hv) as [J _]. apply (HV' _ _ J Hv). }
  assert (L1 : (0 < sz s (tindex t))%nat) by (rewrite EC in LEFT; exact LEFT).
  destruct (outcome M B (length m) t rs (clone_market m) SU HD HS SD HB0 HM HMB VC p LOW s0 s u R0 E0 VS HR L1)
    as (f & Ef & Cf & Rf & Lf & Sf & FM & ON).
  assert (CMP := compare M B (V (clone_market m)) (V (clone_market m')) c SAME (EX c) (SD' c)).
  assert (L2 : (0 < sz s' (tindex t))%nat).
  { destruct (Nat.eq_dec (sz s' (tindex t)) 0) as [Z|Z]; [exfalso|lia].
    destruct (stock_run M B (length m) t rs (clone_market m') SU' HD HS' SD' HB0 HM HMB VC' p' LOW' s0' s' R0' E0' VS') as [R' _].
    assert (I' := r_inv _ _ _ _ _ _ _ _ R'). assert (C' := r_can _ _ _ _ _ _ _ _ R').
    assert (F := empty_root_ripe M B (length m) t rs (clone_market m') HB0 HMB s' I' Z).
    destruct (ia_good _ _ _ _ (t_A _ _ _ _ _ _ _ I')) as [S [G NS]]. assert (LS := run_level M B (length m) t rs (clone_market m') SU' HD s' S I' G).
    destruct (ON (level (pr s') t) F) as (g & G1 & G2 & G3 & G4 & G5); [lra|].
    assert (RP : ripe M B (raised t s' 0) t).
    { apply (level_ripe M B (length m) t rs (clone_market m') SU' HD HS' HB0 HM HMB VC' s' 0 I' (within_zero _ _ _ _ _ _ _ I') t (st_here t)).
      rewrite (level_ext (raised t s' 0) (pr s')) by (intros j _; apply raised_zero). assumption. }
    destruct (CMP t g (raised t s' 0) HD Hc G1) as (_ & _ & X); try assumption.
    - apply (can_ext M B _ t (pr s')); [intros j _; symmetry; apply raised_zero|assumption].
    - rewrite G3. apply level_ext. intros j _. symmetry. apply raised_zero.
    - rewrite (exceed_compat _ _ (V (clone_market m') (tindex t)) (raised_zero t s' (tindex t))) in X.
      rewrite (size_now M B (length m) t rs (clone_market m') HS' s' (tindex t) I') in X. lia. }
  destruct (outcome M B (length m) t rs (clone_market m') SU' HD HS' SD' HB0 HM HMB VC' p' LOW' s0' s' u' R0' E0' VS' HR' L2)
    as (f' & Ef' & Cf' & Rf' & Lf' & Sf' & FM' & ON').
  split; [rewrite EC'; exact L2|].
  destruct (chain M B (V (clone_market m)) (V (clone_market m')) c SAME (EX c) (SD c) (SD' c) t f f' HD Hc Cf Cf' Rf Rf' Sf Sf') as [X1 X2];
    [apply FM; assumption|lra|intros g _ _ A1 A2; lra|intros L A1 A2; lra|].
  assert (PF : forall j, nth j (tt_prices r) 0 == f j) by (intros j; rewrite EP; apply Ef).
  assert (PF' : forall j, nth j (tt_prices r') 0 == f' j) by (intros j; rewrite EP'; apply Ef').
  split; [rewrite PF, PF'; assumption|]. intros j Hj NJ. rewrite PF, PF'. apply X2; assumption.
Qed.
