(** * Small changes of the values (C113): the tree auction *)

From Coq Require Import Qabs String List Arith Lia QArith Lqa Permutation Sorted Bool.
From Verif Require Import Base Model_Agents Model_Trade Model_Prices Model_Market Model_RecipeTree Model_TreeAuction
  Spec_Market Spec_RecipeTree Spec_TreeAuction Spec_Statics Spec_Reorder Spec_Better Spec_Lipschitz Proof_Market Proof_Tree Proof_Tree2 Proof_Tree3 Proof_TA1 Proof_TA2 Proof_TA3 Proof_TA4
  Proof_TA6 Proof_TA7 Proof_TA10 Proof_Renumber Proof_Initial Proof_Better Proof_Better3 Proof_Better4 Proof_Lipschitz.
Import ListNotations.
Open Scope Q_scope.

(** If all prices of a subtree move in one direction, each of them moves by no more than the level. *)
Lemma up_bound : forall M B V V2 eps x f g, can M B V x f -> can M B V2 x g -> (forall j, In j (node_indices x) -> f j <= g j) ->
  level g x <= level f x + eps -> forall j, In j (node_indices x) -> g j <= f j + eps.
Proof.
  intros M B V V2 eps x. induction x as [i ch IH] using rtree_ind'. intros f g Hf Hg LE L j Hj. rewrite Forall_forall in IH.
  apply can_node in Hf. apply can_node in Hg. destruct Hf as (F1 & F2 & _). destruct Hg as (G1 & G2 & _). rewrite !level_node in L.
  assert (LC : forall d k, In d ch -> In k (node_indices d) -> f k <= g k) by (intros d k Hd Hk; apply LE; eapply child_node; eassumption).
  assert (X := clevel_mono f g ch LC). assert (Y := LE i (or_introl eq_refl)).
  apply node_cases in Hj. destruct Hj as [->|[d [Hd Hj]]]; [lra|].
  apply (IH d Hd f g); auto; [intros k Hk; eapply LC; eassumption|]. rewrite (F2 d Hd), (G2 d Hd). lra.
Qed.

Section Near.
  Variables (M B eps : Q) (V V' : nat -> list Q) (c : nat).
  Hypothesis EPS : 0 <= eps.
  Hypothesis same : forall j p, j <> c -> exceed p (V' j) = exceed p (V j).
  Hypothesis less : forall p, (exceed (p + eps) (V' c) <= exceed p (V c))%nat.
  Hypothesis ND : sdesc (V c).

  (** When the level of a subtree with the changed category is higher by [eps], then at most as many agents of its root are left. *)
  Lemma compensate : forall x f f', distinct_categories x -> In c (node_indices x) -> can M B V x f -> can M B V' x f' ->
    ripe M B f x -> ripe M B f' x -> supply M B V' x f' -> - M < f c -> level f x + eps <= level f' x ->
    (exceed (f' (tindex x)) (V' (tindex x)) <= exceed (f (tindex x)) (V (tindex x)))%nat.
  Proof.
    intros x. induction x as [i ch IH] using rtree_ind'. intros f f' HD Hc Hf Hf' Rf Rf' SP' FM L. rewrite Forall_forall in IH. cbn [tindex].
    apply can_node in Hf. apply can_node in Hf'. destruct Hf as (F1 & F2 & F3 & F4). destruct Hf' as (G1 & G2 & G3 & G4).
    rewrite !level_node in L. destruct (distinct_inv _ _ HD) as [Hi HDc].
    assert (Cf := fun d Hd => ripe_child M B f i ch d Rf Hd). assert (Cf' := fun d Hd => ripe_child M B f' i ch d Rf' Hd).
    destruct (Rf _ (st_here _)) as [_ Rfi]. destruct (Rf' _ (st_here _)) as [_ Rfi']. cbn [tindex] in *.
    destruct (Nat.eq_dec i c) as [->|NI].
    - assert (AW : forall d, In d ch -> ~ In c (node_indices d)).
      { intros d Hd X. apply Hi. apply in_concat. exists (node_indices d). split; [apply in_map; assumption|assumption]. }
      destruct (Qlt_le_dec (f' c) (f c + eps)) as [A|A].
      + destruct (G4 f) as [Y1 Y2]; [intros d Hd; apply (can_away M B V V' c same); auto|assumption|assumption|lra|].
        rewrite (count_away V V' c same f ch AW) in Y1, Y2.
        destruct (near_below (V c) (- M) (f c) ND FM) as (q & q1 & q2 & q3). assert (X := F3 q q1 q2). lia.
      + assert (X := exceed_anti _ _ (V' c) A). assert (Y := less (f c)). lia.
    - destruct (Qlt_le_dec (f' i) (f i)) as [A|A]; [exfalso|rewrite same by assumption; apply exceed_anti; assumption].
      apply node_cases in Hc. destruct Hc as [->|[d0 [Hd0 Hc]]]; [congruence|].
      assert (NE : ch <> []) by (intros ->; destruct Hd0).
      destruct (SP' i ch (clevel f ch + eps) (st_here _) NE) as (g & S1 & S2 & S3 & S4);
        [intros d Hd; assert (X := proj1 (Cf d Hd d (st_here d))); rewrite (F2 d Hd) in X; lra|lra|].
      destruct (G4 g S1 S2 S3) as [Y1 Y2]; [lra|]. rewrite same in Y1 by assumption. assert (X := F3 (f' i) Rfi' A).
      enough (Z : (count V' g ch <= count V f ch)%nat) by lia. unfold count. apply nsum_map_le. intros d Hd.
      assert (LE : level f d + eps <= level g d) by (rewrite (S3 d Hd), (F2 d Hd); lra).
      destruct (in_dec Nat.eq_dec c (node_indices d)) as [J|J].
      + apply (IH d Hd f g); auto; [eapply distinct_child; eassumption|].
        apply (supply_less M B V' d f'); [eapply supply_child; eassumption|]. apply (can_mono M B V' d g f'); auto. rewrite (S3 d Hd), (G2 d Hd). lra.
      + assert (tindex d <> c) by (intros E; apply J; rewrite <- E; apply tindex_node). rewrite same by assumption.
        apply exceed_anti. apply (can_mono M B V d f g); auto; [apply (can_away M B V V' c same); auto|lra|apply tindex_node].
  Qed.

  (** The prices of a subtree whose level is higher by at most [eps]. *)
  Lemma bounded : forall x f f', distinct_categories x -> In c (node_indices x) -> can M B V x f -> can M B V' x f' ->
    ripe M B f x -> ripe M B f' x -> supply M B V' x f' -> - M < f c -> level f x <= level f' x -> level f' x <= level f x + eps ->
    f c <= f' c -> (forall j, In j (node_indices x) -> j <> c -> related x j c -> f' j <= f j) ->
    forall j, In j (node_indices x) -> Qabs (f' j - f j) <= eps.
  Proof.
    intros x. induction x as [i ch IH] using rtree_ind'. intros f f' HD Hc Hf Hf' Rf Rf' SP' FM L1 L2 OWN COMP j Hj. rewrite Forall_forall in IH.
    assert (Hf0 := Hf). assert (Hf0' := Hf').
    apply can_node in Hf. apply can_node in Hf'. destruct Hf as (F1 & F2 & F3 & F4). destruct Hf' as (G1 & G2 & G3 & G4).
    rewrite !level_node in L1, L2. destruct (distinct_inv _ _ HD) as [Hi HDc].
    assert (Cf := fun d Hd => ripe_child M B f i ch d Rf Hd). assert (Cf' := fun d Hd => ripe_child M B f' i ch d Rf' Hd).
    destruct (Rf _ (st_here _)) as [_ Rfi]. destruct (Rf' _ (st_here _)) as [_ Rfi']. cbn [tindex] in *.
    apply Qabs_Qle_condition.
    destruct (Nat.eq_dec i c) as [->|NI].
    - assert (AW : forall d, In d ch -> ~ In c (node_indices d)).
      { intros d Hd X. apply Hi. apply in_concat. exists (node_indices d). split; [apply in_map; assumption|assumption]. }
      assert (OE : f' c <= f c + eps).
      { destruct (Qlt_le_dec (f c + eps) (f' c)) as [A|A]; [exfalso|assumption].
        destruct (F4 f') as [Y1 Y2]; [intros d Hd; apply (can_away M B V V' c same); auto|assumption|assumption|lra|].
        assert (X := G3 (f c + eps) ltac:(lra) A). rewrite (count_away V V' c same f' ch AW) in X. assert (Z := less (f c)). lia. }
      assert (DN : forall d k, In d ch -> In k (node_indices d) -> f' k <= f k).
      { intros d k Hd Hk. apply COMP; [eapply child_node; eassumption|intros ->; apply (AW d Hd Hk)|].
        destruct (node_path d k Hk) as [a [Ha Hka]]. exists (c :: a). split; [econstructor; eassumption|]. split; [right; assumption|left; reflexivity]. }
      apply node_cases in Hj. destruct Hj as [->|[d [Hd Hj]]]; [lra|].
      assert (X := DN d j Hd Hj). assert (Y : f j <= f' j + eps); [|lra].
      apply (up_bound M B V' V eps d f' f); auto; [intros k Hk; eapply DN; eassumption|]. rewrite (F2 d Hd), (G2 d Hd). lra.
    - assert (Hc0 := Hc). apply node_cases in Hc. destruct Hc as [->|[d0 [Hd0 Hc]]]; [congruence|].
      assert (NE : ch <> []) by (intros ->; destruct Hd0).
      assert (Ei : f' i <= f i).
      { apply COMP; [left; reflexivity|assumption|]. destruct (node_path d0 c Hc) as [a [Ha Hca]].
        exists (i :: a). split; [econstructor; eassumption|]. split; [left; reflexivity|right; assumption]. }
      assert (CE : clevel f' ch <= clevel f ch + eps).
      { destruct (Qlt_le_dec (clevel f ch + eps) (clevel f' ch)) as [A|A]; [exfalso|assumption]. assert (A' : f' i < f i) by lra.
        destruct (SP' i ch (clevel f ch + eps) (st_here _) NE) as (g & S1 & S2 & S3 & S4);
          [intros d Hd; assert (X := proj1 (Cf d Hd d (st_here d))); rewrite (F2 d Hd) in X; lra|lra|].
        destruct (G4 g S1 S2 S3) as [Y1 Y2]; [lra|]. rewrite same in Y1 by assumption. assert (X := F3 (f' i) Rfi' A').
        enough (Z : (count V' g ch <= count V f ch)%nat) by lia. unfold count. apply nsum_map_le. intros d Hd.
        assert (LE : level f d + eps <= level g d) by (rewrite (S3 d Hd), (F2 d Hd); lra).
        destruct (in_dec Nat.eq_dec c (node_indices d)) as [J|J].
        + apply (compensate d f g); auto; [eapply distinct_child; eassumption|].
          apply (supply_less M B V' d f'); [eapply supply_child; eassumption|]. apply (can_mono M B V' d g f'); auto. rewrite (S3 d Hd), (G2 d Hd). lra.
        + assert (tindex d <> c) by (intros E; apply J; rewrite <- E; apply tindex_node). rewrite same by assumption.
          apply exceed_anti. apply (can_mono M B V d f g); auto; [apply (can_away M B V V' c same); auto|lra|apply tindex_node]. }
      apply node_cases in Hj. destruct Hj as [->|[d [Hd Hj]]]; [lra|].
      destruct (in_dec Nat.eq_dec c (node_indices d)) as [J|J].
      + apply Qabs_Qle_condition. apply (IH d Hd f f'); auto; [eapply distinct_child; eassumption|eapply supply_child; eassumption| | |].
        * rewrite (F2 d Hd), (G2 d Hd). lra.
        * rewrite (F2 d Hd), (G2 d Hd). lra.
        * intros k Hk NK (a & Ha & J1 & J2). apply COMP; [eapply child_node; eassumption|assumption|].
          exists (i :: a). split; [econstructor; eassumption|]. split; right; assumption.
      + assert (LE : forall k, In k (node_indices d) -> f k <= f' k).
        { apply (can_mono M B V d f f'); auto; [apply (can_away M B V V' c same); auto|]. rewrite (F2 d Hd), (G2 d Hd). lra. }
        assert (X := LE j Hj). assert (Y : f' j <= f j + eps); [|lra].
        apply (up_bound M B V V' eps d f f'); auto. rewrite (F2 d Hd), (G2 d Hd). lra.
  Qed.
End Near.

Theorem tree_near : forall M B eps p p' fuel fuel' m m' c st r r' rs, 0 < M -> 0 <= eps -> length m' = length m ->
  tree_auction M p fuel m st = Ok r -> tree_auction M p' fuel' m' st = Ok r' -> recipes (length m) (tt_tree r) = Ok rs ->
  distinct_categories (tt_tree r) -> In c (node_indices (tt_tree r)) ->
  initial_prices_ok (length m) rs (- M) p -> initial_prices_ok (length m) rs (- M) p' ->
  values_within B m -> values_within B m' -> 2 * B * Qn (height (tt_tree r)) <= M -> no_ties m -> no_ties m' ->
  (forall i, In i (node_indices (tt_tree r)) -> (0 < csize (nth i m no_category))%nat) ->
  improves m m' -> (forall j, (j < length m)%nat -> j <> c -> Permutation (cvalues (nth j m no_category)) (cvalues (nth j m' no_category))) ->
  near eps m m' -> (0 < csize (nth (tindex (tt_tree r)) (tt_cats r) no_category))%nat ->
  forall j, In j (node_indices (tt_tree r)) -> Qabs (nth j (tt_prices r') 0 - nth j (tt_prices r) 0) <= eps.
Proof.
  intros M B0 eps p p' fuel fuel' m m' c st r r' rs HM EPS LM H H' Hrs HD Hc HP HP' HV0 HV0' HMB0 NT NT' NE HI HK NEAR LEFT.
  destruct (room_for_values M B0 (tt_tree r) m HM HV0 HMB0) as (B & HB & LB & HMB).
  assert (HV : values_within B m) by (intros x v Hx Hv; destruct (HV0 x v Hx Hv); lra).
  assert (HV' : values_within B m') by (intros x v Hx Hv; destruct (HV0' x v Hx Hv); lra). clear HV0 HV0' HMB0 LB B0.
  assert (HB0 : 0 <= B) by lra.
  assert (ET : tt_tree r' = tt_tree r).
  { destruct (auction_returned _ _ _ _ _ _ H) as (? & ? & ? & R). destruct (auction_returned _ _ _ _ _ _ H') as (? & ? & ? & R').
    assert (X := rt_tree _ _ _ _ _ _ _ _ _ R). assert (X' := rt_tree _ _ _ _ _ _ _ _ _ R'). unfold new_tree, clone_market in X, X'.
    rewrite map_length in X, X'. rewrite LM in X'. congruence. }
  assert (EX : forall j q, (exceed q (V (clone_market m) j) <= exceed q (V (clone_market m') j))%nat).
  { intros j q. unfold V, cat_at. rewrite (exceed_perm q _ _ (vals_at m j)), (exceed_perm q _ _ (vals_at m' j)).
    apply improves_exceed, improves_nth. assumption. }
  assert (SAME : forall j q, j <> c -> exceed q (V (clone_market m') j) = exceed q (V (clone_market m) j)).
  { intros j q NJ. unfold V, cat_at. rewrite (exceed_perm q _ _ (vals_at m j)), (exceed_perm q _ _ (vals_at m' j)).
    destruct (lt_dec j (length m)) as [L|L]; [symmetry; apply exceed_perm; auto|]. rewrite !nth_overflow by lia. reflexivity. }
  assert (NE' : forall i, In i (node_indices (tt_tree r)) -> (0 < csize (nth i m' no_category))%nat).
  { intros i Hi. specialize (NE i Hi). destruct (improves_nth m m' i HI) as (kept & extra & P1 & P2).
    assert (Q1 := Permutation_length P1). rewrite app_length, <- (Forall2_length _ _ _ _ _ P2) in Q1. change Proof_Ascending.dcat with no_category in Q1. unfold csize in *. lia. }
  destruct (auction_run M B p fuel m st r rs HM HB H Hrs HD HP HV HMB NT NE) as (s0 & s & u & SU & R0 & E0 & VS & HR & LOW & EP & EC).
  destruct (auction_run M B p' fuel' m' st r' rs HM HB H') as (s0' & s' & u' & SU' & R0' & E0' & VS' & HR' & LOW' & EP' & EC');
    try (rewrite ?ET, ?LM; assumption).
  rewrite ET, LM in *. set (t := tt_tree r) in *.
  assert (HS := Proof_TA3.clone_sorted m). assert (HS' := Proof_TA3.clone_sorted m').
  assert (SD := clone_sdesc m NT). assert (SD' := clone_sdesc m' NT').
  assert (VC : forall i v, In v (cvalues (cat_at (clone_market m) i)) -> - B <= v <= B).
  { intros i v Hv. rewrite clone_at, clone_In in Hv. destruct (cat_at_In _ _ _ Hv) as [J _]. apply (HV _ _ J Hv). }
  assert (VC' : forall i v, In v (cvalues (cat_at (clone_market m') i)) -> - B <= v <= B).
  { intros i v Hv. rewrite clone_at, clone_In in Hv. destruct (cat_at_In _ _ _ Hv) as [J _]. apply (HV' _ _ J Hv). }
  assert (L1 : (0 < sz s (tindex t))%nat) by (rewrite EC in LEFT; exact LEFT).
  destruct (outcome M B (length m) t rs (clone_market m) SU HD HS SD HB0 HM HMB VC p LOW s0 s u R0 E0 VS HR L1)
    as (f & Ef & Cf & Rf & Lf & Sf & FM & ON).
  assert (CMP := compare M B (V (clone_market m)) (V (clone_market m')) c SAME (EX c) (SD' c)).
  assert (L2 : (0 < sz s' (tindex t))%nat).
  { destruct (Nat.eq_dec (sz s' (tindex t)) 0) as [Z|Z]; [exfalso|lia].
    destruct (stock_run M B (length m) t rs (clone_market m') SU' HD HS' SD' HB0 HM HMB VC' p' LOW' s0' s' R0' E0' VS') as [R' _].
    assert (I' := r_inv _ _ _ _ _ _ _ _ R'). assert (C' := r_can _ _ _ _ _ _ _ _ R').
    assert (F := empty_root_ripe M B (length m) t rs (clone_market m') HB0 HMB s' I' Z).
    destruct (ia_good _ _ _ _ (t_A _ _ _ _ _ _ _ I')) as [S [G NS]]. assert (LS := run_level M B (length m) t rs (clone_market m') SU' HD s' S I' G).
    destruct (ON (level (pr s') t) F) as (g & G1 & G2 & G3 & G4 & G5); [lra|].
    assert (RP : ripe M B (raised t s' 0) t).
    { apply (level_ripe M B (length m) t rs (clone_market m') SU' HD HS' HB0 HM HMB VC' s' 0 I' (within_zero _ _ _ _ _ _ _ I') t (st_here t)).
      rewrite (level_ext (raised t s' 0) (pr s')) by (intros j _; apply raised_zero). assumption. }
    destruct (CMP t g (raised t s' 0) HD Hc G1) as (_ & _ & X); try assumption.
    - apply (can_ext M B _ t (pr s')); [intros j _; symmetry; apply raised_zero|assumption].
    - rewrite G3. apply level_ext. intros j _. symmetry. apply raised_zero.
    - rewrite (exceed_compat _ _ (V (clone_market m') (tindex t)) (raised_zero t s' (tindex t))) in X.
      rewrite (size_now M B (length m) t rs (clone_market m') HS' s' (tindex t) I') in X. lia. }
  destruct (outcome M B (length m) t rs (clone_market m') SU' HD HS' SD' HB0 HM HMB VC' p' LOW' s0' s' u' R0' E0' VS' HR' L2)
    as (f' & Ef' & Cf' & Rf' & Lf' & Sf' & FM' & ON').
  destruct (chain M B (V (clone_market m)) (V (clone_market m')) c SAME (EX c) (SD c) (SD' c) t f f' HD Hc Cf Cf' Rf Rf' Sf Sf') as [X1 X2];
    [apply FM; assumption|lra|intros g _ _ A1 A2; lra|intros L A1 A2; lra|].
  assert (PF : forall j, nth j (tt_prices r) 0 == f j) by (intros j; rewrite EP; apply Ef).
  assert (PF' : forall j, nth j (tt_prices r') 0 == f' j) by (intros j; rewrite EP'; apply Ef').
  assert (LS : forall q, (exceed (q + eps) (V (clone_market m') c) <= exceed q (V (clone_market m) c))%nat).
  { intros q. destruct (near_vals eps m m' c q EPS NEAR) as [_ X]. exact X. }
  intros j Hj. rewrite PF, PF'. apply (bounded M B eps (V (clone_market m)) (V (clone_market m')) c EPS SAME LS (SD c) t f f'); try assumption.
  - apply FM; assumption.
  - lra.
  - lra.
  - intros k Hk NK. apply X2; assumption.
Qed.
