(** * Termination of the tree auction with moderate values and without ties (C38) *)

From Coq Require Import String List Arith Lia QArith Lqa Permutation Sorted Bool.
From Verif Require Import Base Model_Agents Model_Trade Model_Prices Model_Market Model_RecipeTree Model_TreeAuction
  Spec_Market Spec_RecipeTree Spec_TreeAuction Proof_Tree Proof_Tree2 Proof_Tree3 Proof_TA1 Proof_TA2 Proof_TA3 Proof_TA4
  Proof_TA6.
Import ListNotations.
Open Scope Q_scope.

(** ** Strictly descending values *)

Definition sdesc (l : list Q) : Prop := StronglySorted (fun a b => b < a) l.
Definition differ (l : list Q) : Prop := ForallOrdPairs (fun x y => ~ x == y) l.

Lemma differ_perm : forall l l', Permutation l l' -> differ l -> differ l'.
Proof.
  unfold differ. intros l l' H. induction H; intros D.
  - constructor.
  - inversion D as [|? ? Hx D']; subst. constructor; [|auto]. rewrite Forall_forall in *. intros y Hy. apply Hx.
    eapply Permutation_in; [apply Permutation_sym; eassumption|assumption].
  - inversion D as [|? ? Hy D']; subst. inversion D' as [|? ? Hx D'']; subst. inversion Hy as [|? ? Hyx Hy']; subst.
    constructor; [constructor; [intros E; apply Hyx; symmetry; assumption|assumption]|]. constructor; assumption.
  - auto.
Qed.

Lemma differ_intro : forall l, (forall l1 x l2 y l3, l = l1 ++ x :: l2 ++ y :: l3 -> ~ x == y) -> differ l.
Proof.
  induction l as [|a l IH]; intros H; [constructor|]. constructor.
  - rewrite Forall_forall. intros y Hy. apply in_split in Hy. destruct Hy as [l2 [l3 ->]]. apply (H [] a l2 y l3). reflexivity.
  - apply IH. intros l1 x l2 y l3 ->. apply (H (a :: l1) x l2 y l3). reflexivity.
Qed.

Lemma desc_differ : forall l, desc l -> differ l -> sdesc l.
Proof.
  induction l as [|a l IH]; intros D F; [constructor|]. apply desc_inv in D. destruct D as [D H].
  inversion F as [|? ? Ha F']; subst. constructor; [apply IH; assumption|].
  rewrite Forall_forall in *. intros y Hy. specialize (H y Hy). specialize (Ha y Hy). lra.
Qed.

Lemma sdesc_firstn : forall n l, sdesc l -> sdesc (firstn n l).
Proof.
  induction n as [|n IH]; intros l H; [constructor|]. destruct l as [|a l]; [constructor|]. inversion H as [|? ? H1 H2]; subst.
  simpl. constructor; [apply IH; assumption|]. rewrite Forall_forall in *. intros y Hy. apply H2.
  rewrite <- (firstn_skipn n l). apply in_app_iff. left. assumption.
Qed.

Lemma sdesc_last : forall l v, sdesc l -> In v (removelast l) -> last l 0 < v.
Proof.
  induction l as [|a l IH]; intros v H Hv; [destruct Hv|]. inversion H as [|? ? H1 H2]; subst.
  destruct l as [|b l]; [destruct Hv|]. change (last (a :: b :: l) 0) with (last (b :: l) 0).
  cbn [removelast] in Hv. destruct Hv as [<-|Hv].
  - rewrite Forall_forall in H2. apply H2. apply last_In. discriminate.
  - apply IH; assumption.
Qed.

(** ** Heights *)

Lemma fold_max_In : forall l x, In x l -> (x <= fold_right Nat.max 0%nat l)%nat.
Proof. induction l as [|a l IH]; intros x H; [destruct H|]. simpl. destruct H as [<-|H]; [lia|]. specialize (IH x H). lia. Qed.

Lemma height_child : forall i ch c, In c ch -> (S (height c) <= height (Node i ch))%nat.
Proof. intros i ch c H. cbn [height]. apply le_n_S. apply fold_max_In. apply in_map. assumption. Qed.

Lemma height_pos : forall t, (1 <= height t)%nat.
Proof. intros [i ch]. cbn [height]. lia. Qed.

Lemma height_sub : forall t x, subtree t x -> (height x <= height t)%nat.
Proof. intros t x H. induction H as [|i ch c H IH Hc]; [lia|]. assert (X := height_child i ch c Hc). lia. Qed.

Lemma path_length : forall t p, is_path t p -> (length p <= height t)%nat.
Proof.
  intros t p H. induction H as [i|i ch c p Hc Hp IH]; [cbn; lia|]. assert (X := height_child i ch c Hc). simpl length. lia.
Qed.

Lemma Qn_mono : forall a b, (a <= b)%nat -> Qn a <= Qn b.
Proof. intros a b H. unfold Qn. rewrite <- Zle_Qle. lia. Qed.

Lemma Qn_S : forall a, Qn (S a) == Qn a + 1.
Proof. intros a. unfold Qn. rewrite Nat2Z.inj_succ. unfold Z.succ. rewrite inject_Z_plus. reflexivity. Qed.

Lemma BQ_mono : forall B a b, 0 <= B -> (a <= b)%nat -> B * Qn a <= B * Qn b.
Proof. intros B a b HB H. apply Qn_mono in H. nra. Qed.

Lemma path_sum_one : forall p i, path_sum p [i] == nth i p 0.
Proof. intros. rewrite path_sum_cons. unfold path_sum. simpl. lra. Qed.

(** ** The invariant *)

Section Moderate.
  Variables (M B : Q) (n : nat) (t : rtree) (rs : list (list nat)) (m : market).
  Hypothesis SU : setup n t rs.
  Hypothesis HD : distinct_categories t.
  Hypothesis HS : sorted_cats m.
  Hypothesis HSD : forall i, sdesc (cvalues (cat_at m i)).
  Hypothesis HB0 : 0 <= B.
  Hypothesis HM : 0 < M.
  Hypothesis HMB : 2 * B * Qn (height t) <= M.
  Hypothesis HV : forall i v, In v (cvalues (cat_at m i)) -> - B <= v <= B.

  Record invT (s : tree_state) : Prop := mkInvT {
    t_A : invA n rs m s;
    t_B : invB M m s;
    t_strict : forall i v, In v (cvalues (cat_at (cats_of s) i)) -> pr s i < v;
    t_down : forall i ch c, subtree t (Node i ch) -> sz s i = 0%nat -> In c ch -> sz s (tindex c) = 0%nat;
    t_low : forall i, In i (node_indices t) -> sz s i = 0%nat -> - B <= pr s i;
    t_K : forall i ch, subtree t (Node i ch) -> (0 < sz s i)%nat -> (forall c, In c ch -> sz s (tindex c) = 0%nat) ->
      forall c p, In c ch -> is_path c p -> path_sum (prices_of s) p <= B * Qn (height (Node i ch) - 1)
  }.

  Lemma B_le_M : B <= M.
  Proof. assert (X := height_pos t). apply Qn_mono in X. rewrite Qn_1 in X. nra. Qed.

  Lemma val_M : values_below M m.
  Proof.
    intros c v Hc Hv. assert (X := B_le_M). apply In_nth_error in Hc. destruct Hc as [i Hi].
    apply (nth_error_nth _ _ (mkCat "" [])) in Hi. destruct (HV i v) as [_ Y]; [unfold cat_at; rewrite Hi; assumption|]. lra.
  Qed.

  Lemma cur_val : forall s i v, invT s -> In v (cvalues (cat_at (cats_of s) i)) -> - B <= v <= B.
  Proof. intros s i v I Hv. apply HV with (i := i). eapply pfx_In; [apply (ia_pfx _ _ _ _ (t_A _ I))|assumption]. Qed.

  Lemma nonempty_val : forall s i, (0 < sz s i)%nat -> exists v, In v (cvalues (cat_at (cats_of s) i)).
  Proof. intros s i H. unfold sz, csize in H. destruct (cvalues (cat_at (cats_of s) i)) as [|v l]; [simpl in H; lia|]. exists v. left. reflexivity. Qed.

  (** Prices along a path of unchosen categories do not change. *)
  Lemma path_sum_same : forall s s' S d p, moved M t s s' S d -> (forall j, In j p -> ~ In j (chosen t s)) ->
    path_sum (prices_of s') p == path_sum (prices_of s) p.
  Proof.
    intros s s' S d p MV. induction p as [|j p IH]; intros H; [reflexivity|]. rewrite !path_sum_cons.
    rewrite IH by (intros k Hk; apply H; right; assumption).
    assert (X := mv_other _ _ _ _ _ _ MV j (H j (or_introl eq_refl))). unfold pr in X. rewrite X. reflexivity.
  Qed.

  (** The sum below a non-empty category is small, also after the move of the prices. *)
  Lemma nonempty_small : forall s s' S d, invT s -> moved M t s s' S d ->
    (forall i v, In v (cvalues (cat_at (cats_of s) i)) -> pr s' i <= v) ->
    balanced (prices_of s') t ->
    forall x, subtree t x -> (0 < sz s (tindex x))%nat -> forall p, is_path x p -> path_sum (prices_of s') p <= B * Qn (height x).
  Proof.
    intros s s' S d I MV IR BAL x. induction x as [i ch IH] using rtree_ind'. intros H Hs p Hp. simpl in Hs.
    assert (PI : pr s' i <= B).
    { destruct (nonempty_val s i Hs) as [v Hv]. specialize (IR i v Hv). destruct (cur_val s i v I Hv). lra. }
    rewrite Forall_forall in IH.
    inversion Hp as [?|? ? c q Hc Hq]; subst.
    - rewrite path_sum_one. fold (pr s' i). cbn [height map fold_right]. rewrite Qn_1. lra.
    - rewrite path_sum_cons. fold (pr s' i).
      destruct (Nat.eq_dec (children_size (cats_of s) ch) 0) as [Z|Z].
      + assert (Z' : forall c0, In c0 ch -> sz s (tindex c0) = 0%nat).
        { intros c0 Hc0. apply (nsum_zero _ _ _ Z c0 Hc0). }
        assert (K := t_K _ I i ch H Hs Z' c q Hc Hq).
        rewrite (path_sum_same s s' S d q MV).
        2: { intros j Hj X. destruct (chosen_below t (cats_of s) i ch c j HD H Hc (is_path_indices _ _ _ Hq Hj) X) as [[_ Y] _]. contradiction. }
        assert (HP := height_pos (Node i ch)). assert (E : Qn (height (Node i ch)) == Qn (height (Node i ch) - 1) + 1).
        { rewrite <- Qn_S. replace (Datatypes.S (height (Node i ch) - 1)) with (height (Node i ch)) by lia. reflexivity. }
        rewrite E. lra.
      + apply nsum_nonzero in Z. destruct Z as [c' [Hc' Hp']].
        destruct (path_exists c') as [q' Hq'].
        assert (X := IH c' Hc' (st_down _ _ _ _ H Hc') Hp' q' Hq').
        rewrite (balanced_siblings _ _ _ _ _ q q' (balanced_sub _ _ _ BAL H) Hc Hc' Hq Hq').
        assert (Y := height_child i ch c' Hc'). apply (BQ_mono B _ _ HB0) in Y. rewrite Qn_S in Y. lra.
  Qed.

  (** Prices of empty categories below an empty one are not too low. *)
  Lemma empty_low : forall s, invT s -> forall x, subtree t x -> sz s (tindex x) = 0%nat ->
    forall p, is_path x p -> - B * Qn (length p) <= path_sum (prices_of s) p.
  Proof.
    intros s I x H Hs p Hp. revert H Hs. induction Hp as [i|i ch c p Hc Hp IH]; intros H Hs; simpl in Hs.
    - rewrite path_sum_one. assert (X := t_low _ I i (subtree_nodes _ _ _ H (or_introl eq_refl)) Hs). fold (pr s i).
      cbn [length]. rewrite Qn_1. lra.
    - rewrite path_sum_cons. fold (pr s i). assert (X := t_low _ I i (subtree_nodes _ _ _ H (or_introl eq_refl)) Hs).
      assert (Y := IH (st_down _ _ _ _ H Hc) (t_down _ I i ch c H Hs Hc)). cbn [length]. rewrite Qn_S. lra.
  Qed.

  Lemma tgt_empty : forall s i, sz s i = 0%nat -> tgt M (cat_at (cats_of s) i) = M.
  Proof. intros s i Z. unfold sz, csize in Z. unfold tgt. destruct (cvalues (cat_at (cats_of s) i)); [reflexivity|discriminate]. Qed.

  (** In a round that goes on, a non-empty category reaches its target. *)
  Lemma moderate_progress : forall s s' S d, invT s -> moved M t s s' S d -> good n rs s' (S + d) -> d < - S -> S < 0 ->
    (forall i v, In v (cvalues (cat_at (cats_of s) i)) -> pr s' i <= v) ->
    (exists i, In i (chosen t s) /\ (0 < sz s i)%nat /\ d == tgt M (cat_at (cats_of s) i) - pr s i).
  Proof.
    intros s s' S d I MV G' Hd NS IR.
    destruct (mv_min _ _ _ _ _ _ MV) as [E|[i [Hi E]]]; [lra|].
    destruct (Nat.eq_dec (sz s i) 0) as [Z|Z]; [|exists i; split; [assumption|]; split; [lia|assumption]].
    exfalso. rewrite (tgt_empty s i Z) in E.
    assert (PM : pr s' i == M) by (rewrite (mv_chosen _ _ _ _ _ _ MV i Hi); lra).
    destruct (empty_sibling _ _ _ _ _ _ _ HD MV Hi Z) as (ch & j & chj & c & H & Hc & Hc' & Hp & NJ).
    assert (BAL := good_balanced _ _ _ _ _ SU HD G').
    destruct (path_exists c) as [q Hq].
    assert (NS1 := nonempty_small s s' S d I MV IR BAL c (st_down _ _ _ _ H Hc') Hp q Hq).
    assert (HSub : subtree t (Node i ch)) by (eapply st_down; eassumption).
    (* a path below the empty category *)
    destruct (path_exists (Node i ch)) as [a Ha].
    assert (EQ := balanced_siblings _ _ _ _ _ a q (balanced_sub _ _ _ BAL H) Hc Hc' Ha Hq).
    assert (LOW : M - B * Qn (height (Node i ch) - 1) <= path_sum (prices_of s') a).
    { inversion Ha as [?|? ? c0 a0 Hc0 Ha0]; subst.
      - rewrite path_sum_one. fold (pr s' i). cbn [height map fold_right Nat.sub]. rewrite Qn_0. lra.
      - rewrite path_sum_cons. fold (pr s' i).
        destruct (chosen_node t (cats_of s) i ch HD HSub Hi) as [_ NC].
        rewrite (path_sum_same s s' S d a0 MV).
        2: { intros k Hk. apply (NC c0 k Hc0). eapply is_path_indices; eassumption. }
        assert (X := empty_low s I c0 (st_down _ _ _ _ HSub Hc0) (t_down _ I i ch c0 HSub Z Hc0) a0 Ha0).
        assert (Y := path_length _ _ Ha0). assert (W := height_child i ch c0 Hc0).
        assert (V : (length a0 <= height (Node i ch) - 1)%nat) by lia. apply (BQ_mono B _ _ HB0) in V. lra. }
    assert (H1 := height_child j chj _ Hc). assert (H2 := height_child j chj _ Hc'). assert (H3 := height_sub _ _ H).
    assert (P1 := height_pos (Node i ch)).
    assert (V : (height c + (height (Node i ch) - 1) + 3 <= 2 * height t)%nat) by lia.
    apply (BQ_mono B _ _ HB0) in V.
    assert (E2 : Qn (height c + (height (Node i ch) - 1) + 3) == Qn (height c) + Qn (height (Node i ch) - 1) + 3).
    { unfold Qn. rewrite !Nat2Z.inj_add, !inject_Z_plus. reflexivity. }
    assert (E3 : Qn (2 * height t) == 2 * Qn (height t)).
    { unfold Qn. rewrite Nat2Z.inj_mul, inject_Z_mult. reflexivity. }
    rewrite E2, E3 in V.
    (* M <= B (h c + h x - 1) *)
    assert (W : M + 3 * B <= 2 * B * Qn (height t)) by nra.
    assert (B == 0) by nra. nra.
  Qed.

  Lemma invT_step : forall s s', invT s -> tree_round M t s = Ok (false, s') ->
    invT s' /\ (agents_number (cats_of s') < agents_number (cats_of s))%nat.
  Proof.
    intros s s' I HR. assert (IA := t_A _ I). destruct (ia_good _ _ _ _ IA) as [S [G NS]].
    assert (IA' := invA_step _ _ _ _ _ _ _ SU HS IA HR).
    destruct (invB_step _ _ _ _ _ _ _ SU IA (t_B _ I) val_M HR) as [IB' MONO].
    destruct (round_inv _ _ _ _ _ _ _ _ SU G HR) as [[X _]|[d [MV [G' [[X _]|[_ [Hd HC]]]]]]]; try discriminate.
    assert (HDs : forall i, desc (cvalues (cat_at (cats_of s) i))).
    { intros i. eapply pfx_desc; [apply (ia_pfx _ _ _ _ IA)|]. apply sorted_cats_at. assumption. }
    assert (SDs : forall i, sdesc (cvalues (cat_at (cats_of s) i))).
    { intros i. assert (Y := ia_pfx _ _ _ _ IA i). unfold pfx in Y. rewrite Y. apply sdesc_firstn. apply HSD. }
    assert (IR := moved_ir _ _ _ _ _ _ MV HDs (ia_ir _ _ _ _ IA)).
    assert (PG := moderate_progress s s' S d I MV G' Hd NS IR).
    split; [|eapply progress_agents; eassumption].
    assert (BAL' := good_balanced _ _ _ _ _ SU HD G').
    (* a category that loses its last agent *)
    assert (LOST : forall i ch, subtree t (Node i ch) -> (0 < sz s i)%nat -> sz s' i = 0%nat ->
      In i (chosen t s) /\ (forall c, In c ch -> sz s (tindex c) = 0%nat) /\ - B <= pr s' i <= B).
    { intros i ch H Hp Hz. destruct (nonempty_val s i Hp) as [v Hv].
      assert (Bt : beaten (cat_at (cats_of s) i) (pr s' i) = true).
      { unfold sz in Hz, Hp. rewrite HC in Hz. destruct (beat_cases (cat_at (cats_of s) i) (pr s' i)) as [[_ E]|(Y & _)]; [|assumption].
        rewrite E in Hz. lia. }
      destruct (beat_cases (cat_at (cats_of s) i) (pr s' i)) as [[Y _]|(_ & Hn & Hl & E)]; [congruence|].
      assert (LI := last_In _ Hn).
      assert (Ci : In i (chosen t s)).
      { destruct (in_dec Nat.eq_dec i (chosen t s)) as [C|C]; [assumption|]. exfalso.
        assert (Y := mv_other _ _ _ _ _ _ MV i C). assert (W := t_strict _ I i _ LI). rewrite <- Y in W. lra. }
      split; [assumption|]. split.
      - assert (S1 : sz s i = 1%nat).
        { unfold sz in *. rewrite HC, E in Hz. unfold csize in *. simpl in Hz. rewrite removelast_firstn_len, firstn_length in Hz. lia. }
        destruct (chosen_node t (cats_of s) i ch HD H Ci) as [[CS|CS] _].
        + unfold sz in S1. assert (Z : children_size (cats_of s) ch = 0%nat) by lia. intros c Hc. apply (nsum_zero _ _ _ Z c Hc).
        + intros c Hc. apply (nsum_zero _ _ _ CS c Hc).
      - assert (W := IR i _ LI). destruct (cur_val s i _ I LI). lra. }
    assert (SZ : forall i, (sz s' i <= sz s i)%nat).
    { intros i. unfold sz. rewrite HC. apply beat_size'. }
    split; try assumption.
    - intros i v Hv. rewrite HC in Hv. destruct (beat_cases (cat_at (cats_of s) i) (pr s' i)) as [[Bt E]|(_ & Hn & Hl & E)]; rewrite E in Hv.
      + assert (W := last_le _ _ (HDs i) Hv). unfold beaten in Bt. destruct (cvalues (cat_at (cats_of s) i)) as [|a l]; [destruct Hv|].
        apply Qle_bool_false in Bt. lra.
      + simpl in Hv. assert (W := sdesc_last _ _ (SDs i) Hv). assert (Y := IR i _ (last_In _ Hn)). lra.
    - intros i ch c H Hz Hc. destruct (Nat.eq_dec (sz s i) 0) as [Z|Z].
      + assert (Y := t_down _ I i ch c H Z Hc). specialize (SZ (tindex c)). lia.
      + destruct (LOST i ch H ltac:(lia) Hz) as (_ & Y & _). specialize (Y c Hc). specialize (SZ (tindex c)). lia.
    - intros i Hi Hz. destruct (Nat.eq_dec (sz s i) 0) as [Z|Z].
      + assert (Y := t_low _ I i Hi Z). specialize (MONO i). lra.
      + destruct (node_subtree t i Hi) as [ch H]. destruct (LOST i ch H ltac:(lia) Hz) as (_ & _ & Y & _). assumption.
    - intros i ch H Hp Hz c p Hc Hpc. assert (Hp0 : (0 < sz s i)%nat) by (specialize (SZ i); lia).
      destruct (Nat.eq_dec (children_size (cats_of s) ch) 0) as [Z|Z].
      + rewrite (path_sum_same s s' S d p MV).
        * apply (t_K _ I i ch H Hp0) with (c := c); try assumption. intros c0 Hc0. apply (nsum_zero _ _ _ Z c0 Hc0).
        * intros j Hj X. destruct (chosen_below t (cats_of s) i ch c j HD H Hc (is_path_indices _ _ _ Hpc Hj) X) as [[_ Y] _]. contradiction.
      + apply nsum_nonzero in Z. destruct Z as [c' [Hc' Hp']]. destruct c' as [k chk]. simpl in Hp'. fold (sz s k) in Hp'.
        assert (Hk := st_down _ _ _ _ H Hc').
        destruct (LOST k chk Hk Hp' (Hz _ Hc')) as (Ck & Ek & _ & Pk).
        destruct (path_exists (Node k chk)) as [q Hq].
        rewrite (balanced_siblings _ _ _ _ _ p q (balanced_sub _ _ _ BAL' H) Hc Hc' Hpc Hq).
        assert (HC1 := height_child i ch _ Hc'). assert (V : (height (Node k chk) <= height (Node i ch) - 1)%nat) by lia.
        apply (BQ_mono B _ _ HB0) in V. eapply Qle_trans; [|exact V].
        inversion Hq as [?|? ? c0 a0 Hc0 Ha0]; subst.
        * rewrite path_sum_one. fold (pr s' k). cbn [height map fold_right]. rewrite Qn_1. lra.
        * rewrite path_sum_cons. fold (pr s' k).
          destruct (chosen_node t (cats_of s) k chk HD Hk Ck) as [_ NC].
          rewrite (path_sum_same s s' S d a0 MV).
          2: { intros j Hj. apply (NC c0 j Hc0). eapply is_path_indices; eassumption. }
          assert (Y := t_K _ I k chk Hk Hp' Ek c0 a0 Hc0 Ha0).
          assert (HP := height_pos (Node k chk)). assert (E : Qn (height (Node k chk)) == Qn (height (Node k chk) - 1) + 1).
          { rewrite <- Qn_S. replace (Datatypes.S (height (Node k chk) - 1)) with (height (Node k chk)) by lia. reflexivity. }
          rewrite E. lra.
  Qed.
End Moderate.

Theorem moderate_terminates : forall M B p0 fuel m st t rs, 0 < M -> new_tree (clone_market m) st = Ok t ->
  distinct_categories t -> tchildren t <> [] -> recipes (length m) t = Ok rs ->
  initial_prices_ok (length m) rs (- M) p0 ->
  values_within B m -> 2 * B * Qn (height t) <= M -> no_ties m ->
  (forall i, In i (node_indices t) -> (0 < csize (cat_at m i))%nat) -> (agents_number m < fuel)%nat ->
  exists r, tree_auction M p0 fuel m st = Ok r.
Proof.
  intros M B p0 fuel m st t rs HM Ht HD HN Hrs [HL [HF [S HS]]] HV HMB NT NE Hf.
  assert (HB0 : 0 <= B).
  { assert (X := NE (tindex t) (tindex_node t)). unfold csize in X. destruct (cvalues (cat_at m (tindex t))) as [|v l] eqn:E; [simpl in X; lia|].
    assert (Hv : In v (cvalues (cat_at m (tindex t)))) by (rewrite E; left; reflexivity).
    destruct (cat_at_In _ _ _ Hv) as [HI _]. destruct (HV _ _ HI Hv). lra. }
  apply (auction_ends M p0 fuel m st t rs Ht HD Hrs HL (ex_intro _ S HS)); [intros [X _]; contradiction|].
  intros sp Hsp. destruct (new_tree_setup _ _ _ Ht) as [rs' [E' SU]]. rewrite Hrs in E'. injection E'; intros <-. clear E'.
  assert (HV' : forall i v, In v (cvalues (cat_at (clone_market m) i)) -> - B <= v <= B).
  { intros i v Hv. rewrite clone_at, clone_In in Hv. destruct (cat_at_In _ _ _ Hv) as [HI _]. apply (HV _ _ HI Hv). }
  assert (HSD : forall i, sdesc (cvalues (cat_at (clone_market m) i))).
  { intros i. rewrite clone_at. unfold clone, new_category. simpl. apply desc_differ; [apply sort_desc_desc|].
    eapply differ_perm; [apply Permutation_sym, sort_desc_perm|]. apply differ_intro. intros l1 x l2 y l3 E.
    unfold cat_at in E. destruct (lt_dec i (length m)) as [L|L].
    - eapply NT; [apply nth_In; exact L|exact E].
    - rewrite nth_overflow in E by lia. simpl in E. destruct l1; discriminate. }
  assert (BM : B <= M) by (eapply B_le_M; eassumption).
  assert (BM2 : - M < - B).
  { assert (X := height_pos t). apply Qn_mono in X. rewrite Qn_1 in X. destruct (Qlt_le_dec 0 B) as [P|P]; nra. }
  assert (VA : values_above (- M) m).
  { intros c v Hc Hv. destruct (HV c v Hc Hv). lra. }
  assert (I0 := invA_start M _ _ _ _ _ m S HM SU Hsp eq_refl HL HF HS VA).
  destruct (start_good _ _ _ _ _ (clone_market m) SU Hsp) with (S := S) as [G EP]; [apply map_length|assumption|assumption|].
  assert (J0 := invB_start M (length m) p0 sp m HM HL HF EP).
  assert (NE' : forall i, In i (node_indices t) -> (0 < sz (clone_market m, sp) i)%nat).
  { intros i Hi. specialize (NE i Hi). enough (X : (0 < csize (cat_at (clone_market m) i))%nat) by exact X.
    rewrite clone_at. unfold csize, clone, new_category in *. simpl. rewrite sort_desc_length. assumption. }
  apply (loop_ends M t (invT M B (length m) t rs (clone_market m))).
  - intros s I. destruct (ia_good _ _ _ _ (t_A _ _ _ _ _ _ _ I)) as [S1 [G1 _]].
    destruct (round_total M _ _ _ _ _ SU HD G1) as [b [s' HR]]. exists b, s'. split; [assumption|]. intros ->.
    exact (invT_step M B (length m) t rs (clone_market m) SU HD (clone_sorted m) HSD HB0 HM HMB HV' s s' I HR).
  - split; [exact I0|exact J0| | | | ].
    + intros i v Hv. assert (Hv' : In v (cvalues (cat_at (clone_market m) i))) by exact Hv.
      destruct (HV' i v Hv') as [X _]. enough (X0 : nth i p0 0 < v) by (rewrite <- EP in X0; exact X0).
      destruct (lt_dec i (length p0)) as [L|L].
      * rewrite Forall_forall in HF. assert (Y := HF _ (nth_In p0 0 L)). lra.
      * destruct (cat_at_In _ _ _ Hv') as [_ L']. unfold clone_market in L'. rewrite map_length in L'. lia.
    + intros i ch c H Hz. assert (X := NE' i (subtree_nodes _ _ _ H (or_introl eq_refl))). lia.
    + intros i Hi Hz. assert (X := NE' i Hi). lia.
    + intros i ch H Hp Hz c p Hc. assert (X := NE' (tindex c) (subtree_nodes _ _ _ (st_down _ _ _ _ H Hc) (tindex_node c))).
      specialize (Hz c Hc). lia.
  - rewrite <- clone_agents in Hf. exact Hf.
Qed.
