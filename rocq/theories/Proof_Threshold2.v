(** * A winner cannot influence the outcome: the recipe-tree auction (C95) *)

From Coq Require Import String List Arith Lia QArith Lqa Permutation Sorted Bool.
From Verif Require Import Base Model_Agents Model_Trade Model_Prices Model_Market Model_RecipeTree Model_TreeAuction
  Spec_Market Spec_RecipeTree Spec_TreeAuction Spec_Ascending Proof_Strategy Proof_Tree Proof_Tree2 Proof_Tree3
  Proof_TA1 Proof_TA2 Proof_TA3 Proof_TA5 Spec_Threshold Proof_Threshold.
From Verif Require Proof_Ascending Proof_Ascending3 Proof_Report2.
Import ListNotations.
Open Scope Q_scope.


Lemma deals_explained_ext : forall cats cats' prices prices' t,
  (forall j, csize (cat_at cats j) = csize (cat_at cats' j)) -> length prices = length prices' ->
  forall x x', deals_explained cats prices t = Ok x -> deals_explained cats' prices' t = Ok x' -> x = x'.
Proof.
  intros cats cats' prices prices' t HS HL. induction t as [i ch IH] using rtree_ind'. intros x x' H H'.
  destruct (list_eq_nil_dec ch) as [->|N].
  - cbn [deals_explained] in H, H'. apply bind_Ok in H. destruct H as [_ [_ H]]. apply bind_Ok in H'. destruct H' as [_ [_ H']].
    injection H; intros <-. injection H'; intros <-. rewrite HS. reflexivity.
  - rewrite Proof_Report2.deals_explained_node in H, H' by assumption.
    apply bind_Ok in H. destruct H as [_ [_ H]]. apply bind_Ok in H'. destruct H' as [_ [_ H']].
    apply bind_Ok in H. destruct H as [rs [R H]]. apply bind_Ok in H'. destruct H' as [rs' [R' H']].
    assert (E : rs = rs').
    { clear H H' N. revert rs rs' R R'. induction IH as [|c ch Hc _ IHl]; intros rs rs' R R'; cbn [map_result] in R, R'.
      - congruence.
      - apply bind_Ok in R. destruct R as [a [Ra R]]. apply bind_Ok in R. destruct R as [l [Rl R]].
        apply bind_Ok in R'. destruct R' as [a' [Ra' R']]. apply bind_Ok in R'. destruct R' as [l' [Rl' R']].
        injection R; intros <-. injection R'; intros <-. f_equal; [eapply Hc; eassumption|eapply IHl; eassumption]. }
    subst rs'. rewrite <- HS in H'. destruct (min_list _); [|discriminate]. destruct (max_list _); [|discriminate]. congruence.
Qed.

Lemma tree_two_outcomes : forall M p0 m st i name pre post lo hi bl bh fl fh rl rh, 0 < M ->
  (i < length m)%nat ->
  possible_position (pre ++ post) lo bl -> possible_position (pre ++ post) hi bh ->
  lo <= hi -> (bh <= bl)%nat ->
  values_within M (set_nth i (mkCat name (pre ++ lo :: post)) m) ->
  values_within M (set_nth i (mkCat name (pre ++ hi :: post)) m) ->
  (forall rs, recipes (length m) (tt_tree rl) = Ok rs -> initial_prices_ok (length m) rs (- M) p0) ->
  tree_auction M p0 fl (set_nth i (mkCat name (pre ++ lo :: post)) m) st = Ok rl ->
  tree_auction M p0 fh (set_nth i (mkCat name (pre ++ hi :: post)) m) st = Ok rh ->
  (still_in (tt_cats rl) i bl /\ still_in (tt_cats rh) i bh
     /\ (tt_deals rl, tt_kmin rl, tt_kmax rl) = (tt_deals rh, tt_kmin rh, tt_kmax rh)
     /\ same_outcome i bl bh (tt_cats rl) (tt_cats rh) (tt_prices rl) (tt_prices rh))
  \/ (~ still_in (tt_cats rl) i bl /\ (still_in (tt_cats rh) i bh -> lo <= nth i (tt_prices rh) 0 <= hi)).
Proof.
  intros M p0 m st i name pre post lo hi bl bh fl fh rl rh HM Him Hpl Hph Hle Hb WL WH HP0 Hl Hh.
  set (ml := set_nth i (mkCat name (pre ++ lo :: post)) m) in *.
  set (mh := set_nth i (mkCat name (pre ++ hi :: post)) m) in *.
  assert (LL : length ml = length m) by apply set_nth_length. assert (LH : length mh = length m) by apply set_nth_length.
  destruct (auction_returned _ _ _ _ _ _ Hl) as (rs & sp1 & s1 & R1).
  destruct (auction_returned _ _ _ _ _ _ Hh) as (rs2 & sp2 & s2 & R2).
  assert (HT : tt_tree rh = tt_tree rl).
  { assert (A := rt_tree _ _ _ _ _ _ _ _ _ R1). assert (B := rt_tree _ _ _ _ _ _ _ _ _ R2).
    rewrite (new_tree_length _ (clone_market mh)) in A by (unfold clone_market; rewrite !map_length; congruence).
    congruence. }
  assert (HR1 := rt_recipes _ _ _ _ _ _ _ _ _ R1). assert (HR2 := rt_recipes _ _ _ _ _ _ _ _ _ R2).
  rewrite HT in HR2. rewrite LL in HR1. rewrite LH in HR2. assert (rs2 = rs) by congruence. subst rs2.
  assert (SU := rt_setup _ _ _ _ _ _ _ _ _ R1). rewrite LL in SU.
  specialize (HP0 _ HR1). set (t := tt_tree rl) in *.
  destruct (auction_final M p0 fl ml st rl rs HM Hl) as (sp1' & a1 & a1' & R1' & V1 & I1 & EP1 & IF1 & HF1);
    [rewrite LL; exact HR1|rewrite LL; exact HP0|apply within_above; assumption|].
  destruct (auction_final M p0 fh mh st rh rs HM Hh) as (sp2' & a2 & a2' & R2' & V2 & I2 & EP2 & IF2 & HF2);
    [rewrite LH, HT; exact HR2|rewrite LH; exact HP0|apply within_above; assumption|].
  clear R1 R2 sp1 sp2 s1 s2. rewrite LL in *. rewrite LH in *.
  assert (B2 : invB M (clone_market mh) (clone_market mh, sp2')).
  { destruct HP0 as [HL [HF _]]. exact (invB_start M (length m) p0 sp2' mh HM HL HF EP2). }
  destruct (two_reports pre post lo hi bl bh 0 Hpl Hph Hle Hb) as [T1 [T2 [T3 [T4 [T5 T6]]]]].
  assert (Vl : cvalues (cat_at (clone_market ml) i) = sort_desc (pre ++ lo :: post)).
  { rewrite cat_at_vals. unfold ml. rewrite Proof_Ascending3.clone_set_nth, Proof_Ascending3.vals_set_same by (unfold clone_market; rewrite map_length; assumption). reflexivity. }
  assert (Vh : cvalues (cat_at (clone_market mh) i) = sort_desc (pre ++ hi :: post)).
  { rewrite cat_at_vals. unfold mh. rewrite Proof_Ascending3.clone_set_nth, Proof_Ascending3.vals_set_same by (unfold clone_market; rewrite map_length; assumption). reflexivity. }
  assert (Vo : forall j, j <> i -> cvalues (cat_at (clone_market mh) j) = cvalues (cat_at (clone_market ml) j)).
  { intros j Hj. rewrite !cat_at_vals. unfold ml, mh. rewrite !Proof_Ascending3.clone_set_nth, !Proof_Ascending3.vals_set_other by auto. reflexivity. }
  assert (RES := without_reports pre post lo hi bl bh).
  rewrite <- Vl, <- Vh in *.
  assert (R0 : rel M (length m) rs (clone_market ml) (clone_market mh) i bl (clone_market ml, sp1') (clone_market mh, sp2')).
  { split.
    - exact I1.
    - exact I2.
    - exact B2.
    - intros j. unfold sz, csize, cats_of. cbn [fst].
      destruct (Nat.eq_dec j i) as [->|Hne]; [congruence|rewrite Vo by assumption; reflexivity].
    - intros j. unfold pr. rewrite EP1, EP2. reflexivity.
    - unfold sz, csize, cats_of. cbn [fst]. exact T2. }
  assert (O1 : forall j k, j <> i -> nth k (cvalues (cat_at (clone_market ml) j)) 0 == nth k (cvalues (cat_at (clone_market mh) j)) 0).
  { intros j k Hj. rewrite Vo by assumption. reflexivity. }
  assert (O2 : forall k, (bl < k)%nat -> nth k (cvalues (cat_at (clone_market ml) i)) 0 == nth k (cvalues (cat_at (clone_market mh) i)) 0).
  { intros k Hk. symmetry. apply T3. assumption. }
  assert (D := two_loops M (length m) t rs (clone_market ml) (clone_market mh) i bl lo SU (clone_sorted ml) (clone_sorted mh)
    (values_below_clone _ _ (within_below _ _ WH))
    O1 O2 T4 T6
    fl _ _ a1' R0 (rt_loop _ _ _ _ _ _ _ _ _ R1') fh a2').
  assert (L2 := rt_loop _ _ _ _ _ _ _ _ _ R2'). rewrite HT in L2. specialize (D L2).
  destruct (final_shape _ _ _ _ _ _ _ SU (clone_sorted ml) IF1 HF1) as (E1 & F1 & P1 & C1).
  rewrite HT in HF2, V2.
  destruct (final_shape _ _ _ _ _ _ _ SU (clone_sorted mh) IF2 HF2) as (E2 & F2 & P2 & C2).
  assert (IN : forall r s pos, tt_cats r = cats_of s -> length (cats_of s) = length m -> still_in (tt_cats r) i pos <-> (pos < sz s i)%nat).
  { intros r s pos -> HL. unfold still_in, sz, cat_at, csize. split.
    - intros (c & E & H). rewrite (nth_error_nth _ _ _ E). assumption.
    - intros H. exists (nth i (cats_of s) (mkCat "" [])). split; [apply nth_error_nth'; congruence|exact H]. }
  rewrite (IN rl a1' bl (rt_cats _ _ _ _ _ _ _ _ _ R1') ltac:(congruence)), (IN rh a2' bh (rt_cats _ _ _ _ _ _ _ _ _ R2') ltac:(congruence)).
  rewrite (rt_cats _ _ _ _ _ _ _ _ _ R1'), (rt_cats _ _ _ _ _ _ _ _ _ R2'), (rt_prices _ _ _ _ _ _ _ _ _ R1'), (rt_prices _ _ _ _ _ _ _ _ _ R2').
  destruct D as [(DS & DP & Hn)|(Hn & Hlo)].
  - left. split; [assumption|]. assert (DSi := DS i). split; [lia|].
    assert (PL : forall j, cvalues (cat_at (cats_of a1') j) = firstn (sz a1' j) (cvalues (cat_at (clone_market ml) j))).
    { intros j. assert (PX := ia_pfx _ _ _ _ IF1 j). rewrite <- E1 in PX. exact PX. }
    assert (PH : forall j, cvalues (cat_at (cats_of a2') j) = firstn (sz a2' j) (cvalues (cat_at (clone_market mh) j))).
    { intros j. assert (PX := ia_pfx _ _ _ _ IF2 j). rewrite <- E2 in PX. exact PX. }
    assert (NN : forall j, cname (cat_at (cats_of a1') j) = cname (cat_at (cats_of a2') j)).
    { intros j. rewrite E1, E2, (ia_name _ _ _ _ IF1 j), (ia_name _ _ _ _ IF2 j). unfold cat_at, ml, mh.
      rewrite !Proof_Ascending3.clone_set_nth. destruct (Nat.eq_dec j i) as [->|Nj].
      - rewrite !nth_set_nth_same by (unfold clone_market; rewrite map_length; assumption). reflexivity.
      - rewrite !nth_set_nth_other by auto. reflexivity. }
    assert (LC : length (cats_of a1') = length (cats_of a2')) by congruence.
    split.
    { assert (X1 := rt_explained _ _ _ _ _ _ _ _ _ R1'). assert (X2 := rt_explained _ _ _ _ _ _ _ _ _ R2').
      rewrite HT in X2. eapply deals_explained_ext; [| |exact X1|exact X2]; [exact DS|congruence]. }
    split; [|split; [assumption|split]].
    + assert (EL : length (prices_of a1') = length (prices_of a2')) by congruence.
      clear -EL DP. unfold pr in DP. revert EL DP. generalize (prices_of a1'), (prices_of a2').
      induction l as [|a l IH]; intros [|b l'] EL DP; simpl in EL; try lia; constructor.
      * apply (DP 0%nat).
      * apply IH; [lia|]. intros j. apply (DP (S j)).
    + intros j c c' Nj Hc Hc'. apply (nth_error_nth _ _ (mkCat "" [])) in Hc. apply (nth_error_nth _ _ (mkCat "" [])) in Hc'.
      change (cat_at (cats_of a1') j = c) in Hc. change (cat_at (cats_of a2') j = c') in Hc'. subst c c'. split; [apply NN|].
      rewrite PL, PH, DS, Vo by assumption. apply F2_refl.
    + exists (cat_at (cats_of a1') i), (cat_at (cats_of a2') i).
      split; [apply nth_error_nth'; congruence|]. split; [apply nth_error_nth'; congruence|]. split; [apply NN|].
      split; [exact (DS i)|]. rewrite PL, PH, DS. apply RES; [assumption|assumption|lia|lia].
  - right. split; [lia|]. intros Hin. split; [exact Hlo|].
    rewrite <- T5. assert (PX := ia_pfx _ _ _ _ IF2 i). rewrite <- E2 in PX. unfold sz in Hin.
    rewrite <- (pfx_nth _ _ bh PX Hin). apply F2. apply nth_In. exact Hin.
Qed.

Lemma same_tree : forall M p0 m st i c c' fuel fuel' r r',
  tree_auction M p0 fuel (set_nth i c m) st = Ok r -> tree_auction M p0 fuel' (set_nth i c' m) st = Ok r' -> tt_tree r' = tt_tree r.
Proof.
  intros M p0 m st i c c' fuel fuel' t t' Ht Ht'.
  destruct (auction_returned _ _ _ _ _ _ Ht) as (rs1 & sp1 & s1 & R1).
  destruct (auction_returned _ _ _ _ _ _ Ht') as (rs2 & sp2 & s2 & R2).
  assert (A := rt_tree _ _ _ _ _ _ _ _ _ R1). assert (B := rt_tree _ _ _ _ _ _ _ _ _ R2).
  match type of A with new_tree ?a _ = _ => match type of B with new_tree ?b _ = _ => rewrite (new_tree_length a b) in A by (unfold clone_market; rewrite !map_length, !set_nth_length; reflexivity) end end.
  congruence.
Qed.

Section Outcomes.
  Variables (M : Q) (p0 : list Q) (m : market) (st : pystruct) (i : nat) (name : string) (pre post : list Q)
    (v v' : Q) (pos pos' fuel fuel' : nat) (r r' : tree_trade) (rs : list (list nat)).
  Hypothesis HM : 0 < M.
  Hypothesis Hi : (i < length m)%nat.
  Hypothesis Hp : possible_position (pre ++ post) v pos.
  Hypothesis Hp' : possible_position (pre ++ post) v' pos'.
  Hypothesis W : values_within M (set_nth i (mkCat name (pre ++ v :: post)) m).
  Hypothesis W' : values_within M (set_nth i (mkCat name (pre ++ v' :: post)) m).
  Hypothesis Ht : tree_auction M p0 fuel (set_nth i (mkCat name (pre ++ v :: post)) m) st = Ok r.
  Hypothesis Ht' : tree_auction M p0 fuel' (set_nth i (mkCat name (pre ++ v' :: post)) m) st = Ok r'.
  Hypothesis Hrs : recipes (length m) (tt_tree r) = Ok rs.
  Hypothesis HP0 : initial_prices_ok (length m) rs (- M) p0.

  Let HP1 : forall rs, recipes (length m) (tt_tree r) = Ok rs -> initial_prices_ok (length m) rs (- M) p0.
  Proof. intros rs' H. rewrite Hrs in H. injection H; intros <-. assumption. Qed.

  Let HP2 : forall rs, recipes (length m) (tt_tree r') = Ok rs -> initial_prices_ok (length m) rs (- M) p0.
  Proof. rewrite (same_tree _ _ _ _ _ _ _ _ _ _ _ Ht Ht'). exact HP1. Qed.

  Lemma tree_up : v <= v' -> (pos' <= pos)%nat ->
    (still_in (tt_cats r) i pos /\ still_in (tt_cats r') i pos'
       /\ (tt_deals r, tt_kmin r, tt_kmax r) = (tt_deals r', tt_kmin r', tt_kmax r')
       /\ same_outcome i pos pos' (tt_cats r) (tt_cats r') (tt_prices r) (tt_prices r'))
    \/ (~ still_in (tt_cats r) i pos /\ (still_in (tt_cats r') i pos' -> v <= nth i (tt_prices r') 0 <= v')).
  Proof. intros H Hb. exact (tree_two_outcomes M p0 m st i name pre post v v' pos pos' _ _ r r' HM Hi Hp Hp' H Hb W W' HP1 Ht Ht'). Qed.

  Lemma tree_down : v' <= v -> (pos <= pos')%nat ->
    (still_in (tt_cats r') i pos' /\ still_in (tt_cats r) i pos
       /\ (tt_deals r', tt_kmin r', tt_kmax r') = (tt_deals r, tt_kmin r, tt_kmax r)
       /\ same_outcome i pos' pos (tt_cats r') (tt_cats r) (tt_prices r') (tt_prices r))
    \/ (~ still_in (tt_cats r') i pos' /\ (still_in (tt_cats r) i pos -> v' <= nth i (tt_prices r) 0 <= v)).
  Proof. intros H Hb. exact (tree_two_outcomes M p0 m st i name pre post v' v pos' pos _ _ r' r HM Hi Hp' Hp H Hb W' W HP2 Ht' Ht). Qed.

  Lemma tree_winner_same : still_in (tt_cats r) i pos -> still_in (tt_cats r') i pos' ->
    tt_deals r = tt_deals r' /\ same_outcome i pos pos' (tt_cats r) (tt_cats r') (tt_prices r) (tt_prices r').
  Proof.
    intros I I'.
    assert (A : v <= v' -> (pos' <= pos)%nat -> tt_deals r = tt_deals r' /\ same_outcome i pos pos' (tt_cats r) (tt_cats r') (tt_prices r) (tt_prices r')).
    { intros H Hb. destruct (tree_up H Hb) as [(_ & _ & E & D)|[D _]]; [|tauto]. split; [congruence|assumption]. }
    assert (B : v' <= v -> (pos <= pos')%nat -> tt_deals r = tt_deals r' /\ same_outcome i pos pos' (tt_cats r) (tt_cats r') (tt_prices r) (tt_prices r')).
    { intros H Hb. destruct (tree_down H Hb) as [(_ & _ & E & D)|[D _]]; [|tauto]. split; [congruence|apply same_outcome_sym; assumption]. }
    destruct (Qlt_le_dec v v') as [H|H].
    - apply A; [lra|]. eapply position_order; eassumption.
    - destruct (Qlt_le_dec v' v) as [H1|H1].
      + apply B; [lra|]. eapply position_order; eassumption.
      + destruct (le_lt_dec pos' pos); [apply A|apply B]; try lia; assumption.
  Qed.

  Lemma tree_monotone : v < v' -> still_in (tt_cats r) i pos -> still_in (tt_cats r') i pos'.
  Proof.
    intros H I. destruct (tree_up ltac:(lra) (position_order _ _ _ _ _ Hp Hp' H)) as [D|[D _]]; tauto.
  Qed.

  Lemma tree_threshold : ~ still_in (tt_cats r) i pos -> still_in (tt_cats r') i pos' -> v <= nth i (tt_prices r') 0 <= v'.
  Proof.
    intros O I.
    assert (A : v <= v' -> (pos' <= pos)%nat -> v <= nth i (tt_prices r') 0 <= v').
    { intros H Hb. destruct (tree_up H Hb) as [D|[_ D]]; tauto. }
    assert (B : v' <= v -> (pos <= pos')%nat -> False).
    { intros H Hb. destruct (tree_down H Hb) as [D|[D _]]; tauto. }
    destruct (Qlt_le_dec v v') as [H|H].
    - apply A; [lra|]. eapply position_order; eassumption.
    - destruct (Qlt_le_dec v' v) as [H1|H1].
      + exfalso. apply B; [lra|]. eapply position_order; eassumption.
      + destruct (le_lt_dec pos' pos); [apply A; assumption|exfalso; apply B; [lra|lia]].
  Qed.
End Outcomes.
