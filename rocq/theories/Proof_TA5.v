(** * Truthfulness of the tree auction (C39) *)

From Coq Require Import String List Arith Lia QArith Lqa Permutation Sorted Bool.
From Verif Require Import Base Model_Agents Model_Trade Model_Prices Model_Market Model_RecipeTree Model_TreeAuction
  Spec_Market Spec_RecipeTree Spec_TreeAuction Spec_Ascending Proof_Strategy Proof_Tree Proof_Tree2 Proof_Tree3
  Proof_TA1 Proof_TA2 Proof_TA3.
From Verif Require Proof_Ascending Proof_Ascending3.
Import ListNotations.
Open Scope Q_scope.

Lemma largest_ext : forall cats cats' t, (forall i, csize (cat_at cats i) = csize (cat_at cats' i)) ->
  largest_categories cats t = largest_categories cats' t.
Proof.
  intros cats cats' t H. induction t as [i ch IH] using rtree_ind'. cbn [largest_categories].
  assert (E : map (fun c => csize (cat_at cats (tindex c))) ch = map (fun c => csize (cat_at cats' (tindex c))) ch)
    by (apply map_ext; intros; apply H).
  rewrite E, H. assert (E2 : map (largest_categories cats) ch = map (largest_categories cats') ch).
  { apply map_ext_in. intros c Hc. rewrite Forall_forall in IH. auto. }
  rewrite E2. reflexivity.
Qed.

Lemma last_nth : forall (l : list Q), l <> [] -> last l 0 = nth (length l - 1) l 0.
Proof.
  intros l H. destruct (exists_last H) as [l1 [x ->]]. rewrite last_last, app_length. simpl.
  rewrite app_nth2 by lia. replace (length l1 + 1 - 1 - length l1)%nat with 0%nat by lia. reflexivity.
Qed.

Lemma pfx_nth : forall l L k, pfx l L -> (k < length l)%nat -> nth k l 0 = nth k L 0.
Proof.
  intros l L k H Hk. unfold pfx in H. rewrite H.
  transitivity (nth k (firstn (length l) L ++ skipn (length l) L) 0); [|rewrite firstn_skipn; reflexivity].
  rewrite app_nth1; [reflexivity|]. rewrite <- H. assumption.
Qed.

Lemma pfx_last : forall c L, pfx (cvalues c) L -> (0 < csize c)%nat -> last (cvalues c) 0 = nth (csize c - 1) L 0.
Proof.
  intros c L H Hs. unfold csize in *. rewrite last_nth by (intros E; rewrite E in Hs; simpl in Hs; lia).
  apply pfx_nth; [assumption|lia].
Qed.

Section TwoRuns.
  Variables (M : Q) (n : nat) (t : rtree) (rs : list (list nat)) (mL mH : market) (i bl : nat) (lo : Q).
  Hypothesis SU : setup n t rs.
  Hypothesis SL : sorted_cats mL.
  Hypothesis SH : sorted_cats mH.
  Hypothesis VH : values_below M mH.
  Let VL j := cvalues (cat_at mL j).
  Let VHh j := cvalues (cat_at mH j).
  Hypothesis other : forall j k, j <> i -> nth k (VL j) 0 == nth k (VHh j) 0.
  Hypothesis above : forall k, (bl < k)%nat -> nth k (VL i) 0 == nth k (VHh i) 0.
  Hypothesis at_bl : nth bl (VL i) 0 == lo.
  Hypothesis at_bl' : lo <= nth bl (VHh i) 0.

  Record rel (sL sH : tree_state) : Prop := mkRel {
    r_L : invA n rs mL sL;
    r_H : invA n rs mH sH;
    r_B : invB M mH sH;
    r_sz : forall j, sz sL j = sz sH j;
    r_pr : forall j, pr sL j == pr sH j;
    r_in : (bl < sz sL i)%nat
  }.

  Lemma tgt_eq : forall sL sH j, rel sL sH -> (j <> i \/ (S bl < sz sL i)%nat) ->
    tgt M (cat_at (cats_of sL) j) == tgt M (cat_at (cats_of sH) j).
  Proof.
    intros sL sH j R H. assert (E := r_sz _ _ R j). unfold sz in E.
    destruct (Nat.eq_dec (csize (cat_at (cats_of sL) j)) 0) as [Z|Z].
    - assert (Z' : csize (cat_at (cats_of sH) j) = 0%nat) by congruence. unfold csize in Z, Z'. unfold tgt.
      destruct (cvalues (cat_at (cats_of sL) j)); [|discriminate]. destruct (cvalues (cat_at (cats_of sH) j)); [|discriminate]. reflexivity.
    - assert (T : forall c, (0 < csize c)%nat -> tgt M c = last (cvalues c) 0).
      { intros c Hc. unfold tgt, csize in *. destruct (cvalues c); [simpl in Hc; lia|reflexivity]. }
      rewrite !T by lia. rewrite (pfx_last _ _ (ia_pfx _ _ _ _ (r_L _ _ R) j)) by lia.
      rewrite (pfx_last _ _ (ia_pfx _ _ _ _ (r_H _ _ R) j)) by lia. rewrite <- E.
      destruct (Nat.eq_dec j i) as [->|Nj]; [|apply other; assumption]. apply above. destruct H as [H|H]; [contradiction|].
      unfold sz in H. lia.
  Qed.

  Lemma tgt_i : forall sL sH, rel sL sH -> sz sL i = S bl ->
    tgt M (cat_at (cats_of sL) i) == lo /\ lo <= tgt M (cat_at (cats_of sH) i)
    /\ last (cvalues (cat_at (cats_of sL) i)) 0 == lo /\ lo <= last (cvalues (cat_at (cats_of sH) i)) 0.
  Proof.
    intros sL sH R H. assert (E := r_sz _ _ R i). unfold sz in *.
    assert (T : forall c, (0 < csize c)%nat -> tgt M c = last (cvalues c) 0).
    { intros c Hc. unfold tgt, csize in *. destruct (cvalues c); [simpl in Hc; lia|reflexivity]. }
    rewrite !T by lia. rewrite (pfx_last _ _ (ia_pfx _ _ _ _ (r_L _ _ R) i)) by lia.
    rewrite (pfx_last _ _ (ia_pfx _ _ _ _ (r_H _ _ R) i)) by lia. rewrite <- E, H. simpl. rewrite Nat.sub_0_r. auto.
  Qed.

  Lemma tgt_le_LH : forall sL sH j, rel sL sH -> tgt M (cat_at (cats_of sL) j) <= tgt M (cat_at (cats_of sH) j).
  Proof.
    intros sL sH j R. destruct (Nat.eq_dec j i) as [->|Nj].
    - destruct (Nat.eq_dec (sz sL i) (S bl)) as [E|E].
      + destruct (tgt_i _ _ R E) as (A & B & _). lra.
      + rewrite (tgt_eq _ _ i R); [lra|]. right. assert (X := r_in _ _ R). lia.
    - rewrite (tgt_eq _ _ j R); [lra|auto].
  Qed.

  Lemma chosen_eq : forall sL sH, rel sL sH -> chosen t sL = chosen t sH.
  Proof. intros sL sH R. unfold chosen. rewrite (largest_ext _ (cats_of sH)); [reflexivity|]. apply (r_sz _ _ R). Qed.

  Lemma beat_size : forall c p, csize (beat c p) = if beaten c p then (csize c - 1)%nat else csize c.
  Proof.
    intros c p. unfold beat. destruct (beaten c p); [|reflexivity]. unfold csize. simpl.
    rewrite removelast_firstn_len, firstn_length. lia.
  Qed.

  Lemma beaten_iff : forall c p, (0 < csize c)%nat -> beaten c p = true <-> last (cvalues c) 0 <= p.
  Proof.
    intros c p H. unfold beaten, csize in *. destruct (cvalues c); [simpl in H; lia|]. apply Qle_bool_iff.
  Qed.

  Lemma beaten_empty : forall c p, csize c = 0%nat -> beaten c p = false.
  Proof. intros c p H. unfold beaten, csize in *. destruct (cvalues c); [reflexivity|discriminate]. Qed.

  Lemma beaten_eq : forall sL sH j p p', rel sL sH -> (j <> i \/ (S bl < sz sL i)%nat) -> p == p' ->
    beaten (cat_at (cats_of sL) j) p = beaten (cat_at (cats_of sH) j) p'.
  Proof.
    intros sL sH j p p' R H Hp. assert (E := r_sz _ _ R j). unfold sz in E.
    destruct (Nat.eq_dec (csize (cat_at (cats_of sL) j)) 0) as [Z|Z].
    - rewrite !beaten_empty by congruence. reflexivity.
    - assert (T := tgt_eq _ _ _ R H). unfold tgt in T. unfold beaten, csize in *.
      destruct (cvalues (cat_at (cats_of sL) j)) as [|a l]; [simpl in Z; lia|].
      destruct (cvalues (cat_at (cats_of sH) j)) as [|a' l']; [simpl in E; lia|].
      apply eq_true_iff_eq. rewrite !Qle_bool_iff. rewrite T, Hp. tauto.
  Qed.

  (** One round of both runs. *)
  Lemma rel_step : forall sL sH b1 sL' b2 sH', rel sL sH ->
    tree_round M t sL = Ok (b1, sL') -> tree_round M t sH = Ok (b2, sH') ->
    (b1 = true /\ b2 = true /\ (forall j, sz sL' j = sz sH' j) /\ (forall j, pr sL' j == pr sH' j) /\ (bl < sz sL' i)%nat)
    \/ (b1 = false /\ b2 = false /\ rel sL' sH')
    \/ (b1 = false /\ (sz sL' i <= bl)%nat /\ lo <= pr sH' i).
  Proof.
    intros sL sH b1 sL' b2 sH' R HL HH.
    destruct (ia_good _ _ _ _ (r_L _ _ R)) as [S1 [G1 N1]]. destruct (ia_good _ _ _ _ (r_H _ _ R)) as [S2 [G2 N2]].
    assert (ES : S1 == S2).
    { destruct rs as [|r0 rs'] eqn:Ers; [exfalso; eapply setup_nonempty; [exact SU|reflexivity]|].
      rewrite <- (g_sums _ _ _ _ G1 r0 (or_introl eq_refl)), <- (g_sums _ _ _ _ G2 r0 (or_introl eq_refl)).
      assert (L : length (prices_of sL) = length (prices_of sH)) by (rewrite (g_prices _ _ _ _ G1), (g_prices _ _ _ _ G2); reflexivity).
      assert (PR := r_pr _ _ R). unfold pr in PR. clear -L PR. revert r0 L PR. generalize (prices_of sL), (prices_of sH).
      induction l as [|a l IH]; intros [|b l'] r0 L PR; simpl in L; try lia; [reflexivity|].
      destruct r0 as [|x r0]; [reflexivity|]. cbn [dot].
      rewrite (IH l' r0); [|lia|intros j; apply (PR (S j))]. assert (X := PR 0%nat). simpl in X. rewrite X. reflexivity. }
    assert (RI := r_in _ _ R). assert (RS := r_sz _ _ R). assert (RP := r_pr _ _ R).
    assert (CE := chosen_eq _ _ R).
    destruct (round_inv _ _ _ _ _ _ _ _ SU G1 HL) as [(E1 & E2 & Z)|[d1 [MV1 [G1' C1]]]].
    { subst b1 sL'. left. destruct (round_inv _ _ _ _ _ _ _ _ SU G2 HH) as [(E3 & E4 & _)|[d2 [MV2 _]]].
      - subst b2 sH'. auto.
      - exfalso. assert (X := mv_root _ _ _ _ _ _ MV2). rewrite <- RS in X. lia. }
    destruct (round_inv _ _ _ _ _ _ _ _ SU G2 HH) as [(E3 & E4 & Z)|[d2 [MV2 [G2' C2]]]].
    { exfalso. assert (X := mv_root _ _ _ _ _ _ MV1). rewrite RS in X. lia. }
    assert (D12 : d1 <= d2).
    { destruct (mv_min _ _ _ _ _ _ MV2) as [E|[j [Hj E]]].
      - rewrite E, <- ES. apply (mv_bound _ _ _ _ _ _ MV1).
      - rewrite E. rewrite <- CE in Hj. assert (X := mv_target _ _ _ _ _ _ MV1 j Hj). assert (Y := tgt_le_LH _ _ j R).
        assert (Z := RP j). lra. }
    assert (B2 : d2 <= - S1) by (rewrite ES; apply (mv_bound _ _ _ _ _ _ MV2)).
    (* prices after the round *)
    assert (PRQ : d1 == d2 -> forall j, pr sL' j == pr sH' j).
    { intros DE j. destruct (in_dec Nat.eq_dec j (chosen t sL)) as [C|C].
      - rewrite (mv_chosen _ _ _ _ _ _ MV1 j C). rewrite CE in C. rewrite (mv_chosen _ _ _ _ _ _ MV2 j C). rewrite (RP j). lra.
      - rewrite (mv_other _ _ _ _ _ _ MV1 j C). rewrite CE in C. rewrite (mv_other _ _ _ _ _ _ MV2 j C). apply RP. }
    destruct C1 as [(E1 & ED1 & EC1)|(E1 & LD1 & EC1)].
    { (* the low run stops *)
      left. subst b1. assert (DE : d1 == d2) by lra.
      destruct C2 as [(E2 & ED2 & EC2)|(E2 & LD2 & EC2)]; [|exfalso; lra].
      split; [reflexivity|]. split; [assumption|]. unfold sz. rewrite EC1, EC2.
      split; [exact RS|]. split; [apply PRQ; assumption|exact RI]. }
    right. subst b1.
    assert (CRIT : d1 == d2 \/ (In i (chosen t sL) /\ sz sL i = S bl /\ d1 == lo - pr sL i)).
    { destruct (mv_min _ _ _ _ _ _ MV1) as [E|[j [Hj E]]]; [left; lra|].
      destruct (Nat.eq_dec j i) as [->|Nj].
      - destruct (Nat.eq_dec (sz sL i) (S bl)) as [Es|Es].
        + right. split; [assumption|]. split; [assumption|]. destruct (tgt_i _ _ R Es) as (A & _). rewrite E, A. reflexivity.
        + left. assert (Hj' := Hj). rewrite CE in Hj'. assert (X := mv_target _ _ _ _ _ _ MV2 i Hj'). assert (Hs : (S bl < sz sL i)%nat) by lia. assert (Y := tgt_eq _ _ i R (or_intror Hs)).
          assert (Z := RP i). lra.
      - left. rewrite CE in Hj. assert (X := mv_target _ _ _ _ _ _ MV2 j Hj). assert (Y := tgt_eq _ _ j R (or_introl Nj)).
        assert (Z := RP j). lra. }
    assert (SZ1 : sz sL' i = if beaten (cat_at (cats_of sL) i) (pr sL' i) then (sz sL i - 1)%nat else sz sL i).
    { unfold sz at 1. rewrite EC1, beat_size. reflexivity. }
    destruct CRIT as [DE|(Ci & Es & Ed)].
    - assert (PQ := PRQ DE). destruct C2 as [(E2 & ED2 & EC2)|(E2 & LD2 & EC2)]; [exfalso; lra|]. subst b2.
      assert (IA1 := invA_step _ _ _ _ _ _ _ SU SL (r_L _ _ R) HL).
      assert (IA2 := invA_step _ _ _ _ _ _ _ SU SH (r_H _ _ R) HH).
      destruct (invB_step _ _ _ _ _ _ _ SU (r_H _ _ R) (r_B _ _ R) VH HH) as [IB2 _].
      destruct (Nat.eq_dec (sz sL i) (S bl)) as [Es|Es].
      + destruct (tgt_i _ _ R Es) as (_ & _ & TL & TH). unfold sz in Es, RI. assert (Es' := RS i). unfold sz in Es'.
        destruct (beaten (cat_at (cats_of sL) i) (pr sL' i)) eqn:Bt.
        * right. split; [reflexivity|]. split; [rewrite SZ1; unfold sz; lia|].
          apply beaten_iff in Bt; [|lia]. rewrite <- (PQ i). lra.
        * left. split; [reflexivity|]. split; [reflexivity|].
          assert (Bt2 : beaten (cat_at (cats_of sH) i) (pr sH' i) = false).
          { apply not_true_iff_false. intros X. apply beaten_iff in X; [|lia]. apply not_true_iff_false in Bt. apply Bt.
            apply beaten_iff; [lia|]. rewrite (PQ i). lra. }
          split; try assumption.
          -- intros j. unfold sz. rewrite EC1, EC2, !beat_size. destruct (Nat.eq_dec j i) as [->|Nj].
             ++ rewrite Bt, Bt2. apply RS.
             ++ rewrite (beaten_eq _ _ j _ _ R (or_introl Nj) (PQ j)). assert (X := RS j). unfold sz in X. rewrite X. reflexivity.
          -- rewrite SZ1. unfold sz. lia.
      + left. split; [reflexivity|]. split; [reflexivity|]. split; try assumption.
        * intros j. unfold sz. rewrite EC1, EC2, !beat_size.
          assert (Hs : (S bl < sz sL i)%nat) by lia. rewrite (beaten_eq _ _ j _ _ R (or_intror Hs) (PQ j)). assert (X := RS j). unfold sz in X. rewrite X. reflexivity.
        * rewrite SZ1. destruct (beaten _ _); lia.
    - right. split; [reflexivity|].
      assert (P1 : pr sL' i == lo) by (rewrite (mv_chosen _ _ _ _ _ _ MV1 i Ci); lra).
      destruct (tgt_i _ _ R Es) as (_ & _ & TL & _). split.
      + rewrite SZ1. unfold sz in Es. assert (Bt : beaten (cat_at (cats_of sL) i) (pr sL' i) = true) by (apply beaten_iff; [lia|lra]).
        rewrite Bt. unfold sz. lia.
      + rewrite CE in Ci. rewrite (mv_chosen _ _ _ _ _ _ MV2 i Ci). rewrite <- (RP i). lra.
  Qed.

  Lemma size_down : forall m s0 s, sorted_cats m -> invA n rs m s0 -> tree_visited M t s0 s -> forall j, (sz s j <= sz s0 j)%nat.
  Proof.
    intros m s0 s HS H0 V j. assert (K : invA n rs m s /\ (sz s j <= sz s0 j)%nat); [|apply K].
    induction V as [|s s' V [IA IH] HR]; [split; [assumption|lia]|].
    split; [eapply invA_step; eassumption|].
    destruct (ia_good _ _ _ _ IA) as [S1 [G1 _]].
    destruct (round_inv _ _ _ _ _ _ _ _ SU G1 HR) as [[X _]|[d [MV [G' [[X _]|[_ [Hd HC]]]]]]]; try discriminate.
    unfold sz in *. rewrite HC, beat_size. destruct (beaten _ _); lia.
  Qed.

  Lemma two_loops : forall fuel1 sL sH fL, rel sL sH -> tree_loop M fuel1 t sL = Ok fL ->
    forall fuel2 fH, tree_loop M fuel2 t sH = Ok fH ->
    ((forall j, sz fL j = sz fH j) /\ (forall j, pr fL j == pr fH j) /\ (bl < sz fL i)%nat)
    \/ ((sz fL i <= bl)%nat /\ lo <= pr fH i).
  Proof.
    induction fuel1 as [|fuel1 IH]; intros sL sH fL R HL fuel2 fH HH; [discriminate|].
    destruct fuel2 as [|fuel2]; [discriminate|]. cbn [tree_loop] in HL, HH.
    apply bind_Ok in HL. destruct HL as [[b1 sL'] [RL HL]]. apply bind_Ok in HH. destruct HH as [[b2 sH'] [RH HH]].
    cbn [fst snd] in HL, HH.
    destruct (rel_step _ _ _ _ _ _ R RL RH) as [(-> & -> & A & B & C)|[(-> & -> & R')|(-> & A & B)]].
    - injection HL; intros <-. injection HH; intros <-. left. auto.
    - eapply IH; eassumption.
    - right. split.
      + assert (IA1 := invA_step _ _ _ _ _ _ _ SU SL (r_L _ _ R) RL).
        destruct (loop_visited _ _ _ _ _ _ (tv_start _ _ _) HL) as [s1 [V HR]].
        assert (X := size_down _ _ _ SL IA1 V i).
        destruct (final_shape _ _ _ _ _ _ _ SU SL (invA_visited _ _ _ _ _ _ _ SU SL IA1 V) HR) as (E & _).
        unfold sz in *. rewrite E. lia.
      + destruct b2.
        * injection HH; intros <-. assumption.
        * assert (IA2 := invA_step _ _ _ _ _ _ _ SU SH (r_H _ _ R) RH).
          destruct (invB_step _ _ _ _ _ _ _ SU (r_H _ _ R) (r_B _ _ R) VH RH) as [IB2 _].
          destruct (loop_visited _ _ _ _ _ _ (tv_start _ _ _) HH) as [s1 [V HR]].
          destruct (invAB_visited _ _ _ _ _ _ _ SU SH VH IA2 IB2 V) as (A1 & B1 & C1).
          destruct (final_mono _ _ _ _ _ _ _ SU A1 B1 HR) as (_ & K & _). specialize (C1 i). specialize (K i). lra.
  Qed.
End TwoRuns.

Lemma new_tree_length : forall c1 c2 st, length c1 = length c2 -> new_tree c1 st = new_tree c2 st.
Proof. intros c1 c2 st H. unfold new_tree. rewrite H. reflexivity. Qed.

Lemma cat_at_vals : forall m i, cvalues (cat_at m i) = Proof_Ascending.vals m i.
Proof. reflexivity. Qed.

Lemma within_above : forall M m, values_within M m -> values_above (- M) m.
Proof. intros M m H c v Hc Hv. apply (H c v Hc Hv). Qed.

Lemma within_below : forall M m, values_within M m -> values_below M m.
Proof. intros M m H c v Hc Hv. apply (H c v Hc Hv). Qed.

Lemma tree_utility_final : forall M p0 fuel m st r rs sp s' sel i pos v,
  returned M p0 fuel m st r rs sp s' -> length (cats_of s') = length m -> (i < length m)%nat ->
  tree_utility sel r i pos v =
    if (pos <? sz s' i)%nat then sel i (map csize (cats_of s')) * (v - pr s' i) else 0.
Proof.
  intros M p0 fuel m st r rs sp s' sel i pos v R HL Hi. unfold tree_utility.
  rewrite (rt_cats _ _ _ _ _ _ _ _ _ R), (rt_prices _ _ _ _ _ _ _ _ _ R).
  destruct (nth_error (cats_of s') i) as [c|] eqn:E.
  - apply (nth_error_nth _ _ (mkCat "" [])) in E. unfold sz, cat_at. rewrite E. reflexivity.
  - apply nth_error_None in E. lia.
Qed.

Lemma tree_two_runs : forall M p0 m st i name pre post lo hi bl bh fl fh rl rh sel, 0 < M ->
  (i < length m)%nat ->
  possible_position (pre ++ post) lo bl -> possible_position (pre ++ post) hi bh ->
  lo <= hi -> (bh <= bl)%nat ->
  values_within M (set_nth i (mkCat name (pre ++ lo :: post)) m) ->
  values_within M (set_nth i (mkCat name (pre ++ hi :: post)) m) ->
  (forall rs, recipes (length m) (tt_tree rl) = Ok rs -> initial_prices_ok (length m) rs (- M) p0) ->
  (forall j sizes, 0 <= sel j sizes) ->
  tree_auction M p0 fl (set_nth i (mkCat name (pre ++ lo :: post)) m) st = Ok rl ->
  tree_auction M p0 fh (set_nth i (mkCat name (pre ++ hi :: post)) m) st = Ok rh ->
  (forall v, tree_utility sel rh i bh v == tree_utility sel rl i bl v)
  \/ (forall v, tree_utility sel rl i bl v == 0
        /\ (v <= lo -> tree_utility sel rh i bh v <= 0) /\ (hi <= v -> 0 <= tree_utility sel rh i bh v)).
Proof.
  intros M p0 m st i name pre post lo hi bl bh fl fh rl rh sel HM Him Hpl Hph Hle Hb WL WH HP0 Hsel Hl Hh.
  set (ml := set_nth i (mkCat name (pre ++ lo :: post)) m) in *.
  set (mh := set_nth i (mkCat name (pre ++ hi :: post)) m) in *.
  assert (LL : length ml = length m) by apply set_nth_length. assert (LH : length mh = length m) by apply set_nth_length.
  destruct (auction_returned _ _ _ _ _ _ Hl) as (rs & sp1 & s1 & R1).
  destruct (auction_returned _ _ _ _ _ _ Hh) as (rs2 & sp2 & s2 & R2).
  assert (HT : tt_tree rh = tt_tree rl).
  { assert (A := rt_tree _ _ _ _ _ _ _ _ _ R1). assert (B := rt_tree _ _ _ _ _ _ _ _ _ R2).
    rewrite (new_tree_length _ (clone_market mh)) in A by (unfold clone_market; rewrite !map_length; congruence).
    congruence. }
  assert (HR1 := rt_recipes _ _ _ _ _ _ _ _ _ R1). assert (HR2 := rt_recipes _ _ _ _ _ _ _ _ _ R2).
  rewrite HT in HR2. rewrite LL in HR1. rewrite LH in HR2. assert (rs2 = rs) by congruence. subst rs2.
  assert (SU := rt_setup _ _ _ _ _ _ _ _ _ R1). rewrite LL in SU.
  specialize (HP0 _ HR1). set (t := tt_tree rl) in *.
  destruct (auction_final M p0 fl ml st rl rs HM Hl) as (sp1' & a1 & a1' & R1' & V1 & I1 & EP1 & IF1 & HF1);
    [rewrite LL; exact HR1|rewrite LL; exact HP0|apply within_above; assumption|].
  destruct (auction_final M p0 fh mh st rh rs HM Hh) as (sp2' & a2 & a2' & R2' & V2 & I2 & EP2 & IF2 & HF2);
    [rewrite LH, HT; exact HR2|rewrite LH; exact HP0|apply within_above; assumption|].
  clear R1 R2 sp1 sp2 s1 s2. rewrite LL in *. rewrite LH in *.
  assert (B2 : invB M (clone_market mh) (clone_market mh, sp2')).
  { destruct HP0 as [HL [HF _]]. exact (invB_start M (length m) p0 sp2' mh HM HL HF EP2). }
  destruct (two_reports pre post lo hi bl bh 0 Hpl Hph Hle Hb) as [T1 [T2 [T3 [T4 [T5 T6]]]]].
  assert (Vl : cvalues (cat_at (clone_market ml) i) = sort_desc (pre ++ lo :: post)).
  { rewrite cat_at_vals. unfold ml. rewrite Proof_Ascending3.clone_set_nth, Proof_Ascending3.vals_set_same by (unfold clone_market; rewrite map_length; assumption). reflexivity. }
  assert (Vh : cvalues (cat_at (clone_market mh) i) = sort_desc (pre ++ hi :: post)).
  { rewrite cat_at_vals. unfold mh. rewrite Proof_Ascending3.clone_set_nth, Proof_Ascending3.vals_set_same by (unfold clone_market; rewrite map_length; assumption). reflexivity. }
  assert (Vo : forall j, j <> i -> cvalues (cat_at (clone_market mh) j) = cvalues (cat_at (clone_market ml) j)).
  { intros j Hj. rewrite !cat_at_vals. unfold ml, mh. rewrite !Proof_Ascending3.clone_set_nth, !Proof_Ascending3.vals_set_other by auto. reflexivity. }
  rewrite <- Vl, <- Vh in *.
  assert (R0 : rel M (length m) rs (clone_market ml) (clone_market mh) i bl (clone_market ml, sp1') (clone_market mh, sp2')).
  { split.
    - exact I1.
    - exact I2.
    - exact B2.
    - intros j. unfold sz, csize, cats_of. cbn [fst].
      destruct (Nat.eq_dec j i) as [->|Hne]; [congruence|rewrite Vo by assumption; reflexivity].
    - intros j. unfold pr. rewrite EP1, EP2. reflexivity.
    - unfold sz, csize, cats_of. cbn [fst]. exact T2. }
  assert (O1 : forall j k, j <> i -> nth k (cvalues (cat_at (clone_market ml) j)) 0 == nth k (cvalues (cat_at (clone_market mh) j)) 0).
  { intros j k Hj. rewrite Vo by assumption. reflexivity. }
  assert (O2 : forall k, (bl < k)%nat -> nth k (cvalues (cat_at (clone_market ml) i)) 0 == nth k (cvalues (cat_at (clone_market mh) i)) 0).
  { intros k Hk. symmetry. apply T3. assumption. }
  assert (D := two_loops M (length m) t rs (clone_market ml) (clone_market mh) i bl lo SU (clone_sorted ml) (clone_sorted mh)
    (values_below_clone _ _ (within_below _ _ WH))
    O1 O2 T4 T6
    fl _ _ a1' R0 (rt_loop _ _ _ _ _ _ _ _ _ R1') fh a2').
  assert (L2 := rt_loop _ _ _ _ _ _ _ _ _ R2'). rewrite HT in L2. specialize (D L2).
  destruct (final_shape _ _ _ _ _ _ _ SU (clone_sorted ml) IF1 HF1) as (E1 & F1 & P1 & C1).
  rewrite HT in HF2, V2.
  destruct (final_shape _ _ _ _ _ _ _ SU (clone_sorted mh) IF2 HF2) as (E2 & F2 & P2 & C2).
  assert (UL : forall v, tree_utility sel rl i bl v = if (bl <? sz a1' i)%nat then sel i (map csize (cats_of a1')) * (v - pr a1' i) else 0).
  { intros v. apply (tree_utility_final _ _ _ _ _ _ _ _ _ _ _ _ _ R1'); congruence. }
  assert (UH : forall v, tree_utility sel rh i bh v = if (bh <? sz a2' i)%nat then sel i (map csize (cats_of a2')) * (v - pr a2' i) else 0).
  { intros v. apply (tree_utility_final _ _ _ _ _ _ _ _ _ _ _ _ _ R2'); congruence. }
  destruct D as [(DS & DP & Hn)|(Hn & Hlo)].
  - left. intros v. rewrite UL, UH. rewrite <- DS.
    destruct (Nat.ltb_spec bh (sz a1' i)); [|lia]. destruct (Nat.ltb_spec bl (sz a1' i)); [|lia].
    assert (ES : map csize (cats_of a1') = map csize (cats_of a2')).
    { apply nth_ext with (d := csize (mkCat "" [])) (d' := csize (mkCat "" [])); rewrite !map_length; [congruence|].
      intros k Hk. rewrite !map_nth. apply DS. }
    rewrite ES, (DP i). reflexivity.
  - right. intros v. rewrite UL, UH. destruct (Nat.ltb_spec bl (sz a1' i)); [lia|]. split; [reflexivity|].
    destruct (Nat.ltb_spec bh (sz a2' i)) as [Hin|Hin]; [|split; lra].
    assert (X := Hsel i (map csize (cats_of a2'))). set (q := sel i (map csize (cats_of a2'))) in *. clearbody q.
    assert (Hhi : pr a2' i <= hi).
    { rewrite <- T5. assert (PX := ia_pfx _ _ _ _ IF2 i). rewrite <- E2 in PX. unfold sz in Hin.
      rewrite <- (pfx_nth _ _ bh PX Hin). apply F2. apply nth_In. exact Hin. }
    split; intros Hv; nra.
Qed.

Theorem tree_truthful : forall M p0 m st i name pre post v v' pos pos' fuel fuel' r r' rs sel, 0 < M ->
  (i < length m)%nat ->
  possible_position (pre ++ post) v pos -> possible_position (pre ++ post) v' pos' ->
  values_within M (set_nth i (mkCat name (pre ++ v :: post)) m) ->
  values_within M (set_nth i (mkCat name (pre ++ v' :: post)) m) ->
  (forall j sizes, 0 <= sel j sizes) ->
  tree_auction M p0 fuel (set_nth i (mkCat name (pre ++ v :: post)) m) st = Ok r ->
  tree_auction M p0 fuel' (set_nth i (mkCat name (pre ++ v' :: post)) m) st = Ok r' ->
  recipes (length m) (tt_tree r) = Ok rs -> initial_prices_ok (length m) rs (- M) p0 ->
  tree_utility sel r' i pos' v <= tree_utility sel r i pos v.
Proof.
  intros M p0 m st i name pre post v v' pos pos' fuel fuel' t t' rs sel HM Hi Hp Hp' W W' Hsel Ht Ht' Hrs HP0.
  assert (HT : tt_tree t' = tt_tree t).
  { destruct (auction_returned _ _ _ _ _ _ Ht) as (rs1 & sp1 & s1 & R1).
    destruct (auction_returned _ _ _ _ _ _ Ht') as (rs2 & sp2 & s2 & R2).
    assert (A := rt_tree _ _ _ _ _ _ _ _ _ R1). assert (B := rt_tree _ _ _ _ _ _ _ _ _ R2).
    match type of A with new_tree ?a _ = _ => match type of B with new_tree ?b _ = _ => rewrite (new_tree_length a b) in A by (unfold clone_market; rewrite !map_length, !set_nth_length; reflexivity) end end.
    congruence. }
  assert (HP1 : forall rs, recipes (length m) (tt_tree t) = Ok rs -> initial_prices_ok (length m) rs (- M) p0).
  { intros rs' H. rewrite Hrs in H. injection H; intros <-. assumption. }
  assert (HP2 : forall rs, recipes (length m) (tt_tree t') = Ok rs -> initial_prices_ok (length m) rs (- M) p0).
  { rewrite HT. assumption. }
  destruct (Qlt_le_dec v v') as [H|H].
  - assert (Hb := position_order _ _ _ _ _ Hp Hp' H).
    destruct (tree_two_runs M p0 m st i name pre post v v' pos pos' _ _ t t' sel HM Hi Hp Hp' ltac:(lra) Hb W W' HP1 Hsel Ht Ht') as [D|D].
    + rewrite D. lra.
    + destruct (D v) as [D1 [D2 _]]. rewrite D1. apply D2. lra.
  - destruct (Qlt_le_dec v' v) as [H1|H1].
    + assert (Hb := position_order _ _ _ _ _ Hp' Hp H1).
      destruct (tree_two_runs M p0 m st i name pre post v' v pos' pos _ _ t' t sel HM Hi Hp' Hp H Hb W' W HP2 Hsel Ht' Ht) as [D|D].
      * rewrite D. lra.
      * destruct (D v) as [D1 [_ D3]]. rewrite D1. apply D3. lra.
    + destruct (le_lt_dec pos' pos) as [Hb|Hb].
      * destruct (tree_two_runs M p0 m st i name pre post v v' pos pos' _ _ t t' sel HM Hi Hp Hp' H1 Hb W W' HP1 Hsel Ht Ht') as [D|D].
        -- rewrite D. lra.
        -- destruct (D v) as [D1 [D2 _]]. rewrite D1. apply D2. lra.
      * destruct (tree_two_runs M p0 m st i name pre post v' v pos' pos _ _ t' t sel HM Hi Hp' Hp H ltac:(lia) W' W HP2 Hsel Ht' Ht) as [D|D].
        -- rewrite D. lra.
        -- destruct (D v) as [D1 [_ D3]]. rewrite D1. apply D3. lra.
Qed.
