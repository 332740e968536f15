(** * The tree auction is weakly group-strategy-proof (C78) *)
From Coq Require Import String List Arith Lia QArith Lqa Permutation Sorted Bool.
From Verif Require Import Base Model_Agents Model_Trade Model_Prices Model_Market Model_RecipeTree Model_TreeAuction
  Spec_Market Spec_RecipeTree Spec_TreeAuction Spec_Ascending Spec_Group Proof_Strategy Proof_Tree Proof_Tree2 Proof_Tree3
  Proof_TA1 Proof_TA2 Proof_TA3 Proof_TA5 Proof_Gsp1.
From Verif Require Proof_Ascending.
Import ListNotations.
Open Scope Q_scope.

Section TwoRuns.
  Variables (M : Q) (n : nat) (t : rtree) (rs : list (list nat)).
  Hypothesis SU : setup n t rs.

  Record both (mA mB : market) (sA sB : tree_state) : Prop := mkBoth {
    b_A : invA n rs mA sA;
    b_B : invA n rs mB sB;
    b_A' : invB M mA sA;
    b_B' : invB M mB sB;
    b_sz : forall j, sz sA j = sz sB j;
    b_pr : forall j, pr sA j == pr sB j
  }.

  Lemma both_sym : forall mA mB sA sB, both mA mB sA sB -> both mB mA sB sA.
  Proof. intros mA mB sA sB [A B A' B' S P]. split; auto. intros j. symmetry. apply P. Qed.

  (** At the round after [sA] the agents at place [k] and below of category [j] leave in [A]; the price in [B] is then at least
      the value at that place in [A]. *)
  Definition parts (mA mB : market) (sA' sB' : tree_state) : Prop :=
    exists j k, (k < length (cvalues (cat_at mA j)))%nat /\ (k < length (cvalues (cat_at mB j)))%nat
      /\ nth k (cvalues (cat_at mA j)) 0 < nth k (cvalues (cat_at mB j)) 0
      /\ (sz sA' j <= k)%nat /\ nth k (cvalues (cat_at mA j)) 0 <= pr sB' j.

  Lemma tgt_last : forall c, (0 < csize c)%nat -> tgt M c = last (cvalues c) 0.
  Proof. intros c Hc. unfold tgt, csize in *. destruct (cvalues c); [simpl in Hc; lia|reflexivity]. Qed.

  Lemma pfx_le : forall l L, pfx l L -> (length l <= length L)%nat.
  Proof. intros l L H. unfold pfx in H. rewrite H, firstn_length. lia. Qed.

  (** The lower last value is removed first. *)
  Lemma parts_intro : forall mA mB sA sB sA' sB' j, both mA mB sA sB -> (0 < sz sA j)%nat ->
    last (cvalues (cat_at (cats_of sA) j)) 0 < last (cvalues (cat_at (cats_of sB) j)) 0 ->
    (sz sA' j <= sz sA j - 1)%nat -> last (cvalues (cat_at (cats_of sA) j)) 0 <= pr sB' j -> parts mA mB sA' sB'.
  Proof.
    intros mA mB sA sB sA' sB' j R Hs Hlt Hsz Hpr. exists j, (sz sA j - 1)%nat.
    assert (E := b_sz _ _ _ _ R j). unfold sz in *.
    assert (PA := ia_pfx _ _ _ _ (b_A _ _ _ _ R) j). assert (PB := ia_pfx _ _ _ _ (b_B _ _ _ _ R) j).
    rewrite (pfx_last _ _ PA) in Hlt, Hpr by lia. rewrite (pfx_last _ _ PB) in Hlt by lia. rewrite <- E in Hlt.
    apply pfx_le in PA. apply pfx_le in PB. unfold csize in *. repeat split; try assumption; lia.
  Qed.

  Lemma sum_eq : forall mA mB sA sB SA SB, both mA mB sA sB -> good n rs sA SA -> good n rs sB SB -> SA == SB.
  Proof.
    intros mA mB sA sB S1 S2 R G1 G2.
    destruct rs as [|r0 rs'] eqn:Ers; [exfalso; eapply setup_nonempty; [exact SU|reflexivity]|].
    rewrite <- (g_sums _ _ _ _ G1 r0 (or_introl eq_refl)), <- (g_sums _ _ _ _ G2 r0 (or_introl eq_refl)).
    assert (L : length (prices_of sA) = length (prices_of sB)) by (rewrite (g_prices _ _ _ _ G1), (g_prices _ _ _ _ G2); reflexivity).
    assert (PR := b_pr _ _ _ _ R). unfold pr in PR. clear -L PR. revert r0 L PR. generalize (prices_of sA), (prices_of sB).
    induction l as [|a l IH]; intros [|b l'] r0 L PR; simpl in L; try lia; [reflexivity|].
    destruct r0 as [|x r0]; [reflexivity|]. cbn [dot].
    rewrite (IH l' r0); [|lia|intros j; apply (PR (S j))]. assert (X := PR 0%nat). simpl in X. rewrite X. reflexivity.
  Qed.

  Lemma chosen_same : forall mA mB sA sB, both mA mB sA sB -> chosen t sA = chosen t sB.
  Proof. intros mA mB sA sB R. unfold chosen. rewrite (largest_ext _ (cats_of sB)); [reflexivity|]. apply (b_sz _ _ _ _ R). Qed.

  (** The smaller increase. *)
  Lemma smaller_parts : forall mA mB sA sB sA' sB' SA SB dA dB, both mA mB sA sB ->
    good n rs sA SA -> good n rs sB SB ->
    moved M t sA sA' SA dA -> moved M t sB sB' SB dB -> dA < dB ->
    (dA < - SA -> forall i, cat_at (cats_of sA') i = beat (cat_at (cats_of sA) i) (pr sA' i)) ->
    dA < - SA /\ parts mA mB sA' sB'.
  Proof.
    intros mA mB sA sB sA' sB' SA SB dA dB R GA GB MA MB Hlt HC.
    assert (ES := sum_eq _ _ _ _ _ _ R GA GB). assert (BB := mv_bound _ _ _ _ _ _ MB).
    assert (HdA : dA < - SA) by lra. split; [assumption|]. specialize (HC HdA).
    destruct (mv_min _ _ _ _ _ _ MA) as [E|[j [Hj E]]]; [lra|].
    assert (CE := chosen_same _ _ _ _ R). assert (Hj' := Hj). rewrite CE in Hj'.
    assert (TB := mv_target _ _ _ _ _ _ MB j Hj'). assert (P := b_pr _ _ _ _ R j). assert (Z := b_sz _ _ _ _ R j).
    assert (Hs : (0 < sz sA j)%nat).
    { destruct (Nat.eq_dec (sz sA j) 0) as [Hz|Hz]; [exfalso|lia].
      assert (TA0 : forall c, csize c = 0%nat -> tgt M c = M) by (intros c Hc; unfold tgt, csize in *; destruct (cvalues c); [reflexivity|discriminate]).
      unfold sz in Hz, Z. rewrite TA0 in E, TB by lia. lra. }
    assert (Hs' := Hs). rewrite Z in Hs'. unfold sz in Hs, Hs'. rewrite tgt_last in E, TB by assumption.
    assert (PA := mv_chosen _ _ _ _ _ _ MA j Hj). assert (PB := mv_chosen _ _ _ _ _ _ MB j Hj').
    apply (parts_intro mA mB sA sB sA' sB' j R Hs); [lra| |rewrite PB; lra].
    unfold sz. rewrite HC, beat_size. 
    assert (Bt : beaten (cat_at (cats_of sA) j) (pr sA' j) = true) by (apply beaten_iff; [assumption|rewrite PA; lra]).
    rewrite Bt. lia.
  Qed.

  (** One removed, the other not. *)
  Lemma beaten_parts : forall mA mB sA sB sA' sB' j, both mA mB sA sB ->
    (forall i, cat_at (cats_of sA') i = beat (cat_at (cats_of sA) i) (pr sA' i)) -> pr sA' j == pr sB' j ->
    beaten (cat_at (cats_of sA) j) (pr sA' j) = true -> beaten (cat_at (cats_of sB) j) (pr sB' j) = false -> parts mA mB sA' sB'.
  Proof.
    intros mA mB sA sB sA' sB' j R HC HP B1 B2. assert (Z := b_sz _ _ _ _ R j).
    assert (Hs : (0 < sz sA j)%nat).
    { destruct (Nat.eq_dec (sz sA j) 0) as [Hz|Hz]; [|lia]. unfold sz in Hz. rewrite beaten_empty in B1 by assumption. discriminate. }
    assert (Hs' := Hs). rewrite Z in Hs'. unfold sz in Hs, Hs'.
    assert (B1' := B1). apply beaten_iff in B1'; [|assumption].
    assert (B2' : ~ last (cvalues (cat_at (cats_of sB) j)) 0 <= pr sB' j).
    { intro X. apply not_true_iff_false in B2. apply B2. apply beaten_iff; assumption. }
    apply Qnot_le_lt in B2'.
    apply (parts_intro mA mB sA sB sA' sB' j R Hs); [lra| |lra].
    unfold sz. rewrite HC, beat_size, B1. lia.
  Qed.

  Lemma both_step : forall mA mB sA sB bA sA' bB sB', sorted_cats mA -> sorted_cats mB -> values_below M mA -> values_below M mB ->
    both mA mB sA sB -> tree_round M t sA = Ok (bA, sA') -> tree_round M t sB = Ok (bB, sB') ->
    (bA = true /\ bB = true /\ (forall j, sz sA' j = sz sB' j) /\ (forall j, pr sA' j == pr sB' j))
    \/ (bA = false /\ bB = false /\ both mA mB sA' sB')
    \/ (bA = false /\ parts mA mB sA' sB') \/ (bB = false /\ parts mB mA sB' sA').
  Proof.
    intros mA mB sA sB bA sA' bB sB' SA SB VA VB R HA HB.
    destruct (ia_good _ _ _ _ (b_A _ _ _ _ R)) as [S1 [G1 N1]]. destruct (ia_good _ _ _ _ (b_B _ _ _ _ R)) as [S2 [G2 N2]].
    assert (ES := sum_eq _ _ _ _ _ _ R G1 G2). assert (RS := b_sz _ _ _ _ R). assert (RP := b_pr _ _ _ _ R).
    assert (CE := chosen_same _ _ _ _ R).
    destruct (round_inv _ _ _ _ _ _ _ _ SU G1 HA) as [(E1 & E2 & Z)|[d1 [MV1 [G1' C1]]]].
    { subst bA sA'. left. destruct (round_inv _ _ _ _ _ _ _ _ SU G2 HB) as [(E3 & E4 & _)|[d2 [MV2 _]]].
      - subst bB sB'. auto.
      - exfalso. assert (X := mv_root _ _ _ _ _ _ MV2). rewrite <- RS in X. lia. }
    destruct (round_inv _ _ _ _ _ _ _ _ SU G2 HB) as [(E3 & E4 & Z)|[d2 [MV2 [G2' C2]]]].
    { exfalso. assert (X := mv_root _ _ _ _ _ _ MV1). rewrite RS in X. lia. }
    destruct (Qlt_le_dec d1 d2) as [Hlt|Hge].
    { right. right. left.
      destruct (smaller_parts mA mB sA sB sA' sB' S1 S2 d1 d2 R G1 G2 MV1 MV2 Hlt) as [X Y].
      - intros Hd. destruct C1 as [(_ & X & _)|(_ & _ & X)]; [lra|assumption].
      - split; [|assumption]. destruct C1 as [(_ & Y1 & _)|(Y1 & _)]; [lra|assumption]. }
    destruct (Qlt_le_dec d2 d1) as [Hlt|Hge'].
    { right. right. right.
      destruct (smaller_parts mB mA sB sA sB' sA' S2 S1 d2 d1 (both_sym _ _ _ _ R) G2 G1 MV2 MV1 Hlt) as [X Y].
      - intros Hd. destruct C2 as [(_ & X & _)|(_ & _ & X)]; [lra|assumption].
      - split; [|assumption]. destruct C2 as [(_ & Y1 & _)|(Y1 & _)]; [lra|assumption]. }
    assert (DE : d1 == d2) by lra.
    assert (PQ : forall j, pr sA' j == pr sB' j).
    { intros j. destruct (in_dec Nat.eq_dec j (chosen t sA)) as [C|C].
      - rewrite (mv_chosen _ _ _ _ _ _ MV1 j C). rewrite CE in C. rewrite (mv_chosen _ _ _ _ _ _ MV2 j C). rewrite (RP j). lra.
      - rewrite (mv_other _ _ _ _ _ _ MV1 j C). rewrite CE in C. rewrite (mv_other _ _ _ _ _ _ MV2 j C). apply RP. }
    destruct C1 as [(E1 & ED1 & EC1)|(E1 & LD1 & EC1)]; destruct C2 as [(E2 & ED2 & EC2)|(E2 & LD2 & EC2)]; [|exfalso; lra|exfalso; lra|].
    { left. split; [assumption|]. split; [assumption|]. unfold sz. rewrite EC1, EC2. split; [exact RS|exact PQ]. }
    right. subst bA bB.
    destruct (forallb (fun j => Bool.eqb (beaten (cat_at (cats_of sA) j) (pr sA' j)) (beaten (cat_at (cats_of sB) j) (pr sB' j))) (seq 0 n)) eqn:EB.
    - left. split; [reflexivity|]. split; [reflexivity|]. rewrite forallb_forall in EB.
      assert (EB' : forall j, beaten (cat_at (cats_of sA) j) (pr sA' j) = beaten (cat_at (cats_of sB) j) (pr sB' j)).
      { intros j. destruct (le_lt_dec n j) as [Hj|Hj].
        - assert (O : forall s SS, good n rs s SS -> csize (cat_at (cats_of s) j) = 0%nat).
          { intros s SS G. unfold cat_at. rewrite nth_overflow; [reflexivity|]. rewrite (g_cats _ _ _ _ G). assumption. }
          rewrite !beaten_empty by (eapply O; eassumption). reflexivity.
        - apply Bool.eqb_prop. apply EB. apply in_seq. lia. }
      split.
      + eapply invA_step; [exact SU|exact SA|exact (b_A _ _ _ _ R)|exact HA].
      + eapply invA_step; [exact SU|exact SB|exact (b_B _ _ _ _ R)|exact HB].
      + apply (invB_step _ _ _ _ _ _ _ SU (b_A _ _ _ _ R) (b_A' _ _ _ _ R) VA HA).
      + apply (invB_step _ _ _ _ _ _ _ SU (b_B _ _ _ _ R) (b_B' _ _ _ _ R) VB HB).
      + intros j. unfold sz. rewrite EC1, EC2, !beat_size, EB'. assert (X := RS j). unfold sz in X. rewrite X. reflexivity.
      + exact PQ.
    - right. assert (X : exists j, Bool.eqb (beaten (cat_at (cats_of sA) j) (pr sA' j)) (beaten (cat_at (cats_of sB) j) (pr sB' j)) = false).
      { clear -EB. induction (seq 0 n) as [|a l IH]; [discriminate|]. cbn [forallb] in EB. apply andb_false_iff in EB. destruct EB; eauto. }
      destruct X as [j X].
      destruct (beaten (cat_at (cats_of sA) j) (pr sA' j)) eqn:B1; destruct (beaten (cat_at (cats_of sB) j) (pr sB' j)) eqn:B2; try discriminate.
      + left. split; [reflexivity|]. apply (beaten_parts mA mB sA sB sA' sB' j R EC1 (PQ j) B1 B2).
      + right. split; [reflexivity|]. apply (beaten_parts mB mA sB sA sB' sA' j (both_sym _ _ _ _ R) EC2); [|assumption|assumption].
        symmetry. apply PQ.
  Qed.

  (** The rest of a run only shrinks the categories and raises the prices. *)
  Lemma rest : forall m fuel b s s' f, sorted_cats m -> values_below M m -> invA n rs m s -> invB M m s ->
    tree_round M t s = Ok (b, s') -> (if b then Ok s' else tree_loop M fuel t s') = Ok f ->
    (forall j, (sz f j <= sz s' j)%nat) /\ (forall j, pr s' j <= pr f j).
  Proof.
    intros m fuel b s s' f SM VM IA IB HR HL. destruct b.
    - injection HL; intros <-. split; intros j; [lia|lra].
    - assert (IA' := invA_step _ _ _ _ _ _ _ SU SM IA HR).
      destruct (invB_step _ _ _ _ _ _ _ SU IA IB VM HR) as [IB' _].
      destruct (loop_visited _ _ _ _ _ _ (tv_start _ _ _) HL) as [s1 [V HF]].
      destruct (invAB_visited _ _ _ _ _ _ _ SU SM VM IA' IB' V) as (A1 & B1 & C1).
      destruct (final_mono _ _ _ _ _ _ _ SU A1 B1 HF) as (E & K & _). split; intros j.
      + assert (X := size_down M n t rs SU m s' s1 SM IA' V j). unfold sz in *. rewrite E. assumption.
      + specialize (C1 j). specialize (K j). lra.
  Qed.

  Lemma both_loops : forall mA mB fuel sA sB fA fuel' fB, sorted_cats mA -> sorted_cats mB -> values_below M mA -> values_below M mB ->
    both mA mB sA sB -> tree_loop M fuel t sA = Ok fA -> tree_loop M fuel' t sB = Ok fB ->
    ((forall j, sz fA j = sz fB j) /\ (forall j, pr fA j == pr fB j)) \/ parts mA mB fA fB \/ parts mB mA fB fA.
  Proof.
    intros mA mB fuel. induction fuel as [|fuel IH]; intros sA sB fA fuel' fB SA SB VA VB R HA HB; [discriminate|].
    destruct fuel' as [|fuel']; [discriminate|]. cbn [tree_loop] in HA, HB.
    apply bind_Ok in HA. destruct HA as [[b1 sA'] [RA HA]]. apply bind_Ok in HB. destruct HB as [[b2 sB'] [RB HB]].
    cbn [fst snd] in HA, HB.
    destruct (rest mA fuel b1 sA sA' fA SA VA (b_A _ _ _ _ R) (b_A' _ _ _ _ R) RA HA) as [KA PA].
    destruct (rest mB fuel' b2 sB sB' fB SB VB (b_B _ _ _ _ R) (b_B' _ _ _ _ R) RB HB) as [KB PB].
    destruct (both_step mA mB sA sB b1 sA' b2 sB' SA SB VA VB R RA RB) as [(-> & -> & A & B)|[(-> & -> & R')|[(_ & P)|(_ & P)]]].
    - injection HA; intros <-. injection HB; intros <-. left. auto.
    - eapply IH; eassumption.
    - right. left. destruct P as (j & k & P1 & P2 & P3 & P4 & P5). exists j, k. specialize (KA j). specialize (PB j).
      split; [assumption|]. split; [assumption|]. split; [assumption|]. split; [lia|lra].
    - right. right. destruct P as (j & k & P1 & P2 & P3 & P4 & P5). exists j, k. specialize (KB j). specialize (PA j).
      split; [assumption|]. split; [assumption|]. split; [assumption|]. split; [lia|lra].
  Qed.
End TwoRuns.

Theorem tree_group : forall M p0 fuel fuel' m m' st r r' rs sel rank rank', 0 < M ->
  same_agents m m' -> rankings m rank -> rankings m' rank' ->
  values_within M m -> values_within M m' -> (forall j sizes, 0 <= sel j sizes) ->
  tree_auction M p0 fuel m st = Ok r -> tree_auction M p0 fuel' m' st = Ok r' ->
  recipes (length m) (tt_tree r) = Ok rs -> initial_prices_ok (length m) rs (- M) p0 ->
  (exists i j, misreports m m' i j) ->
  exists i j, misreports m m' i j
    /\ tree_utility sel r' i (rank' i j) (agent_value m i j) <= tree_utility sel r i (rank i j) (agent_value m i j).
Proof.
  intros M p0 fuel fuel' m m' st r r' rs sel rank rank' HM HS HR HR' W W' Hsel Ht Ht' Hrs HP0 Hmis.
  assert (HL : length m = length m').
  { unfold same_agents in HS. apply (f_equal (@length nat)) in HS. rewrite !map_length in HS. assumption. }
  assert (HLi : forall i, length (nth i (map cvalues m) []) = length (nth i (map cvalues m') [])).
  { intros i. unfold same_agents in HS. assert (E : forall x, length (nth i (map cvalues x) []) = nth i (map csize x) 0%nat).
    { intros x. change 0%nat with (length (@nil Q)). rewrite <- (map_nth (@length Q)), map_map. reflexivity. }
    rewrite !E, HS. reflexivity. }
  destruct (auction_returned _ _ _ _ _ _ Ht) as (rs1 & sp1 & s1 & R1).
  destruct (auction_returned _ _ _ _ _ _ Ht') as (rs2 & sp2 & s2 & R2).
  assert (HT : tt_tree r' = tt_tree r).
  { assert (A := rt_tree _ _ _ _ _ _ _ _ _ R1). assert (B := rt_tree _ _ _ _ _ _ _ _ _ R2).
    rewrite (new_tree_length _ (clone_market m')) in A by (unfold clone_market; rewrite !map_length; congruence).
    congruence. }
  assert (Hrs' : recipes (length m') (tt_tree r') = Ok rs) by (rewrite <- HL, HT; assumption).
  destruct (auction_final M p0 fuel m st r rs HM Ht Hrs HP0 (within_above _ _ W)) as (spA & a & a' & RA & VA & IA & EA & FA & TA).
  destruct (auction_final M p0 fuel' m' st r' rs HM Ht' Hrs' ltac:(rewrite <- HL; assumption) (within_above _ _ W')) as (spB & b & b' & RB & VB & IB & EB & FB & TB).
  clear R1 R2 sp1 sp2 s1 s2 rs1 rs2. rewrite <- HL in *. rewrite HT in *.
  assert (SU := rt_setup _ _ _ _ _ _ _ _ _ RA).
  assert (BA : invB M (clone_market m) (clone_market m, spA)).
  { destruct HP0 as [HL0 [HF _]]. exact (invB_start M (length m) p0 spA m HM HL0 HF EA). }
  assert (BB : invB M (clone_market m') (clone_market m', spB)).
  { destruct HP0 as [HL0 [HF _]]. exact (invB_start M (length m) p0 spB m' HM HL0 HF EB). }
  assert (Va : forall i, (i < length m)%nat -> cvalues (cat_at (clone_market m) i) = sort_desc (nth i (map cvalues m) [])).
  { intros i Hi. rewrite clone_at. unfold clone, new_category, cat_at. cbn [cvalues]. f_equal.
    change (@nil Q) with (cvalues (mkCat "" [])). symmetry. apply map_nth. }
  assert (Vb : forall i, (i < length m)%nat -> cvalues (cat_at (clone_market m') i) = sort_desc (nth i (map cvalues m') [])).
  { intros i Hi. rewrite clone_at. unfold clone, new_category, cat_at. cbn [cvalues]. f_equal.
    change (@nil Q) with (cvalues (mkCat "" [])). symmetry. apply map_nth. }
  assert (R0 : both M (length m) rs (clone_market m) (clone_market m') (clone_market m, spA) (clone_market m', spB)).
  { split; try assumption.
    - intros j. unfold sz, csize, cats_of. cbn [fst]. destruct (le_lt_dec (length m) j) as [Hj|Hj].
      + unfold cat_at. rewrite !nth_overflow; [reflexivity| |]; unfold clone_market; rewrite map_length; lia.
      + rewrite Va, Vb, !sort_desc_length by assumption. apply HLi.
    - intros j. unfold pr. rewrite EA, EB. reflexivity. }
  assert (VM := values_below_clone _ _ (within_below _ _ W)). assert (VM' := values_below_clone _ _ (within_below _ _ W')).
  assert (LB := rt_loop _ _ _ _ _ _ _ _ _ RB). rewrite HT in LB.
  assert (D := both_loops M (length m) (tt_tree r) rs SU (clone_market m) (clone_market m') fuel _ _ a' fuel' b'
    (clone_sorted m) (clone_sorted m') VM VM' R0 (rt_loop _ _ _ _ _ _ _ _ _ RA) LB).
  destruct (invAB_visited _ _ _ _ _ _ _ SU (clone_sorted m) VM IA BA VA) as (_ & QA & _).
  destruct (invAB_visited _ _ _ _ _ _ _ SU (clone_sorted m') VM' IB BB VB) as (_ & QB & _).
  destruct (final_shape _ _ _ _ _ _ _ SU (clone_sorted m) FA TA) as (E1 & F1 & P1 & C1).
  destruct (final_shape _ _ _ _ _ _ _ SU (clone_sorted m') FB TB) as (E2 & F2 & P2 & C2).
  destruct (final_mono _ _ _ _ _ _ _ SU FA QA TA) as (_ & _ & GA).
  assert (UA : forall i j v, (i < length m)%nat -> tree_utility sel r i (rank i j) v = if (rank i j <? sz a' i)%nat then sel i (map csize (cats_of a')) * (v - pr a' i) else 0).
  { intros i j v Hi. apply (tree_utility_final _ _ _ _ _ _ _ _ _ _ _ _ _ RA); congruence. }
  assert (UB : forall i j v, (i < length m)%nat -> tree_utility sel r' i (rank' i j) v = if (rank' i j <? sz b' i)%nat then sel i (map csize (cats_of b')) * (v - pr b' i) else 0).
  { intros i j v Hi. apply (tree_utility_final _ _ _ _ _ _ _ _ _ _ _ _ _ RB); congruence. }
  (* an agent's value stands at his place *)
  assert (Pa : forall i j, is_agent m i j -> nth (rank i j) (cvalues (cat_at (clone_market m) i)) 0 == agent_value m i j /\ (rank i j < length (cvalues (cat_at (clone_market m) i)))%nat).
  { intros i j [Hi Hj]. rewrite Va by assumption. split; [apply ranking_sorted; [apply HR; assumption|assumption]|].
    rewrite sort_desc_length. apply (HR i Hi). assumption. }
  assert (Pb : forall i j, is_agent m i j -> nth (rank' i j) (cvalues (cat_at (clone_market m') i)) 0 == agent_value m' i j /\ (rank' i j < length (cvalues (cat_at (clone_market m') i)))%nat).
  { intros i j [Hi Hj]. rewrite Vb by assumption. rewrite HLi in Hj. split; [apply ranking_sorted; [apply HR'; lia|assumption]|].
    rewrite sort_desc_length. apply (HR' i); [lia|assumption]. }
  (* truthful agents do not lose *)
  assert (NN : forall i j, is_agent m i j -> 0 <= tree_utility sel r i (rank i j) (agent_value m i j)).
  { intros i j Hag. rewrite UA by apply Hag. destruct (Nat.ltb_spec (rank i j) (sz a' i)) as [Hin|_]; [|lra].
    assert (X := Hsel i (map csize (cats_of a'))). set (q := sel i _) in *. clearbody q.
    assert (Hp : pr a' i <= agent_value m i j).
    { rewrite <- (proj1 (Pa i j Hag)). assert (PX := ia_pfx _ _ _ _ FA i). rewrite <- E1 in PX. unfold sz in Hin.
      rewrite <- (pfx_nth _ _ (rank i j) PX Hin). apply F1. apply nth_In. exact Hin. }
    nra. }
  assert (Dd : forall x i, desc (cvalues (cat_at (clone_market x) i))).
  { intros x i. rewrite clone_at. unfold clone, new_category. cbn [cvalues]. apply sort_desc_desc. }
  destruct D as [(DS & DP)|[D|D]].
  - (* the same run *)
    destruct Hmis as (i & j & Hag & Hv). exists i, j. split; [split; assumption|].
    assert (Hi := proj1 Hag). assert (N0 := NN i j Hag). rewrite UA in * by assumption. rewrite UB by assumption. rewrite <- DS.
    destruct (Nat.ltb_spec (rank' i j) (sz a' i)) as [H'|H']; [|assumption].
    destruct (Nat.ltb_spec (rank i j) (sz a' i)) as [H|H].
    + assert (ES : map csize (cats_of a') = map csize (cats_of b')).
      { apply nth_ext with (d := csize (mkCat "" [])) (d' := csize (mkCat "" [])); rewrite !map_length; [congruence|].
        intros k Hk. rewrite !map_nth. apply DS. }
      rewrite ES, (DP i). lra.
    + destruct (Pa i j Hag) as [T1 T2].
      assert (X : agent_value m i j <= pr a' i).
      { rewrite <- T1. apply GA. rewrite <- (firstn_skipn (sz a' i) (cvalues (cat_at (clone_market m) i))) at 1.
        rewrite app_nth2 by (rewrite firstn_length; lia). apply nth_In. rewrite skipn_length, firstn_length_le by lia. lia. }
      assert (Y := Hsel i (map csize (cats_of b'))). set (q := sel i (map csize (cats_of b'))) in *. clearbody q.
      assert (Z := DP i). nra.
  - (* the truth is the lower one *)
    destruct D as (i & k & K1 & K2 & K3 & K4 & K5).
    assert (Hi : (i < length m)%nat).
    { destruct (le_lt_dec (length m) i) as [Hi|Hi]; [exfalso|assumption]. unfold cat_at in K1. rewrite nth_overflow in K1; [simpl in K1; lia|].
      unfold clone_market. rewrite map_length. assumption. }
    assert (Kl := K1). rewrite Va, sort_desc_length in Kl by assumption.
    destruct (pigeon _ _ (rank' i) (rank i) (S k) (HR' i ltac:(lia)) (HR i Hi) (eq_sym (HLi i)) ltac:(rewrite <- HLi; lia)) as (j & Hj & Hr1 & Hr2).
    rewrite <- HLi in Hj. assert (Hag : is_agent m i j) by (split; assumption).
    destruct (Pa i j Hag) as [Ta Ra]. destruct (Pb i j Hag) as [Tb Rb].
    assert (B1 : agent_value m i j <= nth k (cvalues (cat_at (clone_market m) i)) 0).
    { rewrite <- Ta. apply desc_nth; [apply Dd|lia|assumption]. }
    assert (B2 : nth k (cvalues (cat_at (clone_market m') i)) 0 <= agent_value m' i j).
    { rewrite <- Tb. apply desc_nth; [apply Dd|lia|assumption]. }
    exists i, j. split; [split; [assumption|lra]|]. apply Qle_trans with 0; [|apply NN; assumption].
    rewrite UB by assumption. destruct (Nat.ltb_spec (rank' i j) (sz b' i)) as [_|_]; [|lra].
    assert (Y := Hsel i (map csize (cats_of b'))). set (q := sel i _) in *. clearbody q. nra.
  - (* the report is the lower one *)
    destruct D as (i & k & K1 & K2 & K3 & K4 & K5).
    assert (Hi : (i < length m)%nat).
    { destruct (le_lt_dec (length m) i) as [Hi|Hi]; [exfalso|assumption]. unfold cat_at in K2. rewrite nth_overflow in K2; [simpl in K2; lia|].
      unfold clone_market. rewrite map_length. assumption. }
    assert (Kl := K2). rewrite Va, sort_desc_length in Kl by assumption.
    destruct (pigeon _ _ (rank i) (rank' i) (S k) (HR i Hi) (HR' i ltac:(lia)) (HLi i) ltac:(lia)) as (j & Hj & Hr1 & Hr2).
    assert (Hag : is_agent m i j) by (split; assumption).
    destruct (Pa i j Hag) as [Ta Ra]. destruct (Pb i j Hag) as [Tb Rb].
    assert (B1 : nth k (cvalues (cat_at (clone_market m) i)) 0 <= agent_value m i j).
    { rewrite <- Ta. apply desc_nth; [apply Dd|lia|assumption]. }
    assert (B2 : agent_value m' i j <= nth k (cvalues (cat_at (clone_market m') i)) 0).
    { rewrite <- Tb. apply desc_nth; [apply Dd|lia|assumption]. }
    exists i, j. split; [split; [assumption|lra]|].
    rewrite UB by assumption. destruct (Nat.ltb_spec (rank' i j) (sz b' i)) as [X|_]; [lia|]. apply NN. assumption.
Qed.
