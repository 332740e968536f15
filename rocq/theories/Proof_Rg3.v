(** * Two regrouped auctions have the same outcome (for C72) *)

From Coq Require Import String List Arith Lia QArith Lqa Permutation Sorted Bool.
From Verif Require Import Base Model_Agents Model_Market Model_RecipeTree Model_TreeAuction
  Spec_Market Spec_RecipeTree Spec_TreeAuction Spec_Regroup Proof_Agents Proof_Market Proof_Tree Proof_Tree3 Proof_TA1 Proof_TA2 Proof_TA3
  Proof_TA4 Proof_TA6 Proof_TA7 Proof_TA8 Proof_Rg1 Proof_Rg2.
Import ListNotations.
Open Scope Q_scope.

Section Sim.
  Variables (M : Q) (n n' : nat) (t t' : rtree) (G : list (list nat * nat)) (rs rs' : list (list nat)).
  Hypothesis SU : setup n t rs.
  Hypothesis SU' : setup n' t' rs'.
  Hypothesis HD : distinct_categories t.
  Hypothesis HD' : distinct_categories t'.
  Hypothesis HR : regrouped t t' G.

  Lemma nodes_G : forall i, In i (node_indices t) -> exists J j', In (J, j') G /\ In i J.
  Proof.
    intros i Hi. apply (Permutation_in _ (proj1 (proj1 rg_nodes _ _ _ HR))) in Hi. apply in_concat in Hi.
    destruct Hi as [J [HJ Hi]]. apply in_map_iff in HJ. destruct HJ as [[J0 j'] [<- HJ]]. eauto.
  Qed.

  Lemma nodes_G' : forall j', In j' (node_indices t') -> exists J, In (J, j') G.
  Proof.
    intros i Hi. apply (Permutation_in _ (proj2 (proj1 rg_nodes _ _ _ HR))) in Hi. apply in_map_iff in Hi.
    destruct Hi as [[J j'] [<- HJ]]. eauto.
  Qed.

  Definition linked (s s' : tree_state) : Prop := forall J j', In (J, j') G ->
    (forall i, In i J -> pr s i == pr s' j') /\ group M (cats_of s) (cats_of s') J j' (pr s' j').

  Definition final (s s' : tree_state) : Prop := forall J j', In (J, j') G ->
    (forall i, In i J -> pr s i == pr s' j') /\ Permutation (agents_of (cats_of s) J) (cvalues (cat_at (cats_of s') j')).

  Lemma final_sizes : forall s s', final s s' -> size_match (cats_of s) (cats_of s') G.
  Proof.
    intros s s' F J j' H. destruct (F _ _ H) as [_ P]. rewrite <- agents_length. unfold csize. symmetry.
    apply Permutation_length. assumption.
  Qed.

  Lemma linked_final : forall s s', linked s s' -> final s s'.
  Proof. intros s s' L J j' H. destruct (L _ _ H) as [A B]. split; [assumption|]. eapply group_perm. exact B. Qed.

  Lemma linked_sum : forall s s' S S', linked s s' -> good n rs s S -> good n' rs' s' S' -> S == S'.
  Proof.
    intros s s' S S' L Gd Gd'. destruct (proj1 rg_path _ _ _ HR) as (p & p' & Hp & Hp' & F).
    rewrite <- (sums_paths _ _ _ _ _ SU HD (g_prices _ _ _ _ Gd) (g_sums _ _ _ _ Gd) p Hp).
    rewrite <- (sums_paths _ _ _ _ _ SU' HD' (g_prices _ _ _ _ Gd') (g_sums _ _ _ _ Gd') p' Hp').
    clear Hp Hp'. induction F as [|x y l l' [J [A B]] _ IH]; [reflexivity|].
    rewrite !path_sum_cons, IH. assert (X := proj1 (L _ _ A) x B). unfold pr in X. rewrite X. reflexivity.
  Qed.

  Lemma linked_root : forall s s', linked s s' -> sz s' (tindex t') = sz s (tindex t).
  Proof.
    intros s s' L. assert (X := final_sizes _ _ (linked_final _ _ L) _ _ (rg_root _ _ _ HR)). unfold nsum in X. simpl in X.
    rewrite Nat.add_0_r in X. exact X.
  Qed.

  Lemma linked_chosen : forall s s' J j' i, linked s s' -> In (J, j') G -> In i J ->
    (In i (chosen t s) <-> In j' (chosen t' s')).
  Proof.
    intros s s' J j' i L HG Hi. unfold chosen.
    destruct (proj1 (rg_chosen (cats_of s) (cats_of s')) _ _ _ HR (final_sizes _ _ (linked_final _ _ L))) as (H & A & B & C).
    assert (ND : NoDup (concat (map fst G))) by (eapply Permutation_NoDup; [apply (proj1 rg_nodes _ _ _ HR)|exact HD]).
    assert (ND' : NoDup (map snd G)) by (eapply Permutation_NoDup; [apply (proj1 rg_nodes _ _ _ HR)|exact HD']).
    split; intros X.
    - apply (Permutation_in _ B) in X. apply in_concat in X. destruct X as [K [HK Hk]]. apply in_map_iff in HK.
      destruct HK as [[K0 k'] [E HK]]. simpl in E. subst K0.
      assert (EQ := group_unique G ND i J j' K k' HG (A _ HK) Hi Hk). injection EQ; intros <- <-.
      apply (Permutation_in _ (Permutation_sym C)). apply in_map_iff. exists (J, j'). auto.
    - apply (Permutation_in _ C) in X. apply in_map_iff in X. destruct X as [[K k'] [E HK]]. simpl in E. subst k'.
      assert (EQ := target_unique G ND' J K j' HG (A _ HK)). subst K.
      apply (Permutation_in _ (Permutation_sym B)). apply in_concat. exists J. split; [|assumption].
      apply in_map_iff. exists (J, j'). auto.
  Qed.

  Lemma round_sim : forall s s' S S' b b' s1 s1', linked s s' -> good n rs s S -> good n' rs' s' S' ->
    tree_round M t s = Ok (b, s1) -> tree_round M t' s' = Ok (b', s1') ->
    b' = b /\ final s1 s1' /\ (b = false -> linked s1 s1') /\ (exists S1, good n rs s1 S1) /\ (exists S1', good n' rs' s1' S1').
  Proof.
    intros s s' S S' b b' s1 s1' L Gd Gd' R R'. assert (ES := linked_sum _ _ _ _ L Gd Gd').
    assert (RT := linked_root _ _ L).
    destruct (round_inv _ _ _ _ _ _ _ _ SU Gd R) as [(-> & -> & Z)|[d [MV [G1 D]]]];
    destruct (round_inv _ _ _ _ _ _ _ _ SU' Gd' R') as [(-> & -> & Z')|[d' [MV' [G1' D']]]].
    - split; [reflexivity|]. split; [apply linked_final; assumption|]. split; [discriminate|]. split; eauto.
    - exfalso. assert (X := mv_root _ _ _ _ _ _ MV'). lia.
    - exfalso. assert (X := mv_root _ _ _ _ _ _ MV). lia.
    - assert (ED : d == d').
      { apply Qle_antisym.
        - destruct (mv_min _ _ _ _ _ _ MV') as [X|[j' [Hj X]]].
          + assert (Y := mv_bound _ _ _ _ _ _ MV). lra.
          + destruct (nodes_G' j' (chosen_incl _ _ _ Hj)) as [J HJ].
            destruct (L _ _ HJ) as [LP LG].
            destruct (group_tgt _ _ _ _ _ _ (proj1 rg_nonempty _ _ _ HR _ _ HJ) LG) as [_ [i [Hi Ei]]].
            assert (Ci := proj2 (linked_chosen _ _ _ _ i L HJ Hi) Hj).
            assert (Y := mv_target _ _ _ _ _ _ MV i Ci). specialize (LP i Hi). lra.
        - destruct (mv_min _ _ _ _ _ _ MV) as [X|[i [Hc X]]].
          + assert (Y := mv_bound _ _ _ _ _ _ MV'). lra.
          + destruct (nodes_G i (chosen_incl _ _ _ Hc)) as (J & j' & HJ & Hi).
            destruct (L _ _ HJ) as [LP LG].
            destruct (group_tgt _ _ _ _ _ _ (proj1 rg_nonempty _ _ _ HR _ _ HJ) LG) as [TL _].
            assert (Ci := proj1 (linked_chosen _ _ _ _ i L HJ Hi) Hc).
            assert (Y := mv_target _ _ _ _ _ _ MV' j' Ci). specialize (LP i Hi). specialize (TL i Hi). lra. }
      assert (PP : forall J j', In (J, j') G -> forall i, In i J -> pr s1 i == pr s1' j').
      { intros J j' HJ i Hi. assert (X := proj1 (L _ _ HJ) i Hi). assert (CH := linked_chosen _ _ _ _ i L HJ Hi).
        destruct (in_dec Nat.eq_dec i (chosen t s)) as [C|C].
        - rewrite (mv_chosen _ _ _ _ _ _ MV i C), (mv_chosen _ _ _ _ _ _ MV' j' (proj1 CH C)). lra.
        - rewrite (mv_other _ _ _ _ _ _ MV i C), (mv_other _ _ _ _ _ _ MV' j' ltac:(tauto)). assumption. }
      destruct D as [(-> & Hd & HC)|(-> & Hd & HC)], D' as [(-> & Hd' & HC')|(-> & Hd' & HC')]; try (exfalso; lra).
      + split; [reflexivity|]. split; [|split; [discriminate|split; eauto]].
        intros J j' HJ. split; [apply PP; assumption|]. rewrite HC, HC'. eapply group_perm. apply (L _ _ HJ).
      + assert (LK : linked s1 s1').
        { intros J j' HJ. split; [apply PP; assumption|]. destruct (L _ _ HJ) as [LP LG].
          eapply (group_beat M _ _ _ _ J j' (pr s' j') (pr s1)); [exact LG| |apply PP; assumption|apply HC|apply HC'].
          intros (_ & SD & _ & B) v Hv. destruct (in_dec Nat.eq_dec j' (chosen t' s')) as [C|C].
          - rewrite (mv_chosen _ _ _ _ _ _ MV' j' C). assert (Y := mv_target _ _ _ _ _ _ MV' j' C).
            assert (Z := last_le _ _ (sdesc_desc _ SD) Hv). unfold tgt in Y.
            destruct (cvalues (cat_at (cats_of s') j')) as [|x l]; [destruct Hv|]. lra.
          - rewrite (mv_other _ _ _ _ _ _ MV' j' C). apply Qlt_le_weak. apply B. assumption. }
        split; [reflexivity|]. split; [apply linked_final; assumption|]. split; [intros _; assumption|]. split; eauto.
  Qed.

  Lemma loop_sim : forall fuel s s' S S', linked s s' -> good n rs s S -> good n' rs' s' S' ->
    (tree_loop M fuel t s = Timeout /\ tree_loop M fuel t' s' = Timeout)
    \/ (exists s1 s1', tree_loop M fuel t s = Ok s1 /\ tree_loop M fuel t' s' = Ok s1' /\ final s1 s1'
         /\ (exists S1, good n rs s1 S1) /\ (exists S1', good n' rs' s1' S1')).
  Proof.
    induction fuel as [|fuel IH]; intros s s' S S' L Gd Gd'; [left; split; reflexivity|]. cbn [tree_loop].
    destruct (round_total M _ _ _ _ _ SU HD Gd) as (b & s1 & R). destruct (round_total M _ _ _ _ _ SU' HD' Gd') as (b' & s1' & R').
    destruct (round_sim _ _ _ _ _ _ _ _ L Gd Gd' R R') as (-> & F & LK & [S1 G1] & [S1' G1']).
    rewrite R, R'. cbn [bind fst snd]. destruct b.
    - right. exists s1, s1'. repeat split; eauto; apply F; assumption.
    - eapply IH; eauto.
  Qed.
End Sim.

Lemma all_different_differ : forall l, all_different l -> differ l.
Proof. intros l H. apply differ_intro. exact H. Qed.

Theorem regrouped_same : forall M fuel m m' st st' t t' rs rs' p0 p0' G, 0 < M ->
  new_tree (clone_market m) st = Ok t -> new_tree (clone_market m') st' = Ok t' ->
  distinct_categories t -> distinct_categories t' -> regrouped t t' G ->
  recipes (length m) t = Ok rs -> recipes (length m') t' = Ok rs' ->
  initial_prices_ok (length m) rs (- M) p0 -> initial_prices_ok (length m') rs' (- M) p0' ->
  (forall J j' i, In (J, j') G -> In i J -> nth i p0 0 == nth j' p0' 0) ->
  (forall J j', In (J, j') G -> same_agents M m m' J j') ->
  match tree_auction M p0 fuel m st, tree_auction M p0' fuel m' st' with
  | Ok r, Ok r' => tt_deals r = tt_deals r'
      /\ forall J j', In (J, j') G ->
           (forall i, In i J -> exists p p', nth_error (tt_prices r) i = Some p /\ nth_error (tt_prices r') j' = Some p' /\ p == p')
           /\ Permutation (agents_of (tt_cats r) J) (cvalues (cat_at (tt_cats r') j'))
  | Raise e, Raise e' => e = e'
  | Timeout, Timeout => True
  | _, _ => False
  end.
Proof.
  intros M fuel m m' st st' t t' rs rs' p0 p0' G HM Ht Ht' HD HD' HR Hrs Hrs' HP HP' HE HA.
  destruct (new_tree_setup _ _ _ Ht) as [rs0 [E0 SU]]. rewrite Hrs in E0. injection E0; intros <-. clear E0.
  destruct (new_tree_setup _ _ _ Ht') as [rs0 [E0 SU']]. rewrite Hrs' in E0. injection E0; intros <-. clear E0.
  destruct HP as [HL [HF [S HS]]]. destruct HP' as [HL' [HF' [S' HS']]].
  assert (CL : forall m, length (clone_market m) = length m) by (intros; apply map_length).
  unfold tree_auction. rewrite Ht, Ht'. cbn [bind]. rewrite !CL, Hrs, Hrs'. cbn [bind].
  assert (IR : forall i, In i (node_indices t) -> (i < length m)%nat).
  { intros i Hi. assert (X := su_range _ _ _ SU). unfold indices_in_range in X. rewrite Forall_forall in X. auto. }
  assert (IR' : forall i, In i (node_indices t') -> (i < length m')%nat).
  { intros i Hi. assert (X := su_range _ _ _ SU'). unfold indices_in_range in X. rewrite Forall_forall in X. auto. }
  assert (NG : forall J j' i, In (J, j') G -> In i J -> In i (node_indices t) /\ In j' (node_indices t')).
  { intros J j' i HJ Hi. destruct (proj1 rg_nodes _ _ _ HR) as [A B]. split.
    - apply (Permutation_in _ (Permutation_sym A)). apply in_concat. exists J. split; [|assumption]. apply in_map_iff. exists (J, j'). auto.
    - apply (Permutation_in _ (Permutation_sym B)). apply in_map_iff. exists (J, j'). auto. }
  destruct (new_sim_ok _ _ _ p0 SU) as [sp Hsp]. destruct (new_sim_ok _ _ _ p0' SU') as [sp' Hsp'].
  destruct (start_good _ _ _ _ _ (clone_market m) SU Hsp (CL m) HL S HS) as [G0 EP].
  destruct (start_good _ _ _ _ _ (clone_market m') SU' Hsp' (CL m') HL' S' HS') as [G0' EP'].
  assert (LK : linked M G (clone_market m, sp) (clone_market m', sp')).
  { intros J j' HJ. assert (E1 : forall i, pr (clone_market m, sp) i = nth i p0 0) by (intros i; unfold pr; f_equal; exact EP).
    assert (E1' : forall i, pr (clone_market m', sp') i = nth i p0' 0) by (intros i; unfold pr; f_equal; exact EP').
    split; [intros i Hi; rewrite E1, E1'; eapply HE; eassumption|]. cbn [cats_of fst].
    assert (CS : forall m0 i, cvalues (cat_at (clone_market m0) i) = sort_desc (cvalues (cat_at m0 i))) by (intros; rewrite clone_at; reflexivity).
    assert (PA : Permutation (agents_of (clone_market m) J) (agents_of m J)).
    { unfold agents_of. clear -CS. induction J as [|i J IH]; [constructor|]. cbn [map concat]. rewrite CS.
      apply Permutation_app; [apply sort_desc_perm|assumption]. }
    destruct (HA _ _ HJ) as [[i [-> E]]|(PM & AD & VB)].
    - left. exists i. split; [reflexivity|]. rewrite !CS, E. reflexivity.
    - right. assert (PM' : Permutation (agents_of m J) (cvalues (cat_at (clone_market m') j'))).
      { rewrite CS. eapply perm_trans; [apply Permutation_sym; exact PM|]. apply Permutation_sym, sort_desc_perm. }
      split; [|split; [|split]].
      + eapply perm_trans; [exact PA|exact PM'].
      + apply desc_differ; [rewrite CS; apply sort_desc_desc|]. eapply differ_perm; [exact PM'|]. apply all_different_differ. assumption.
      + intros i Hi. rewrite CS. apply sort_desc_desc.
      + intros v Hv. assert (IV := Permutation_in _ (Permutation_sym PM') Hv). destruct (VB v IV) as [V1 V2].
        split; [|assumption]. rewrite E1'. rewrite Forall_forall in HF'.
        assert (J <> []) by (eapply (proj1 rg_nonempty); eassumption). destruct J as [|i J]; [contradiction|].
        assert (X : nth j' p0' 0 <= - M); [|lra]. apply HF'. apply nth_In. rewrite HL'. apply IR'.
        eapply NG; [exact HJ|left; reflexivity]. }
  assert (RS : csize (cat_at (clone_market m') (tindex t')) = csize (cat_at (clone_market m) (tindex t))).
  { exact (linked_root M t t' G HR _ _ LK). }
  assert (CH : tchildren t = [] <-> tchildren t' = []).
  { inversion HR as [i i' ch ch' G' HG]; subst. simpl. eapply rg_nil_iff. eassumption. }
  destruct (tree_optimal_trade_errors (clone_market m) t) as [[o [Ho NO]]|[Ho [X1 X2]]];
  destruct (tree_optimal_trade_errors (clone_market m') t') as [[o' [Ho' NO']]|[Ho' [X1' X2']]].
  - rewrite Ho, Ho'. cbn [bind]. rewrite Hsp, Hsp'. cbn [bind].
    destruct (loop_sim M _ _ t t' G rs rs' SU SU' HD HD' HR fuel _ _ _ _ LK G0 G0') as [[T T']|(s1 & s1' & T & T' & F & [S1 G1] & [S1' G1'])];
      unfold market in *; rewrite T, T'; cbn [bind]; [exact I|].
    unfold new_tree_trade.
    destruct (deals_explained_ok (cats_of s1) (prices_of s1) t) as (k1 & k2 & Y & _); [rewrite (g_prices _ _ _ _ G1); apply SU|].
    destruct (deals_explained_ok (cats_of s1') (prices_of s1') t') as (k1' & k2' & Y' & _); [rewrite (g_prices _ _ _ _ G1'); apply SU'|].
    unfold cats_of, prices_of in Y, Y'. rewrite Y, Y'. cbn [bind fst snd tt_deals tt_prices tt_cats].
    split; [symmetry; apply (proj1 (rg_deals (fst s1) (fst s1')) _ _ _ HR); apply (final_sizes G s1 s1' F)|].
    intros J j' HJ. destruct (F _ _ HJ) as [FP FA]. split; [|exact FA]. intros i Hi.
    destruct (NG _ _ _ HJ Hi) as [N1 N2]. exists (nth i (prices_of s1) 0), (nth j' (prices_of s1') 0).
    split; [apply nth_error_nth'; fold (prices_of s1); rewrite (g_prices _ _ _ _ G1); auto|].
    split; [apply nth_error_nth'; fold (prices_of s1'); rewrite (g_prices _ _ _ _ G1'); auto|]. apply FP. assumption.
  - exfalso. apply CH in X1'. rewrite RS in X2'. exact (NO (conj X1' X2')).
  - exfalso. apply CH in X1. rewrite <- RS in X2. exact (NO' (conj X1 X2)).
  - rewrite Ho, Ho'. reflexivity.
Qed.
