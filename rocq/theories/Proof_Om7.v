(** * The old multi-recipe auction with disjoint recipes: the whole call *)

From Coq Require Import String List Arith Lia QArith Lqa Permutation Sorted Bool Qround.
From Verif Require Import Base Model_Agents Model_Trade Model_Prices Model_Market Model_RecipeTree Model_TreeAuction
  Model_Ascending Model_OldMulti Spec_Market Spec_RecipeTree Spec_TreeAuction Spec_Trade Spec_Path Spec_OldMulti
  Proof_Market Proof_Trade Proof_Tree Proof_Tree2 Proof_Tree3 Proof_TA1 Proof_TA2 Proof_TA3 Proof_TA7 Proof_Ascending Proof_Ascending2
  Proof_Path2 Proof_Path3 Proof_Path4 Proof_Om1 Proof_Om2 Proof_Om3 Proof_Om4 Proof_Om5 Proof_Om6.
Import ListNotations.
Open Scope Q_scope.

(** ** Leaving out a recipe *)

Lemma del_nth_nth : forall A k (l : list A) j d, nth j (del_nth k l) d = nth (if (j <? k)%nat then j else S j) l d.
Proof.
  induction k as [|k IH]; intros [|a l] j d.
  - destruct j; reflexivity.
  - reflexivity.
  - simpl. destruct j, (_ <? _)%nat; reflexivity.
  - cbn [del_nth]. destruct j as [|j]; [reflexivity|]. cbn [nth]. rewrite IH.
    change (S j <? S k)%nat with (j <? k)%nat. destruct (j <? k)%nat; reflexivity.
Qed.

Lemma del_disjoint : forall k rs, (k < length rs)%nat -> disjoint rs -> disjoint (del_nth k rs).
Proof.
  intros k rs Hk D c i j [I1 I2] [J1 J2]. rewrite del_nth_length in I1, J1 by assumption. rewrite del_nth_nth in I2, J2.
  assert (XI : ((if (i <? k)%nat then i else S i) < length rs)%nat) by (destruct (Nat.ltb_spec i k); lia).
  assert (XJ : ((if (j <? k)%nat then j else S j) < length rs)%nat) by (destruct (Nat.ltb_spec j k); lia).
  assert (X := D c _ _ (conj XI I2) (conj XJ J2)).
  destruct (Nat.ltb_spec i k), (Nat.ltb_spec j k); lia.
Qed.

Lemma del_In : forall k (rs : list (list nat)) r, (k < length rs)%nat -> In r (del_nth k rs) ->
  exists j, (j < length rs)%nat /\ j <> k /\ r = nth j rs [].
Proof.
  intros k rs r Hk H. destruct (In_nth _ _ [] H) as [j [Hj E]]. rewrite del_nth_length in Hj by assumption. rewrite del_nth_nth in E.
  exists (if (j <? k)%nat then j else S j). destruct (Nat.ltb_spec j k); split; try lia; split; try lia; auto.
Qed.

Lemma In_del : forall k (rs : list (list nat)) r, (k < length rs)%nat -> In r rs -> r = nth k rs [] \/ In r (del_nth k rs).
Proof.
  induction k as [|k IH]; intros [|a rs] r Hk H; simpl in Hk; try lia; simpl.
  - destruct H; auto.
  - destruct H as [H|H]; [right; left; assumption|]. destruct (IH rs r ltac:(lia) H); auto.
Qed.

Lemma del_sum : forall (f : list nat -> nat) k rs, (k < length rs)%nat -> nsum (map f rs) = (f (nth k rs []) + nsum (map f (del_nth k rs)))%nat.
Proof.
  intros f. induction k as [|k IH]; intros [|a rs] Hk; simpl in Hk; try lia; cbn [del_nth map nth];
    change (nsum (f a :: map f rs)) with (f a + nsum (map f rs))%nat; [reflexivity|].
  rewrite (IH rs) by lia. change (nsum (f a :: map f (del_nth k rs))) with (f a + nsum (map f (del_nth k rs)))%nat. lia.
Qed.

(** ** The auction of one recipe *)

Lemma single_out : forall M fuel m r, (total_agents m < fuel)%nat -> usable (length m) r ->
  let m' := clone_market m in
  exists ns stop tr, abs_loop M fuel m' r (sizes0 m') = Ok (ns, stop) /\ ascending_auction_M M fuel m r = Ok tr
    /\ new_trade (shrink m' ns) r (Some (final_prices M m' r ns stop)) = Ok tr
    /\ tcats tr = shrink m' ns /\ tprices tr = Some (final_prices M m' r ns stop).
Proof.
  intros M fuel m r HF [[L B] [c Hc]] m'.
  destruct (auction_spec M m r L) with (fuel := fuel) as (ns & stop & tr & A1 & A2 & A3 & A4 & _ & A6); [|assumption|].
  - exists c. split; [|assumption]. destruct (lt_dec c (length r)) as [X|X]; [assumption|]. rewrite nth_overflow in Hc by lia. lia.
  - exists ns, stop, tr. auto.
Qed.

Lemma single_deals : forall cats r ps tr n, length cats = n -> usable n r -> new_trade cats r ps = Ok tr ->
  (forall c, (0 < nth c r 0)%nat -> (num_of_deals tr <= csize (cat_at cats c))%nat)
  /\ forall x, (forall c, (0 < nth c r 0)%nat -> (x <= csize (cat_at cats c))%nat) -> (x <= num_of_deals tr)%nat.
Proof.
  intros cats r ps tr n HL [[L B] _] H. destruct (deals_max _ _ _ _ H) as (_ & S & MX). split.
  - intros c Hc. assert (Hlt : (c < length r)%nat) by (destruct (lt_dec c (length r)); [assumption|rewrite nth_overflow in Hc by lia; lia]).
    assert (X := S c _ _ (error_cat_at cats c ltac:(lia)) (nth_error_nth' r 0%nat Hlt)).
    rewrite (binary_pos_one n r c) in X; [unfold num_of_deals; lia|split; assumption|assumption].
  - intros x Hx. apply MX. intros i c a Hc Ha. apply cat_at_error in Hc. destruct Hc as [<- _].
    assert (E : nth i r 0%nat = a) by (apply nth_error_nth; assumption).
    destruct (Nat.eq_dec a 0) as [->|N]; [lia|]. assert (P : (0 < nth i r 0)%nat) by lia.
    assert (O := binary_pos_one n r i (conj L B) P). specialize (Hx i P). rewrite E in O. subst a. lia.
Qed.

(** ** One call *)

Section Call.
  Variables (M v : Q) (lp : list (list nat) -> result (list Q)) (iter : list nat -> list nat) (fuel : nat) (m : market).
  Let n := length m.
  Let m' := clone_market m.
  Hypothesis HM : 0 < M.
  Hypothesis V0 : 0 <= v.
  Hypothesis VB : values_below v m.
  Hypothesis VQ : Qn n * v < M.
  Hypothesis NT : no_ties m.
  Hypothesis VO : values_over (- M) m.
  Hypothesis IT : set_order iter.
  Hypothesis KO : keeps_order iter.
  Hypothesis HF : (agents_number m < fuel)%nat.

  Definition good_recipes (rs : list (list nat)) : Prop := rs <> [] /\ Forall (usable n) rs /\ disjoint rs.

  Lemma good_binary : forall rs, good_recipes rs -> Forall (binary_recipe n) rs.
  Proof. intros rs (_ & F & _). eapply Forall_impl; [|exact F]. intros r H. apply H. Qed.

  Lemma good_checked : forall rs, good_recipes rs -> recipes_checked n rs = true.
  Proof. intros rs G. apply checked_binary. split; [apply G|apply good_binary; assumption]. Qed.

  Lemma n_clone : length m' = n.
  Proof. unfold m', n. apply clone_length'. Qed.

  (** The possible ends of the loop. *)
  Record finished (rs : list (list nat)) (s : tree_state) : Prop := mkFinished {
    fd_len : length (cats_of s) = n;
    fd_pfx : forall i, pfx (cvalues (cat_at (cats_of s) i)) (vals m' i);
    fd_name : forall i, cname (cat_at (cats_of s) i) = cname (cat_at m' i);
    fd_rec : forall r, In r rs -> exists stop, walks M m' r (sizes0 m') (proj m' r s) /\ stopped M m' r (proj m' r s) stop;
    fd_prices : (forall r c, In r rs -> (0 < nth c r 0)%nat -> size s c = 0%nat)
      \/ (forall r main, In r rs -> choice r (proj m' r s) = Ok main -> stopped M m' r (proj m' r s) (Some main)
            /\ forall c, (0 < nth c r 0)%nat -> nth c (final_prices M m' r (proj m' r s) (Some main)) 0 == pr s c)
  }.

  Lemma call_disjoint : forall rs p0 sp, good_recipes rs -> feasible_prices n rs (- M) p0 -> new_sim_prices rs p0 = Ok sp ->
    (exists s, multi_loop fuel iter [] (map relevant_indices rs) (m', sp) = Ok (Finish s) /\ finished rs s)
    \/ (exists k ns, multi_loop fuel iter [] (map relevant_indices rs) (m', sp) = Ok (Drop k) /\ (k < length rs)%nat
        /\ (2 <= length rs)%nat /\ walks M m' (nth k rs []) (sizes0 m') ns /\ stopped M m' (nth k rs []) ns None).
  Proof.
    intros rs p0 sp GR F HSP. assert (B := good_binary rs GR). assert (D : disjoint rs) by apply GR.
    assert (HA := analyze_disjoint n rs B D). assert (MS := analyze_setup _ _ _ (good_checked rs GR) HA). cbn [fst snd] in MS.
    destruct (start_msetup M n m rs _ _ p0 HM eq_refl MS F) as (sp1 & E1 & E2 & G0).
    rewrite HSP in E1. injection E1; intros <-. clear E1. fold m' in G0.
    assert (MS' : msetup (length m') rs [] (map relevant_indices rs)) by (rewrite n_clone; exact MS).
    assert (VB' : forall j x, In x (vals m' j) -> x <= v).
    { intros j x Hx. apply (proj1 (vals_clone m _ x)) in Hx. destruct (cat_at_In _ _ _ Hx) as [HIn _]. exact (VB _ _ HIn Hx). }
    assert (VO' : forall j x, In x (vals m' j) -> - M < x).
    { intros j x Hx. apply (proj1 (vals_clone m _ x)) in Hx. destruct (cat_at_In _ _ _ Hx) as [HIn _]. exact (VO _ _ HIn Hx). }
    assert (VQ' : Qn (length m') * v < M) by (rewrite n_clone; exact VQ).
    assert (SD := sdesc_clone m NT : forall j, sdesc (vals m' j)).
    assert (PL : forall i, (i < n)%nat -> pr (m', sp) i <= - M).
    { intros i Hi. destruct F as [[F1 [F2 _]] _]. rewrite Forall_forall in F2. unfold Proof_TA2.pr, Proof_TA2.prices_of. cbn [snd]. rewrite E2.
      apply F2. apply nth_In. lia. }
    assert (T0 : tracks M v m' rs (m', sp)).
    { assert (FULL : forall c, size (m', sp) c = length (vals m' c)) by (intros; reflexivity).
      split.
      - intros i. unfold cats_of. cbn [fst]. unfold pfx. change (cvalues (cat_at m' i)) with (vals m' i). rewrite firstn_all. reflexivity.
      - intros i x Hx. change (In x (vals m' i)) in Hx. assert (X := VO' i x Hx).
        assert (Hi : (i < n)%nat) by (apply (proj1 (vals_clone m _ x)) in Hx; apply (cat_at_In _ _ _ Hx)). specialize (PL i Hi). lra.
      - intros i. destruct (lt_dec i n) as [L|L]; [specialize (PL i L); lra|].
        unfold Proof_TA2.pr. rewrite nth_overflow; [assumption|].
        destruct G0 as [S0 [G0 _]]. rewrite (g_prices _ _ _ _ G0). lia.
      - intros r Hr. assert (E : proj m' r (m', sp) = sizes0 m').
        { apply list_ext_nth with (d := 0%nat).
          - unfold proj, sizes0. rewrite !map_length, seq_length. reflexivity.
          - intros j Hj. unfold proj in Hj. rewrite map_length, seq_length in Hj. rewrite proj_nth by assumption. rewrite sizes0_nth, FULL.
            destruct (0 <? nth j r 0)%nat; reflexivity. }
        rewrite E. constructor.
      - intros r c main Hr _ Hc _. left. split; [apply FULL|]. apply PL. rewrite <- n_clone. eapply used_lt; eassumption. }
    assert (NTO : multi_loop fuel iter [] (map relevant_indices rs) (m', sp) <> Timeout).
    { destruct G0 as [S0 [G0 _]]. eapply multi_loop_terminates; [exact MS|exact IT|exists S0; exact G0|].
      unfold cats_of. cbn [fst]. unfold m'. rewrite left_clone. assumption. }
    destruct (multi_loop_last fuel iter [] (map relevant_indices rs)
       (fun s => invW n rs m' s /\ tracks M v m' rs s) (m', sp)
       (multi_loop fuel iter [] (map relevant_indices rs) (m', sp))) as (s1 & [IW T] & HR & NC).
    - split; [apply invW_start; assumption|assumption].
    - intros x y [IW T] Hxy. destruct (iw_good _ _ _ _ IW) as [S [G NS]].
      assert (K := multi_round_cases _ _ _ _ iter x S MS IT G). rewrite Hxy in K.
      inversion K as [| | | | |mains s' d M1 M2 M3 M4 M5 M6 E3]; subst. split; [eapply invW_continue; eassumption|].
      eapply (tracks_step M v m' rs iter); try eassumption. rewrite n_clone. exact M3.
    - reflexivity.
    - exact NTO.
    - destruct (iw_good _ _ _ _ IW) as [S [G NS]].
      assert (K := multi_round_cases _ _ _ _ iter s1 S MS IT G). rewrite HR in K. clear HR.
      remember (multi_loop fuel iter [] (map relevant_indices rs) (m', sp)) as res eqn:ER. clear ER.
      inversion K as [u U1 U2 E|mains i M1 M2 M3 E|mains M1 M2 E|mains k M1 M2 M3 M4 M5 E|mains s' d M1 M2 M3 M4 M5 M6 E|mains s' d M1 M2 M3 M4 M5 M6 E]; subst res.
      + exfalso. subst u. apply in_map_iff in U1. destruct U1 as [r [U1 Hr]]. destruct GR as (_ & FU & _). rewrite Forall_forall in FU.
        destruct (FU r Hr) as [[L _] [c Hc]]. assert (X : In c (relevant_indices r)).
        { apply relevant_In. split; [|assumption]. destruct (lt_dec c (length r)) as [Y|Y]; [assumption|]. rewrite nth_overflow in Hc by lia. lia. }
        rewrite U1 in X. destruct X.
      + destruct M2.
      + left. exists s1. split; [reflexivity|].
        assert (Z : forall r c, In r rs -> (0 < nth c r 0)%nat -> size s1 c = 0%nat).
        { intros r c Hr Hc. eapply (mains_empty n rs [] (map relevant_indices rs) iter (cats_of s1) mains MS IT M1 M2 c (relevant_indices r));
            [apply in_map; assumption|]. apply relevant_In. split; [|assumption].
          rewrite Forall_forall in B. destruct (B r Hr) as [L _]. rewrite L, <- n_clone. eapply used_lt; eassumption. }
        split.
        * apply (g_cats _ _ _ _ G).
        * apply (tk_pfx _ _ _ _ _ T).
        * apply (iw_name _ _ _ _ IW).
        * intros r Hr. exists None. split; [apply (tk_walk _ _ _ _ _ T r Hr)|]. destruct (In_nth _ _ [] Hr) as [k [Hk Ek]].
          assert (C := mains_choice m' rs iter MS' KO s1 mains M1 k Hk). rewrite Ek in C. eexists. split; [exact C|]. left.
          split; [reflexivity|]. assert (Hm := main_used _ _ _ _ C). rewrite (proj_used m' rs MS') by assumption. eapply Z; eassumption.
        * left. exact Z.
      + right. exists k, (proj m' (nth k rs []) s1). split; [reflexivity|]. split; [assumption|]. split; [assumption|].
        assert (Hr : In (nth k rs []) rs) by (apply nth_In; assumption).
        split; [apply (tk_walk _ _ _ _ _ T); assumption|].
        assert (C := mains_choice m' rs iter MS' KO s1 mains M1 k M2). eexists. split; [exact C|]. left. split; [reflexivity|].
        assert (Hm := main_used _ _ _ _ C). rewrite (proj_used m' rs MS') by assumption. exact M4.
      + left. exists s'. split; [reflexivity|].
        assert (SZ : forall c, size s' c = size s1 c) by (intros c; unfold size; rewrite M5; reflexivity).
        assert (PJ : forall r, proj m' r s' = proj m' r s1) by (intros r; unfold proj; apply map_ext; intros c; rewrite SZ; reflexivity).
        assert (M3' : mstep (length m') rs s1 s' mains S d) by (rewrite n_clone; exact M3).
        assert (CR := cross M v m' rs iter V0 VB' VQ' MS' KO D s1 s' mains S d T M1 M2 M3' M4).
        split.
        * rewrite M5. apply (g_cats _ _ _ _ G).
        * rewrite M5. apply (tk_pfx _ _ _ _ _ T).
        * rewrite M5. apply (iw_name _ _ _ _ IW).
        * intros r Hr. rewrite PJ. destruct (In_nth _ _ [] Hr) as [k [Hk Ek]].
          assert (C := mains_choice m' rs iter MS' KO s1 mains M1 k Hk). rewrite Ek in C. eexists.
          split; [apply (tk_walk _ _ _ _ _ T r Hr)|]. apply (proj1 (CR r _ Hr C)).
        * right. intros r main Hr C. rewrite PJ in C |- *. apply CR; assumption.
      + exfalso. eapply NC. reflexivity.
  Qed.
End Call.
