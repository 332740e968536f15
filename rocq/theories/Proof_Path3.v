(** * The tree auction of a path is a walk on size vectors (for C71) *)

From Coq Require Import String List Arith Lia QArith Lqa Permutation Sorted Bool.
From Verif Require Import Base Model_Agents Model_Trade Model_Prices Model_Market Model_Ascending Model_RecipeTree Model_TreeAuction
  Spec_Market Spec_Trade Spec_Ascending Spec_RecipeTree Spec_TreeAuction Spec_Path
  Proof_Market Proof_Trade Proof_Prices Proof_Tree Proof_Tree3 Proof_TA1 Proof_TA2 Proof_TA3 Proof_TA7
  Proof_Ascending Proof_Ascending2 Proof_Path1 Proof_Path2.
Import ListNotations.
Open Scope Q_scope.

Lemma sdesc_nth : forall l i j d, sdesc l -> (i < j < length l)%nat -> nth j l d < nth i l d.
Proof.
  induction l as [|a l IH]; intros i j d H Hij; simpl in Hij; [lia|]. inversion H as [|? ? H1 H2]; subst.
  destruct j as [|j]; [lia|]. destruct i as [|i]; cbn [nth].
  - rewrite Forall_forall in H2. apply H2. apply nth_In. lia.
  - apply IH; [assumption|lia].
Qed.

Lemma cat_shrink : forall m ns j, cat_at (shrink m ns) j = mkCat (cname (nth j m dcat)) (firstn (nth j ns 0%nat) (vals m j)).
Proof.
  intros m ns j. unfold cat_at. destruct (lt_dec j (length m)) as [L|L].
  - unfold shrink. apply nth_map_seq. assumption.
  - rewrite nth_overflow by (rewrite shrink_length; lia). rewrite vals_out, firstn_nil by lia.
    rewrite nth_overflow by lia. reflexivity.
Qed.

Lemma size_shrink : forall m ns j, sizes_ok m ns -> csize (cat_at (shrink m ns) j) = nth j ns 0%nat.
Proof. intros m ns j [_ H]. rewrite cat_shrink. unfold csize. simpl. apply firstn_length_le. apply H. Qed.

Lemma tch_ext : forall f g l i, (forall j, f j = g j) -> tch f i l = tch g i l.
Proof.
  intros f g l. induction l as [|j l IH]; intros i H; cbn [tch]; [reflexivity|]. rewrite !H.
  destruct (_ || _); [reflexivity|]. apply IH. assumption.
Qed.

Lemma last_cons_ne : forall (l : list Q) n L, (0 < n <= length L)%nat -> l = firstn n L ->
  l <> [] /\ match l with [] => False | _ => True end.
Proof.
  intros l n L H E. assert (X : length l = n) by (rewrite E; apply firstn_length_le; lia).
  destruct l; [simpl in X; lia|]. split; [discriminate|exact I].
Qed.

Section Sim.
  Variables (M : Q) (m : market) (recipe : list nat) (i0 : nat) (l0 : list nat).
  Hypothesis HM : 0 < M.
  Hypothesis Hl : length recipe = length m.
  Hypothesis B : binary recipe.
  Hypothesis Hr : Permutation (i0 :: l0) (relevant_indices recipe).
  Hypothesis HSD : forall j, sdesc (vals m j).
  Hypothesis HV : forall j v, In v (vals m j) -> - M < v.
  Let idx := relevant_indices recipe.
  Let t := path_tree i0 l0.
  Let ch := fun ns : list nat => tch (fun j => nth j ns 0%nat) i0 l0.
  Hypothesis SU : setup (length m) t [recipe].

  Record rel (s : tree_state) (ns : list nat) : Prop := mkRel {
    rl_ok : sizes_ok m ns;
    rl_cats : cats_of s = shrink m ns;
    rl_in : forall j, In j idx -> Proof_TA2.pr s j == pr M m ns j;
    rl_out : forall j, (j < length m)%nat -> ~ In j idx -> nth j ns 0%nat = length (vals m j) /\ Proof_TA2.pr s j <= - M
  }.

  Lemma rel_sum : forall s ns S, rel s ns -> good (length m) [recipe] s S -> S == psum M m recipe ns.
  Proof.
    intros s ns S R G. rewrite <- (g_sums _ _ _ _ G recipe (or_introl eq_refl)).
    rewrite dot_wdot by (rewrite (g_prices _ _ _ _ G); auto). unfold psum. apply wdot_ext.
    intros j Hj Hp. apply (rl_in _ _ R). apply relevant_In. auto.
  Qed.

  Lemma idx_in : forall j, In j idx <-> In j (i0 :: l0).
  Proof. intros j. split; apply Permutation_in; [symmetry|]; exact Hr. Qed.

  Lemma ch_idx : forall ns, In (ch ns) idx.
  Proof. intros. apply idx_in. apply tch_In. Qed.

  Lemma idx_lt : forall j, In j idx -> (j < length m)%nat.
  Proof. intros j H. apply relevant_In in H. lia. Qed.

  Lemma rel_chosen : forall s ns, rel s ns -> chosen t s = [ch ns].
  Proof.
    intros s ns R. unfold chosen, t. rewrite largest_path. f_equal. apply tch_ext.
    intros j. rewrite (rl_cats _ _ R). apply size_shrink. apply (rl_ok _ _ R).
  Qed.

  Lemma rel_sz : forall s ns j, rel s ns -> sz s j = nth j ns 0%nat.
  Proof. intros s ns j R. unfold sz. rewrite (rl_cats _ _ R). apply size_shrink. apply (rl_ok _ _ R). Qed.

  (** The planned price of a non-empty category is the price after the departure of its lowest agent. *)
  Lemma rel_tgt : forall s ns, rel s ns -> (0 < nth (ch ns) ns 0)%nat ->
    tgt M (cat_at (cats_of s) (ch ns)) = pr M m (dec (ch ns) ns) (ch ns).
  Proof.
    intros s ns R P. rewrite (rl_cats _ _ R), cat_shrink. unfold tgt. cbn [cvalues].
    assert (O := proj2 (rl_ok _ _ R) (ch ns)).
    destruct (firstn (nth (ch ns) ns 0%nat) (vals m (ch ns))) as [|v l] eqn:E.
    { exfalso. assert (X : length (firstn (nth (ch ns) ns 0%nat) (vals m (ch ns))) = nth (ch ns) ns 0%nat) by (apply firstn_length_le; lia).
      rewrite E in X. simpl in X. lia. }
    rewrite <- E. unfold pr. rewrite nth_dec_same. apply last_firstn. lia.
  Qed.

  (** A category whose price is that of its last departure is not beaten. *)
  Lemma not_beaten : forall ns j p, sizes_ok m ns -> p <= pr M m ns j -> beat (cat_at (shrink m ns) j) p = cat_at (shrink m ns) j.
  Proof.
    intros ns j p O H. destruct (beat_cases (cat_at (shrink m ns) j) p) as [[_ E]|(_ & Hn & Hlast & _)]; [assumption|exfalso].
    rewrite cat_shrink in Hn, Hlast. cbn [cvalues] in *. assert (Oj := proj2 O j).
    assert (P : (0 < nth j ns 0)%nat) by (destruct (nth j ns 0%nat); [destruct Hn; reflexivity|lia]).
    rewrite (last_firstn _ _ _ _ (- M)) in Hlast by lia. unfold pr in H.
    destruct (le_lt_dec (length (vals m j)) (nth j ns 0%nat)) as [L|L].
    - rewrite (nth_overflow (vals m j) (- M) L) in H.
      assert (X := HV j (nth (nth j ns 0 - 1)%nat (vals m j) (- M)) ltac:(apply nth_In; lia)). lra.
    - assert (X := sdesc_nth (vals m j) (nth j ns 0 - 1)%nat (nth j ns 0%nat) (- M) (HSD j) ltac:(lia)). lra.
  Qed.

  Lemma beaten_lowest : forall ns i p, sizes_ok m ns -> (0 < nth i ns 0)%nat -> (i < length m)%nat ->
    p == pr M m (dec i ns) i -> beat (cat_at (shrink m ns) i) p = cat_at (shrink m (dec i ns)) i.
  Proof.
    intros ns i p O P Hi H. assert (Oi := proj2 O i). rewrite !cat_shrink, nth_dec_same.
    unfold beat, beaten. cbn [cvalues cname].
    destruct (firstn (nth i ns 0%nat) (vals m i)) as [|v l] eqn:E.
    { exfalso. assert (X : length (firstn (nth i ns 0%nat) (vals m i)) = nth i ns 0%nat) by (apply firstn_length_le; lia).
      rewrite E in X. simpl in X. lia. }
    rewrite <- E. rewrite (last_firstn _ _ _ _ (- M)) by lia.
    unfold pr in H. rewrite nth_dec_same in H.
    destruct (Qle_bool_reflect (nth (nth i ns 0 - 1)%nat (vals m i) (- M)) p) as [X|X]; [|exfalso; apply X; lra].
    f_equal. destruct (nth i ns 0%nat) as [|k] eqn:Ek; [lia|]. cbn [Nat.sub]. rewrite Nat.sub_0_r.
    apply removelast_firstn. lia.
  Qed.

  Lemma psum_dec1 : forall ns, psum M m recipe (dec (ch ns) ns)
    == psum M m recipe ns + (pr M m (dec (ch ns) ns) (ch ns) - pr M m ns (ch ns)).
  Proof.
    intros ns. assert (C := ch_idx ns). rewrite (psum_dec M m recipe) by (apply relevant_In in C; tauto).
    rewrite (relevant_one _ _ B C), Qn_1. unfold pr at 2. rewrite nth_dec_same. ring.
  Qed.

  Definition finished (s' : tree_state) (ns : list nat) (stop : option nat) : Prop :=
    cats_of s' = shrink m ns /\ forall j, In j idx -> Proof_TA2.pr s' j == nth j (final_prices M m recipe ns stop) 0.

  Lemma fp_nth : forall ns j, (j < length m)%nat -> nth j (prices_of M m ns) 0 = pr M m ns j.
  Proof. intros. unfold prices_of. apply nth_map_seq. assumption. Qed.

  Lemma sim_step : forall s ns S b s', rel s ns -> good (length m) [recipe] s S -> tree_round M t s = Ok (b, s') ->
    (b = true /\ tE i0 ns /\ finished s' ns None)
    \/ (b = true /\ ~ tE i0 ns /\ 0 <= psum M m recipe (dec (ch ns) ns) /\ finished s' ns (Some (ch ns)))
    \/ (b = false /\ ~ tE i0 ns /\ psum M m recipe (dec (ch ns) ns) < 0 /\ rel s' (dec (ch ns) ns)
        /\ exists S', good (length m) [recipe] s' S').
  Proof.
    intros s ns S b s' R G H. assert (ES := rel_sum _ _ _ R G).
    assert (C := ch_idx ns). assert (CL := idx_lt _ C). assert (CH := rel_chosen _ _ R).
    destruct (round_inv _ _ _ _ _ _ _ _ SU G H) as [(-> & -> & Z)|[d [MV [G' D]]]].
    - left. split; [reflexivity|]. unfold t in Z. rewrite path_index in Z. rewrite (rel_sz _ _ _ R) in Z.
      split; [exact Z|]. split; [apply (rl_cats _ _ R)|]. intros j Hj. rewrite (rl_in _ _ R j Hj).
      cbn [final_prices]. rewrite fp_nth by (apply idx_lt; assumption). reflexivity.
    - right. assert (RT := mv_root _ _ _ _ _ _ MV). unfold t in RT. rewrite path_index, (rel_sz _ _ _ R) in RT.
      assert (NE : ~ tE i0 ns) by (unfold tE; lia).
      assert (CP : (0 < nth (ch ns) ns 0)%nat) by (apply (tch_pos (fun j => nth j ns 0%nat)); exact RT).
      assert (TG := rel_tgt _ _ R CP).
      assert (PC := mv_chosen _ _ _ _ _ _ MV). rewrite CH in PC. specialize (PC _ (or_introl eq_refl)).
      assert (TC := mv_target _ _ _ _ _ _ MV). rewrite CH in TC. specialize (TC _ (or_introl eq_refl)). rewrite TG in TC.
      assert (PO := mv_other _ _ _ _ _ _ MV). rewrite CH in PO.
      assert (PS := psum_dec1 ns). assert (PR := rl_in _ _ R _ C).
      destruct D as [(-> & Hd & HC)|(-> & Hd & HC)].
      + left. split; [reflexivity|]. split; [assumption|]. split; [rewrite PS; lra|]. split; [rewrite HC; apply (rl_cats _ _ R)|].
        intros j Hj. cbn [final_prices]. destruct (Nat.eq_dec (ch ns) j) as [<-|Hne].
        * rewrite nth_set_nth_same by (rewrite prices_length; assumption).
          assert (BE := bal_eq M m recipe Hl ns (ch ns)). rewrite (relevant_one _ _ B C), Qn_1 in BE.
          specialize (BE ltac:(lia)). rewrite PC. lra.
        * rewrite nth_set_nth_other by assumption. rewrite PO by (intros [X|[]]; contradiction).
          rewrite fp_nth by (apply idx_lt; assumption). apply (rl_in _ _ R). assumption.
      + right. split; [reflexivity|]. split; [assumption|].
        assert (ED : d == pr M m (dec (ch ns) ns) (ch ns) - pr M m ns (ch ns)).
        { destruct (mv_min _ _ _ _ _ _ MV) as [X|[i [Hi X]]]; [lra|]. rewrite CH in Hi. destruct Hi as [<-|[]].
          rewrite TG in X. lra. }
        split; [rewrite PS; lra|]. split; [|eauto].
        assert (EC : Proof_TA2.pr s' (ch ns) == pr M m (dec (ch ns) ns) (ch ns)) by (rewrite PC; lra).
        split.
        * apply dec_ok. apply (rl_ok _ _ R).
        * apply list_ext_nth with (d := dcat).
          { rewrite (g_cats _ _ _ _ G'), shrink_length. reflexivity. }
          intros j Hj. rewrite (g_cats _ _ _ _ G') in Hj.
          change (cat_at (cats_of s') j = cat_at (shrink m (dec (ch ns) ns)) j).
          rewrite HC, (rl_cats _ _ R). destruct (Nat.eq_dec (ch ns) j) as [<-|Hne].
          -- apply beaten_lowest; auto. apply (rl_ok _ _ R).
          -- rewrite not_beaten.
             ++ rewrite !cat_shrink. rewrite nth_dec_other by assumption. reflexivity.
             ++ apply (rl_ok _ _ R).
             ++ rewrite PO by (intros [X|[]]; contradiction). destruct (in_dec Nat.eq_dec j idx) as [Y|Y].
                ** rewrite (rl_in _ _ R j Y). lra.
                ** destruct (rl_out _ _ R j Hj Y) as [E1 E2]. unfold pr. rewrite E1, nth_overflow by lia. assumption.
        * intros j Hj. destruct (Nat.eq_dec (ch ns) j) as [<-|Hne]; [assumption|].
          rewrite PO by (intros [X|[]]; contradiction). rewrite (rl_in _ _ R j Hj).
          unfold pr. rewrite nth_dec_other by assumption. reflexivity.
        * intros j Hj Hn. assert (Hne : ch ns <> j) by (intros <-; contradiction).
          destruct (rl_out _ _ R j Hj Hn) as [E1 E2]. rewrite nth_dec_other by assumption. split; [assumption|].
          rewrite PO by (intros [X|[]]; contradiction). assumption.
  Qed.

  Lemma sim_loop : forall fuel s ns S s', rel s ns -> good (length m) [recipe] s S -> tree_loop M fuel t s = Ok s' ->
    exists ns' stop, walk (psum M m recipe) ch (tE i0) ns ns' stop /\ finished s' ns' stop.
  Proof.
    induction fuel as [|fuel IH]; intros s ns S s' R G H; [discriminate|].
    cbn [tree_loop] in H. apply bind_Ok in H. destruct H as [[b s1] [HR H]]. cbn [fst snd] in H.
    destruct (sim_step _ _ _ _ _ R G HR) as [(-> & HE & HF)|[(-> & HE & H0 & HF)|(-> & HE & H0 & R' & S' & G')]].
    - injection H; intros <-. exists ns, None. split; [constructor; assumption|assumption].
    - injection H; intros <-. exists ns, (Some (ch ns)). split; [constructor; assumption|assumption].
    - destruct (IH _ _ _ _ R' G' H) as (ns' & stop & W & HF). exists ns', stop. split; [|assumption].
      constructor 3; assumption.
  Qed.
End Sim.
