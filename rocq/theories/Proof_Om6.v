(** * The old multi-recipe auction with disjoint recipes: every recipe runs its own ascending auction *)

From Coq Require Import String List Arith Lia QArith Lqa Permutation Sorted Bool Qround.
From Verif Require Import Base Model_Agents Model_Trade Model_Prices Model_Market Model_RecipeTree Model_TreeAuction
  Model_Ascending Model_OldMulti Spec_Market Spec_RecipeTree Spec_TreeAuction Spec_Trade Spec_Path Spec_OldMulti
  Proof_Market Proof_Trade Proof_Tree Proof_Tree2 Proof_Tree3 Proof_TA1 Proof_TA2 Proof_TA3 Proof_TA7 Proof_Ascending Proof_Ascending2
  Proof_Path2 Proof_Path3 Proof_Path4 Proof_Om1 Proof_Om2 Proof_Om3 Proof_Om4 Proof_Om5.
Import ListNotations.
Open Scope Q_scope.

Section Tracks.
  Variables (M v : Q) (m' : market) (rs : list (list nat)) (iter : list nat -> list nat).
  Let n := length m'.
  Hypothesis HM : 0 < M.
  Hypothesis V0 : 0 <= v.
  Hypothesis VB : forall j x, In x (vals m' j) -> x <= v.
  Hypothesis VQ : Qn n * v < M.
  Hypothesis HSD : forall j, sdesc (vals m' j).
  Hypothesis MS : msetup n rs [] (map relevant_indices rs).
  Hypothesis IT : set_order iter.
  Hypothesis KO : keeps_order iter.
  Hypothesis DJ : disjoint rs.

  Definition size (s : tree_state) (c : nat) : nat := csize (cat_at (cats_of s) c).

  (** The sizes as the auction of recipe [r] alone sees them. *)
  Definition proj (r : list nat) (s : tree_state) : list nat :=
    map (fun j => if (0 <? nth j r 0)%nat then size s j else length (vals m' j)) (seq 0 n).

  (** The price of [c] is the value of the last agent who left, or the initial one if nobody left. *)
  Definition settled (s : tree_state) (c : nat) : Prop :=
    (size s c = length (vals m' c) /\ pr s c <= - M)
    \/ ((size s c < length (vals m' c))%nat /\ pr s c == nth (size s c) (vals m' c) (- M)).

  Record tracks (s : tree_state) : Prop := mkTracks {
    tk_pfx : forall i, pfx (cvalues (cat_at (cats_of s) i)) (vals m' i);
    tk_above : forall i x, In x (cvalues (cat_at (cats_of s) i)) -> pr s i < x;
    tk_capped : forall i, pr s i <= v;
    tk_walk : forall r, In r rs -> walks M m' r (sizes0 m') (proj r s);
    tk_settled : forall r c main, In r rs -> choice r (proj r s) = Ok main -> (0 < nth c r 0)%nat -> c <> main -> settled s c
  }.

  Lemma rs_binary : forall r, In r rs -> binary_recipe n r.
  Proof. intros r Hr. assert (B := ms_binary _ _ _ _ MS). rewrite Forall_forall in B. auto. Qed.

  Lemma rs_bin : forall r, In r rs -> binary r.
  Proof. intros r Hr. apply binary_forall. apply (rs_binary r Hr). Qed.

  Lemma used_lt : forall r c, In r rs -> (0 < nth c r 0)%nat -> (c < n)%nat.
  Proof.
    intros r c Hr Hc. destruct (rs_binary r Hr) as [L _]. destruct (lt_dec c n) as [X|X]; [assumption|].
    rewrite nth_overflow in Hc by lia. lia.
  Qed.

  Lemma proj_length : forall r s, length (proj r s) = n.
  Proof. intros. unfold proj. rewrite map_length, seq_length. reflexivity. Qed.

  Lemma proj_nth : forall r s j, (j < n)%nat -> nth j (proj r s) 0%nat = if (0 <? nth j r 0)%nat then size s j else length (vals m' j).
  Proof. intros. unfold proj. apply nth_map_seq. assumption. Qed.

  Lemma proj_used : forall r s j, In r rs -> (0 < nth j r 0)%nat -> nth j (proj r s) 0%nat = size s j.
  Proof.
    intros r s j Hr Hj. rewrite proj_nth by (eapply used_lt; eassumption). apply Nat.ltb_lt in Hj. rewrite Hj. reflexivity.
  Qed.

  Lemma size_le : forall s c, tracks s -> (size s c <= length (vals m' c))%nat.
  Proof.
    intros s c T. assert (P := tk_pfx _ T c). unfold pfx in P. unfold size, csize. rewrite P, firstn_length. lia.
  Qed.

  Lemma proj_ok : forall r s, tracks s -> sizes_ok m' (proj r s).
  Proof.
    intros r s T. split; [apply proj_length|]. intros j. destruct (lt_dec j n) as [L|L].
    - rewrite proj_nth by assumption. destruct (0 <? nth j r 0)%nat; [apply size_le; assumption|lia].
    - rewrite nth_overflow by (rewrite proj_length; lia). lia.
  Qed.

  (** ** The chosen categories *)

  Lemma choice_argmax : forall r s, In r rs -> choice r (proj r s) = argmax (size_key (cats_of s)) (relevant_indices r).
  Proof.
    intros r s Hr. unfold choice. apply argmax_ext. intros y Hy. unfold ratio.
    rewrite (relevant_one r y (rs_bin r Hr) Hy). apply relevant_In in Hy. rewrite proj_used by (assumption || apply Hy).
    rewrite size_key_at, Qn_1. unfold size. field.
  Qed.

  Lemma mains_choice : forall s mains, mains_of iter (cats_of s) (map relevant_indices rs) mains ->
    forall k, (k < length rs)%nat -> choice (nth k rs []) (proj (nth k rs []) s) = Ok (nth k mains 0%nat).
  Proof.
    intros s mains MO k Hk. assert (X := Forall2_nth _ _ _ _ _ k (relevant_indices []) 0%nat MO).
    rewrite map_length in X. specialize (X Hk). rewrite map_nth in X. rewrite KO in X by apply relevant_sorted.
    rewrite choice_argmax by (apply nth_In; assumption). exact X.
  Qed.

  Lemma main_used : forall r s main, choice r (proj r s) = Ok main -> (0 < nth main r 0)%nat.
  Proof. intros r s main H. apply choice_spec in H. apply H. Qed.

  Lemma main_In : forall s mains r main, mains_of iter (cats_of s) (map relevant_indices rs) mains -> In r rs ->
    choice r (proj r s) = Ok main -> In main mains /\ forall c, In c mains -> (0 < nth c r 0)%nat -> c = main.
  Proof.
    intros s mains r main MO Hr C. destruct (In_nth _ _ [] Hr) as [k [Hk E]].
    assert (X := mains_choice s mains MO k Hk). rewrite E, C in X. injection X; intros X'. 
    assert (ML := mains_length _ _ _ _ _ _ _ MS MO). split; [rewrite X'; apply nth_In; lia|].
    intros c Hc Hp. destruct (In_nth _ _ 0%nat Hc) as [j [Hj Ej]]. rewrite ML in Hj.
    assert (Y := mains_choice s mains MO j Hj). apply main_used in Y. rewrite Ej in Y.
    assert (j = k). { apply (DJ c); split; auto. rewrite E. assumption. } subst j. congruence.
  Qed.

  (** ** The price sums *)

  (** Either some other category of the recipe has not lost anybody, or all other prices agree. *)
  Lemma others : forall s r main, tracks s -> In r rs -> choice r (proj r s) = Ok main ->
    (exists c, (0 < nth c r 0)%nat /\ c <> main /\ size s c = length (vals m' c) /\ pr s c <= - M)
    \/ (forall c, (0 < nth c r 0)%nat -> c <> main -> pr s c == PR M m' (proj r s) c).
  Proof.
    intros s r main T Hr C.
    destruct (existsb (fun c => negb (c =? main)%nat && (size s c =? length (vals m' c))%nat) (relevant_indices r)) eqn:E.
    - left. apply existsb_exists in E. destruct E as [c [Hc E]]. apply andb_true_iff in E. destruct E as [E1 E2].
      apply negb_true_iff, Nat.eqb_neq in E1. apply Nat.eqb_eq in E2. apply relevant_In in Hc. exists c. split; [apply Hc|].
      split; [assumption|]. split; [assumption|]. destruct (tk_settled _ T r c main Hr C (proj2 Hc) E1) as [[_ X]|[X _]]; [assumption|lia].
    - right. intros c Hc Hn. unfold Proof_Ascending.pr. rewrite proj_used by assumption.
      destruct (tk_settled _ T r c main Hr C Hc Hn) as [[X _]|[_ X]]; [|assumption]. exfalso.
      assert (Y : existsb (fun c => negb (c =? main)%nat && (size s c =? length (vals m' c))%nat) (relevant_indices r) = true).
      { apply existsb_exists. exists c. split.
        - apply relevant_In. split; [|assumption]. destruct (rs_binary r Hr) as [L _]. rewrite L. eapply used_lt; eassumption.
        - apply andb_true_iff. split; [apply negb_true_iff, Nat.eqb_neq; assumption|apply Nat.eqb_eq; assumption]. }
      congruence.
  Qed.

  Lemma small_sum : forall r s j0, In r rs -> (0 < nth j0 r 0)%nat -> length (prices_of s) = n -> (forall i, pr s i <= v) ->
    pr s j0 <= - M -> dot (prices_of s) r < 0.
  Proof.
    intros r s j0 Hr Hj HL HC HP.
    assert (X := dot_bound (prices_of s) r n v j0 (- M) (rs_binary r Hr) HL HC V0 (binary_pos_one _ _ _ (rs_binary r Hr) Hj) HP). lra.
  Qed.

  Lemma relevant_len : forall r, In r rs -> (length (relevant_indices r) <= n)%nat.
  Proof.
    intros r Hr. destruct (rs_binary r Hr) as [L _]. rewrite <- L, <- (seq_length (length r) 0).
    apply NoDup_incl_length; [apply relevant_nodup|]. intros c Hc. apply relevant_In in Hc. apply in_seq. lia.
  Qed.

  Lemma fresh_psum : forall r ns j0, In r rs -> (0 < nth j0 r 0)%nat -> nth j0 ns 0%nat = length (vals m' j0) -> psum M m' r ns < 0.
  Proof.
    intros r ns j0 Hr Hj HF. apply (low_sum M m' r ns j0); auto.
    - apply rs_bin. assumption.
    - apply relevant_In. split; [|assumption]. destruct (rs_binary r Hr) as [L _]. rewrite L. eapply used_lt; eassumption.
    - unfold Proof_Ascending.pr. rewrite HF, nth_overflow by lia. reflexivity.
    - intros j x Hx. assert (A := VB j x Hx). assert (B := relevant_len r Hr).
      assert (C : Qn (length (relevant_indices r) - 1) <= Qn n) by (apply Qn_le; lia).
      assert (D := Qn_nonneg (length (relevant_indices r) - 1)).
      destruct (Qlt_le_dec x 0) as [X|X]; [nra|]. nra.
  Qed.

  (** The value of the lowest agent, from the sizes. *)
  Lemma low_nth : forall s c, tracks s -> (0 < size s c)%nat -> low (cat_at (cats_of s) c) = nth (size s c - 1) (vals m' c) (- M).
  Proof.
    intros s c T P. assert (X := tk_pfx _ T c). unfold pfx in X. unfold low. rewrite X. apply last_firstn.
    split; [exact P|]. apply (size_le s c T).
  Qed.

  Lemma psum_dec : forall s s2 r main, In r rs -> (0 < nth main r 0)%nat -> length (prices_of s2) = n ->
    (forall c, (0 < nth c r 0)%nat -> c <> main -> pr s2 c == PR M m' (proj r s) c) ->
    psum M m' r (dec main (proj r s)) == dot (prices_of s2) r + (PR M m' (dec main (proj r s)) main - pr s2 main).
  Proof.
    intros s s2 r main Hr Hm HL HE. destruct (rs_binary r Hr) as [L _]. unfold psum. rewrite dot_wdot by congruence.
    assert (Hmain : (main < length r)%nat) by (rewrite L; eapply used_lt; eassumption).
    set (g := fun j => if (j =? main)%nat then PR M m' (dec main (proj r s)) main else nth j (prices_of s2) 0).
    rewrite (wdot_ext _ g).
    - rewrite (wdot_update (fun j => nth j (prices_of s2) 0) g r main Hmain).
      + rewrite (binary_pos_one _ _ _ (rs_binary r Hr) Hm), Qn_1. unfold g. rewrite Nat.eqb_refl. unfold Proof_TA2.pr. ring.
      + intros j Hj. unfold g. apply Nat.eqb_neq in Hj. rewrite Hj. reflexivity.
    - intros j Hj Hp. unfold g. destruct (Nat.eqb_spec j main) as [->|N]; [reflexivity|].
      unfold Proof_Ascending.pr. rewrite nth_dec_other by congruence. fold (PR M m' (proj r s) j). symmetry. apply HE; assumption.
  Qed.

  Lemma low_dec : forall s r main, tracks s -> In r rs -> (0 < nth main r 0)%nat -> (0 < size s main)%nat ->
    PR M m' (dec main (proj r s)) main = low (cat_at (cats_of s) main).
  Proof.
    intros s r main T Hr Hm P. unfold Proof_Ascending.pr. rewrite nth_dec_same, proj_used by assumption. symmetry. apply low_nth; assumption.
  Qed.

  (** ** Values and the lowest one *)

  Lemma in_firstn_nth : forall (l : list Q) k x d, In x (firstn k l) -> exists j, (j < k)%nat /\ (j < length l)%nat /\ x = nth j l d.
  Proof.
    intros l k x d H. destruct (In_nth _ _ d H) as [j [Hj E]]. rewrite firstn_length in Hj. exists j.
    split; [lia|]. split; [lia|]. rewrite <- E. symmetry. clear -Hj. revert l j Hj. induction k as [|k IH]; intros l j Hj; [lia|].
    destruct l as [|a l]; [simpl in Hj; lia|]. simpl. destruct j; [reflexivity|]. apply IH. simpl in Hj. lia.
  Qed.

  Lemma low_least : forall s c x, tracks s -> In x (cvalues (cat_at (cats_of s) c)) -> low (cat_at (cats_of s) c) <= x.
  Proof.
    intros s c x T Hx. assert (P : (0 < size s c)%nat).
    { unfold size, csize. destruct (cvalues (cat_at (cats_of s) c)); [destruct Hx|simpl; lia]. }
    rewrite low_nth by assumption. assert (F := tk_pfx _ T c). unfold pfx in F. rewrite F in Hx. fold (csize (cat_at (cats_of s) c)) in Hx.
    change (csize (cat_at (cats_of s) c)) with (size s c) in Hx.
    destruct (in_firstn_nth _ _ _ (- M) Hx) as (j & J1 & J2 & ->). assert (SL := size_le s c T).
    destruct (Nat.eq_dec j (size s c - 1)) as [->|N]; [lra|].
    apply Qlt_le_weak. apply sdesc_nth; [apply HSD|lia].
  Qed.

  Lemma low_strict : forall s c x, tracks s -> In x (removelast (cvalues (cat_at (cats_of s) c))) -> low (cat_at (cats_of s) c) < x.
  Proof.
    intros s c x T Hx. assert (P : (0 < size s c)%nat).
    { unfold size, csize. destruct (cvalues (cat_at (cats_of s) c)); [destruct Hx|simpl; lia]. }
    rewrite low_nth by assumption. assert (SL := size_le s c T).
    assert (F := tk_pfx _ T c). unfold pfx in F. change (length (cvalues (cat_at (cats_of s) c))) with (size s c) in F.
    assert (R : removelast (cvalues (cat_at (cats_of s) c)) = firstn (size s c - 1) (vals m' c)).
    { rewrite F. rewrite removelast_firstn_len, firstn_length, firstn_firstn. f_equal. lia. }
    rewrite R in Hx. destruct (in_firstn_nth _ _ _ (- M) Hx) as (j & J1 & J2 & ->).
    apply sdesc_nth; [apply HSD|lia].
  Qed.

  (** ** A round *)

  Section Step.
    Variables (s s' : tree_state) (mains : list nat) (S d : Q).
    Hypothesis T : tracks s.
    Hypothesis MO : mains_of iter (cats_of s) (map relevant_indices rs) mains.
    Hypothesis NE : forall i, In i mains -> (0 < size s i)%nat.
    Hypothesis MV : mstep n rs s s' mains S d.

    Lemma new_capped : forall i, pr s' i <= v.
    Proof.
      intros i. destruct (in_dec Nat.eq_dec i mains) as [I|I].
      - rewrite (st_chosen _ _ _ _ _ _ _ MV i I). assert (X := st_target _ _ _ _ _ _ _ MV i I).
        assert (Y : low (cat_at (cats_of s) i) <= v).
        { rewrite low_nth by auto. apply (VB i). apply nth_In. assert (L := size_le s i T). specialize (NE i I). lia. }
        lra.
      - rewrite (st_other _ _ _ _ _ _ _ MV i I). apply (tk_capped _ T).
    Qed.

    Lemma main_price : forall i, In i mains -> pr s' i <= low (cat_at (cats_of s) i).
    Proof. intros i I. rewrite (st_chosen _ _ _ _ _ _ _ MV i I). assert (X := st_target _ _ _ _ _ _ _ MV i I). lra. Qed.

    (** The zero sum is reached by all recipes at once, and the auction of each recipe alone stops there too, with the same prices. *)
    Lemma cross : d == - S -> forall r main, In r rs -> choice r (proj r s) = Ok main ->
      stopped M m' r (proj r s) (Some main)
      /\ forall c, (0 < nth c r 0)%nat -> nth c (final_prices M m' r (proj r s) (Some main)) 0 == pr s' c.
    Proof.
      intros Hd r main Hr C. assert (Hm := main_used _ _ _ C). destruct (main_In s mains r main MO Hr C) as [Im Uq].
      assert (G' := st_good _ _ _ _ _ _ _ MV). assert (SUM := g_sums _ _ _ _ G' r Hr). assert (LP := g_prices _ _ _ _ G').
      assert (OT : forall c, (0 < nth c r 0)%nat -> c <> main -> pr s' c = pr s c).
      { intros c Hc Hn. apply (st_other _ _ _ _ _ _ _ MV). intros I. apply Hn. apply Uq; assumption. }
      assert (EQ : forall c, (0 < nth c r 0)%nat -> c <> main -> pr s' c == PR M m' (proj r s) c).
      { destruct (others s r main T Hr C) as [(c & Hc & Hn & _ & HP)|EQ].
        - exfalso. rewrite <- (OT c Hc Hn) in HP. assert (X := small_sum r s' c Hr Hc LP new_capped HP). lra.
        - intros c Hc Hn. rewrite (OT c Hc Hn). apply EQ; assumption. }
      assert (PD := psum_dec s s' r main Hr Hm LP EQ). rewrite (low_dec s r main T Hr Hm (NE _ Im)) in PD.
      assert (MP := main_price main Im). split.
      - exists main. split; [assumption|]. right. split; [reflexivity|]. split; [rewrite proj_used by assumption; auto|].
        rewrite PD, SUM. lra.
      - intros c Hc. assert (Hcn := used_lt r c Hr Hc). cbn [final_prices].
        destruct (Nat.eq_dec c main) as [->|N].
        + rewrite nth_set_nth_same by (rewrite prices_length; exact Hcn). unfold bal.
          rewrite (binary_pos_one _ _ _ (rs_binary r Hr) Hm), Qn_1. destruct (rs_binary r Hr) as [L _].
          rewrite prices_psum by assumption.
          assert (W : psum M m' r (proj r s) == dot (prices_of s') r + (PR M m' (proj r s) main - pr s' main)).
          { unfold psum. rewrite dot_wdot by congruence.
            set (g := fun j => if (j =? main)%nat then PR M m' (proj r s) main else nth j (prices_of s') 0).
            rewrite (wdot_ext _ g).
            - rewrite (wdot_update (fun j => nth j (prices_of s') 0) g r main) by (try (intros j Hj; unfold g; apply Nat.eqb_neq in Hj; rewrite Hj; reflexivity); rewrite L; exact Hcn).
              rewrite (binary_pos_one _ _ _ (rs_binary r Hr) Hm), Qn_1. unfold g. rewrite Nat.eqb_refl. unfold Proof_TA2.pr. ring.
            - intros j Hj Hp. unfold g. destruct (Nat.eqb_spec j main) as [->|N]; [reflexivity|]. symmetry. apply EQ; assumption. }
          rewrite W, SUM. field_simplify. lra.
        + rewrite nth_set_nth_other by congruence. unfold Proof_Ascending.prices_of. rewrite nth_map_seq by exact Hcn.
          symmetry. apply EQ; assumption.
    Qed.

    (** The round goes on: every recipe keeps its state or makes one step of its own walk. *)
    Hypothesis HC : forall i, cat_at (cats_of s') i = beat (cat_at (cats_of s) i) (pr s' i).

    Lemma new_cat : forall i,
      (cat_at (cats_of s') i = cat_at (cats_of s) i /\ forall x, In x (cvalues (cat_at (cats_of s) i)) -> pr s' i < x)
      \/ (In i mains /\ pr s' i == low (cat_at (cats_of s) i)
          /\ cvalues (cat_at (cats_of s') i) = removelast (cvalues (cat_at (cats_of s) i))
          /\ size s' i = (size s i - 1)%nat).
    Proof.
      intros i. rewrite HC. destruct (beat_cases (cat_at (cats_of s) i) (pr s' i)) as [[B E]|(B & N & L & E)]; rewrite E.
      - left. split; [reflexivity|]. intros x Hx. assert (Y := low_least s i x T Hx).
        unfold beaten in B. destruct (cvalues (cat_at (cats_of s) i)) as [|y l] eqn:EV; [destruct Hx|].
        assert (Z : pr s' i < last (y :: l) 0) by (apply Qnot_le_lt; intros K; apply Qle_bool_iff in K; congruence).
        rewrite <- EV in Z. unfold low in Y. lra.
      - right. destruct (in_dec Nat.eq_dec i mains) as [I|I].
        + assert (X := main_price i I). unfold low in X |- *. split; [assumption|]. split; [lra|]. split; [reflexivity|].
          unfold size at 1. rewrite HC, E. unfold size, csize. cbn [cvalues]. rewrite removelast_firstn_len, firstn_length. lia.
        + exfalso. rewrite (st_other _ _ _ _ _ _ _ MV i I) in L.
          assert (X : pr s i < last (cvalues (cat_at (cats_of s) i)) 0) by (apply (tk_above _ T i); apply last_In; assumption). lra.
    Qed.

    Lemma same_size : forall i, ~ In i mains -> size s' i = size s i.
    Proof. intros i I. destruct (new_cat i) as [[E _]|[J _]]; [unfold size; rewrite E; reflexivity|contradiction]. Qed.

    Lemma tracks_step : d < - S -> tracks s'.
    Proof.
      intros Hd. assert (G' := st_good _ _ _ _ _ _ _ MV). assert (LP := g_prices _ _ _ _ G').
      (* per recipe *)
      assert (CASES : forall r, In r rs -> exists main, choice r (proj r s) = Ok main
        /\ ((size s' main = size s main /\ proj r s' = proj r s)
            \/ (pr s' main == low (cat_at (cats_of s) main) /\ size s' main = (size s main - 1)%nat
                /\ proj r s' = dec main (proj r s) /\ walk_step M m' r (proj r s) (proj r s')))).
      { intros r Hr. destruct (In_nth _ _ [] Hr) as [k [Hk Ek]].
        assert (C := mains_choice s mains MO k Hk). rewrite Ek in C. set (main := nth k mains 0%nat) in *.
        exists main. split; [assumption|]. assert (Hm := main_used _ _ _ C). destruct (main_In s mains r main MO Hr C) as [Im Uq].
        assert (OS : forall c, (0 < nth c r 0)%nat -> c <> main -> size s' c = size s c).
        { intros c Hc Hn. apply same_size. intros I. apply Hn. apply Uq; assumption. }
        destruct (new_cat main) as [[E _]|(_ & EP & _ & ES)].
        - left. assert (ES : size s' main = size s main) by (unfold size; rewrite E; reflexivity). split; [assumption|].
          unfold proj. apply map_ext_in. intros c _. destruct (Nat.ltb_spec 0 (nth c r 0%nat)) as [Hc|Hc]; [|reflexivity].
          destruct (Nat.eq_dec c main) as [->|N]; [assumption|]. apply OS; assumption.
        - right. split; [assumption|]. split; [assumption|].
          assert (PD : proj r s' = dec main (proj r s)).
          { apply list_ext_nth with (d := 0%nat).
            - unfold dec. rewrite set_nth_length, !proj_length. reflexivity.
            - rewrite proj_length. intros c Hc. destruct (Nat.eq_dec c main) as [->|N].
              + rewrite nth_dec_same, !proj_used by assumption. assumption.
              + rewrite nth_dec_other by congruence. rewrite !proj_nth by assumption.
                destruct (Nat.ltb_spec 0 (nth c r 0%nat)) as [Hp|Hp]; [apply OS; assumption|reflexivity]. }
          split; [assumption|]. exists main. split; [assumption|]. split; [rewrite proj_used by assumption; apply NE; assumption|].
          split; [|assumption].
          destruct (others s r main T Hr C) as [(c & Hc & Hn & HF & _)|EQ].
          + apply (fresh_psum r _ c Hr Hc). rewrite nth_dec_other by congruence. rewrite proj_used by assumption. assumption.
          + assert (EQ' : forall c, (0 < nth c r 0)%nat -> c <> main -> pr s' c == PR M m' (proj r s) c).
            { intros c Hc Hn. rewrite (st_other _ _ _ _ _ _ _ MV); [apply EQ; assumption|]. intros I. apply Hn. apply Uq; assumption. }
            rewrite (psum_dec s s' r main Hr Hm LP EQ'), (low_dec s r main T Hr Hm (NE _ Im)).
            rewrite (g_sums _ _ _ _ G' r Hr). lra. }
      assert (OTH : forall r c main, In r rs -> choice r (proj r s) = Ok main -> (0 < nth c r 0)%nat -> c <> main -> settled s' c).
      { intros r c main Hr C Hc Hn. destruct (main_In s mains r main MO Hr C) as [Im Uq].
        assert (NI : ~ In c mains) by (intros I; apply Hn; apply Uq; assumption).
        assert (X := tk_settled _ T r c main Hr C Hc Hn). unfold settled in X |- *.
        rewrite (same_size c NI), (st_other _ _ _ _ _ _ _ MV c NI). assumption. }
      split.
      - intros i. destruct (new_cat i) as [[E _]|(_ & _ & E & _)]; rewrite E; [apply (tk_pfx _ T)|].
        apply pfx_removelast. apply (tk_pfx _ T).
      - intros i x Hx. destruct (new_cat i) as [[E A]|(_ & EP & E & _)]; rewrite E in Hx; [auto|].
        rewrite EP. apply low_strict; assumption.
      - apply new_capped.
      - intros r Hr. destruct (CASES r Hr) as (main & C & [[_ E]|(_ & _ & E & W)]).
        + rewrite E. apply (tk_walk _ T r Hr).
        + eapply walks_step; [apply (tk_walk _ T r Hr)|exact W].
      - intros r c main Hr C Hc Hn. destruct (CASES r Hr) as (main0 & C0 & [[_ E]|(EP & ES & E & W)]).
        + rewrite E in C. exact (OTH r c main Hr C Hc Hn).
        + destruct (Nat.eq_dec c main0) as [->|N]; [|exact (OTH r c main0 Hr C0 Hc N)].
          right. assert (P : (0 < size s main0)%nat) by (apply NE; apply (main_In s mains r main0 MO Hr C0)).
          assert (L := size_le s main0 T). rewrite ES. split; [lia|]. rewrite EP, low_nth by assumption. reflexivity.
    Qed.
  End Step.
End Tracks.
