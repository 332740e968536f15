(** * Gain of the trade reduction for every recipe (C81) *)

From Coq Require Import String List Arith Lia QArith Lqa Permutation Sorted Bool.
From Verif Require Import Base Model_Agents Model_Trade Model_Prices Model_Market Model_Ascending Model_TradeReduction
  Spec_Market Spec_Trade Spec_Ascending Spec_TradeReduction Proof_Market Proof_Trade Proof_Prices Proof_Ascending
  Proof_Ascending2 Proof_Ascending3 Proof_Ascending4 Proof_Ascending5 Proof_Deals Proof_TR Proof_TR2 Proof_TR3 Proof_TR4 Proof_TR5 Proof_TR8.
Import ListNotations.
Open Scope Q_scope.

Lemma separated_part : forall v n q p, (n <= length v)%nat -> (q <= length v)%nat ->
  (forall x, In x (firstn n v) -> p <= x) -> (forall y, (n <= y < q)%nat -> nth y v 0 <= p) ->
  Qsum (firstn q v) - Qn q * p <= Qsum (firstn n v) - Qn n * p.
Proof.
  intros v n q p Hn Hq Ha Hb. destruct (le_lt_dec q n) as [H|H].
  - rewrite (Qsum_firstn_split q n v H).
    assert (L : length (firstn (n - q) (skipn q v)) = (n - q)%nat) by (apply firstn_length_le; rewrite skipn_length; lia).
    assert (X : Qn (n - q) * p <= Qsum (firstn (n - q) (skipn q v))).
    { rewrite <- L at 1. apply Qsum_lower. apply Forall_forall. intros x Hx. apply Ha.
      rewrite <- (firstn_skipn q (firstn n v)). apply in_or_app. right. rewrite skipn_firstn_comm. assumption. }
    assert (E : Qn n == Qn q + Qn (n - q)) by (rewrite <- Qn_plus; apply Qn_eq; lia). rewrite E. lra.
  - rewrite (Qsum_firstn_split n q v ltac:(lia)).
    assert (L : length (firstn (q - n) (skipn n v)) = (q - n)%nat) by (apply firstn_length_le; rewrite skipn_length; lia).
    assert (X : Qsum (firstn (q - n) (skipn n v)) <= Qn (q - n) * p).
    { rewrite <- L at 2. apply Qsum_upper. apply Forall_forall. intros x Hx.
      apply In_nth with (d := 0) in Hx. destruct Hx as [y [Hy <-]]. rewrite L in Hy.
      replace (nth y (firstn (q - n) (skipn n v)) 0) with (nth (n + y)%nat v 0); [apply Hb; lia|].
      rewrite <- (firstn_skipn n v) at 1. rewrite app_nth2; rewrite firstn_length_le by assumption; [|lia].
      replace (n + y - n)%nat with y by lia.
      rewrite <- (firstn_skipn (q - n) (skipn n v)) at 1. rewrite app_nth1; [reflexivity|lia]. }
    assert (E : Qn q == Qn n + Qn (q - n)) by (rewrite <- Qn_plus; apply Qn_eq; lia). rewrite E. lra.
Qed.

Section Gain.
  Variables (m : market) (recipe ns : list nat) (P : nat -> Q) (d k : nat).
  Hypothesis Hl : length recipe = length m.
  Hypothesis Hs : sorted_market m.
  Hypothesis Hok : sizes_ok m ns.
  Let n j := nth j ns 0%nat.
  Let r j := nth j recipe 0%nat.
  Let S j q := Qsum (firstn q (vals m j)).
  Hypothesis Hrd : forall j, (j < length recipe)%nat -> (d * r j <= n j)%nat.
  Hypothesis HP : wdot P recipe == 0.
  Hypothesis Hkept : forall j x, (j < length recipe)%nat -> (0 < r j)%nat -> In x (firstn (n j) (vals m j)) -> P j <= x.

  Definition tvalue j := S j (n j) * (Qn (r j * d)%nat / Qn (n j)).

  Let Hnl : forall j, (n j <= length (vals m j))%nat.
  Proof. intros j. apply Hok. Qed.

  Lemma tvalue_zero : forall j, r j = 0%nat -> tvalue j == 0.
  Proof. intros j H. unfold tvalue. rewrite H. simpl. rewrite Qn_0. unfold Qdiv. ring. Qed.

  Lemma weighted_zero : forall x, Qsum (map (fun j => Qn (x * r j)%nat * P j) (seq 0 (length recipe))) == 0.
  Proof.
    intros x. rewrite (Qsum_map_ext _ _ (fun j => Qn x * (P j * Qn (r j)))).
    - rewrite Qsum_map_scale. unfold wdot in HP. unfold r. rewrite HP. ring.
    - intros j _. rewrite Qn_mult. ring.
  Qed.

  Lemma tvalue_upper : forall j, (j < length recipe)%nat -> tvalue j <= S j (d * r j).
  Proof.
    intros j Hj. specialize (Hrd j Hj). destruct (Nat.eq_dec (n j) 0) as [Hz|Hz].
    - unfold tvalue, S. assert (Ez : (d * r j = 0)%nat) by lia. rewrite Hz, Ez. simpl. unfold Qdiv. lra.
    - unfold tvalue. assert (Hq : 0 < Qn (n j)) by (apply Qn_pos; lia).
      assert (X := top_average (vals m j) (d * r j) (n j) (vals_desc m Hs j) (conj Hrd (Hnl j))).
      fold (S j (n j)) in X. fold (S j (d * r j)) in X.
      assert (E : S j (n j) * (Qn (r j * d) / Qn (n j)) == (S j (n j) * Qn (d * r j)) / Qn (n j)).
      { rewrite !Qn_mult. field. lra. }
      rewrite E. apply Qle_shift_div_r; assumption.
  Qed.

  Lemma tsurplus_nonneg : forall j, (j < length recipe)%nat -> (0 < r j)%nat -> 0 <= S j (n j) - Qn (n j) * P j.
  Proof.
    intros j Hj Hr. unfold S.
    assert (L : length (firstn (n j) (vals m j)) = n j) by (apply firstn_length_le; apply Hnl).
    rewrite <- L at 2. assert (X : Qn (length (firstn (n j) (vals m j))) * P j <= Qsum (firstn (n j) (vals m j))); [|lra].
    apply Qsum_lower. apply Forall_forall. intros x Hx. apply Hkept; assumption.
  Qed.

  Lemma tvalue_surplus : forall j, (j < length recipe)%nat -> (0 < d)%nat ->
    tvalue j - P j * Qn (r j * d)%nat == (if (n j =? 0)%nat then 0 else (Qn (r j * d)%nat / Qn (n j)) * (S j (n j) - Qn (n j) * P j)).
  Proof.
    intros j Hj Hd. destruct (Nat.eqb_spec (n j) 0) as [Hz|Hz].
    - assert (Hrj : (r j = 0)%nat) by (specialize (Hrd j Hj); nia).
      rewrite (tvalue_zero j Hrj). rewrite Hrj. simpl. rewrite Qn_0. ring.
    - assert (Hq : 0 < Qn (n j)) by (apply Qn_pos; lia). unfold tvalue. field. lra.
  Qed.

  Definition ttotal : Q := Qsum (map tvalue (seq 0 (length recipe))).

  Lemma ttotal_upper : ttotal <= top_gain m recipe d.
  Proof.
    rewrite top_gain_seq by assumption. apply Qsum_map_le. intros j Hj. apply in_seq in Hj. apply tvalue_upper. lia.
  Qed.

  Lemma ttotal_surplus : ttotal == Qsum (map (fun j => tvalue j - P j * Qn (r j * d)%nat) (seq 0 (length recipe))).
  Proof.
    assert (Z := weighted_zero d). unfold ttotal.
    rewrite (Qsum_map_ext _ (fun j => tvalue j - P j * Qn (r j * d)%nat) (fun j => tvalue j + (-1) * (Qn (d * r j)%nat * P j))).
    - rewrite Qsum_map_plus, Qsum_map_scale, Z. ring.
    - intros j _. rewrite !Qn_mult. ring.
  Qed.

  Lemma ttotal_nonneg : (0 < d)%nat -> 0 <= ttotal.
  Proof.
    intros Hd. rewrite ttotal_surplus. apply Qsum_nonneg. apply Forall_forall. intros x Hx.
    apply in_map_iff in Hx. destruct Hx as [j [<- Hj]]. apply in_seq in Hj.
    destruct (Nat.eq_dec (r j) 0) as [Hz|Hz].
    { rewrite (tvalue_zero j Hz). rewrite Hz. simpl. rewrite Qn_0. lra. }
    rewrite tvalue_surplus by (assumption || lia). destruct (Nat.eqb_spec (n j) 0) as [Hn|Hn]; [lra|].
    assert (T := tsurplus_nonneg j ltac:(lia) ltac:(lia)).
    apply Qmult_le_0_compat; [|assumption]. apply Qle_shift_div_l; [apply Qn_pos; lia|].
    rewrite Qmult_0_l. apply Qn_nonneg.
  Qed.

  Hypothesis Hd : (0 < d)%nat.
  Hypothesis Hgap : forall j y, (j < length recipe)%nat -> (0 < r j)%nat -> (n j <= y < k * r j)%nat -> nth y (vals m j) 0 <= P j.
  Hypothesis Hup : forall j, (j < length recipe)%nat -> (n j <= (d + 1) * r j)%nat.
  Hypothesis Hen : enough k m recipe.

  Lemma tvalue_lower : forall j, (j < length recipe)%nat ->
    Qn d * (S j (k * r j) - Qn (k * r j) * P j) <= Qn (d + 1) * (tvalue j - P j * Qn (r j * d)%nat).
  Proof.
    intros j Hj. rewrite (tvalue_surplus j Hj Hd).
    assert (Hk : (k * r j <= length (vals m j))%nat) by (apply enough_nth; assumption).
    destruct (Nat.eq_dec (r j) 0) as [Hz|Hz].
    - rewrite Hz, Nat.mul_0_r, Nat.mul_0_l. assert (E0 : S j 0 == 0) by reflexivity.
      destruct (n j =? 0)%nat; rewrite E0, !Qn_0; unfold Qdiv; lra.
    - assert (T := tsurplus_nonneg j Hj ltac:(lia)). specialize (Hup j Hj). specialize (Hrd j Hj).
      destruct (Nat.eqb_spec (n j) 0) as [Hn|Hn]; [nia|].
      assert (B : S j (k * r j) - Qn (k * r j) * P j <= S j (n j) - Qn (n j) * P j).
      { apply separated_part; [apply Hnl|assumption| |].
        - intros x Hx. apply Hkept; [assumption|lia|assumption].
        - intros y Hy. apply Hgap; [assumption|lia|assumption]. }
      set (T0 := S j (n j) - Qn (n j) * P j) in *. set (U := S j (k * r j) - Qn (k * r j) * P j) in *.
      assert (Hq : 0 < Qn (n j)) by (apply Qn_pos; lia).
      assert (F : Qn d <= Qn (d + 1) * (Qn (r j * d) / Qn (n j))).
      { assert (E : Qn (d + 1) * (Qn (r j * d) / Qn (n j)) == (Qn (d + 1) * Qn (r j * d)) / Qn (n j)) by (field; lra).
        rewrite E. apply Qle_shift_div_l; [assumption|]. rewrite <- !Qn_mult. apply Qn_le. nia. }
      assert (D0 := Qn_nonneg d).
      assert (G1 : Qn d * U <= Qn d * T0).
      { rewrite (Qmult_comm (Qn d) U), (Qmult_comm (Qn d) T0). apply Qmult_le_compat_r; assumption. }
      assert (G2 : Qn d * T0 <= Qn (d + 1) * (Qn (r j * d) / Qn (n j)) * T0) by (apply Qmult_le_compat_r; assumption).
      lra.
  Qed.

  Lemma ttotal_lower : Qn d * top_gain m recipe k <= Qn (d + 1) * ttotal.
  Proof.
    rewrite ttotal_surplus, top_gain_seq by assumption. assert (Z := weighted_zero k).
    rewrite <- !Qsum_map_scale.
    assert (E : Qsum (map (fun j => Qn d * Qsum (firstn (k * nth j recipe 0%nat) (vals m j))) (seq 0 (length recipe)))
      == Qsum (map (fun j => Qn d * (S j (k * r j) - Qn (k * r j) * P j)) (seq 0 (length recipe)))).
    { rewrite (Qsum_map_ext _ (fun j => Qn d * (S j (k * r j) - Qn (k * r j) * P j))
        (fun j => Qn d * Qsum (firstn (k * nth j recipe 0%nat) (vals m j)) + (- Qn d) * (Qn (k * r j) * P j))).
      - rewrite Qsum_map_plus, (Qsum_map_scale _ (fun j => Qn (k * r j) * P j)), Z. ring.
      - intros j _. unfold S, r. ring. }
    rewrite E. apply Qsum_map_le. intros j Hj. apply in_seq in Hj. apply tvalue_lower. lia.
  Qed.
End Gain.

(** Agents that the walk puts back have at most the price as value. *)
Lemma tr_gap : forall M m recipe z o u i ns j y, length recipe = length m -> sorted_market m ->
  (forall l, (nth l ns 0 <= u * nth l recipe 0)%nat) -> sizes_ok m ns ->
  walk M m recipe z o (at_block u recipe) = Some (i, ns) -> (i < length m)%nat -> (0 < nth i recipe 0)%nat ->
  (j < length m)%nat -> (nth j ns 0 <= y < u * nth j recipe 0)%nat -> (y < length (vals m j))%nat ->
  nth y (vals m j) 0 <= fp M m recipe ns (Some i) j.
Proof.
  intros M m recipe z o u i ns j y Hl Hs Hb Hok W Hi Hri Hj Hy Hyl.
  rewrite (nth_indep (vals m j) 0 (- M) Hyl).
  assert (B : nth y (vals m j) (- M) <= pr M m ns j).
  { unfold pr. apply desc_nth; [apply vals_desc; assumption|lia|lia]. }
  destruct (Nat.eq_dec i j) as [->|Hne].
  - rewrite fp_main by assumption. eapply Qle_trans; [exact B|]. apply bal_lower; [assumption|assumption|].
    destruct (walk_last _ _ _ _ _ _ _ _ W) as [_ [[E|E] _]].
    + subst ns. rewrite at_block_nth in Hy. lia.
    + eapply not_acceptable. exact E.
  - rewrite fp_other by (auto; congruence). exact B.
Qed.

(** The walk stops inside one block. *)
Lemma walk_block : forall M m recipe z u i ns, walk M m recipe z (tr_order u recipe) (at_block u recipe) = Some (i, ns) ->
  exists b, (b < u)%nat /\ forall j, (b * nth j recipe 0 <= nth j ns 0 <= S b * nth j recipe 0)%nat.
Proof.
  intros M m recipe z. induction u as [|u IH]; intros i ns W; [discriminate|].
  change (tr_order (S u) recipe) with (pivot_categories recipe ++ tr_order u recipe) in W. rewrite walk_app in W.
  destruct (walk M m recipe z (pivot_categories recipe) (at_block (S u) recipe)) as [[i' ns']|] eqn:E.
  - inversion W; subst. exists u. split; [lia|]. intros j.
    assert (A := walk_above _ _ _ _ _ _ _ _ E j). rewrite at_block_step, at_block_nth in A.
    destruct (walk_last _ _ _ _ _ _ _ _ E) as [_ [_ B]]. specialize (B j). rewrite at_block_nth in B. lia.
  - rewrite at_block_step in W. destruct (IH _ _ W) as [b [Hb H]]. exists b. split; [lia|assumption].
Qed.

Theorem tr_gain : forall M cap m recipe z t deals rem a g, cap_suffices cap m recipe -> values_at_least (- M) m ->
  trade_reduction_M M cap m recipe z = Ok t -> optimal_trade cap m recipe true = Ok (deals, rem) ->
  gain_from_trade t a = Ok g ->
  (forall g', gain_from_trade t (negb a) = Ok g' -> g' == g)
  /\ 0 <= g <= mt_gain_from_trade deals
  /\ Qn (num_of_deals t) * mt_gain_from_trade deals <= (Qn (num_of_deals t) + 1) * g
  /\ (forall dealsz remz, optimal_trade cap m recipe z = Ok (dealsz, remz) ->
        (Qn (mt_num_of_deals dealsz) - 1) * mt_gain_from_trade deals <= Qn (mt_num_of_deals dealsz) * g).
Proof.
  intros M cap m recipe z t deals rem a g Hcap Hv Ht Eo Hg.
  destruct (tr_deals M cap m recipe z t deals rem Hcap Hv Ht Eo) as [D1 D2].
  destruct (tr_errors M cap m recipe z) as [[_ [Hl Hp]]|[X _]]; [|congruence].
  apply has_positive in Hp.
  destruct (optimal_k _ _ _ _ _ Hl Eo) as [Hst0 Hopt].
  destruct (tr_spec M cap m recipe z Hl Hp Hv) as [k [deals' [rem' [t' [Eo' [Ek [Hst [Et [Hnt Hres]]]]]]]]].
  assert (t' = t) by congruence. subst t'. assert (deals' = deals) by congruence. subst deals'.
  rewrite Ek in *. set (m' := clone_market m) in *. set (OPT := mt_gain_from_trade deals) in *. set (d := num_of_deals t) in *.
  assert (Hl' : length recipe = length m') by (unfold m'; rewrite clone_length; assumption).
  assert (Hs' : sorted_market m') by apply clone_sorted.
  assert (Hv' : values_at_least (- M) m') by (apply values_at_least_clone; assumption).
  assert (Hcap' : cap_suffices cap m' recipe) by (apply cap_clone; assumption).
  assert (Hopt0 : 0 <= OPT).
  { rewrite Hopt. assert (X := top_gain_max cap k m' recipe true Hs' Hcap' Hst 0). unfold top_gain at 1 in X. simpl in X.
    apply X. intros i c r0 _ _. simpl. lia. }
  destruct (Nat.eq_dec d 0) as [Hz|Hz].
  - assert (G : forall y w, gain_from_trade t y = Ok w -> w = 0).
    { intros y w Hw. unfold gain_from_trade in Hw. unfold d, num_of_deals in Hz. rewrite Hz in Hw. simpl in Hw. congruence. }
    assert (g = 0) by (eapply G; eassumption). subst g.
    split; [intros g' Hg'; rewrite (G _ _ Hg'); reflexivity|]. split; [split; [apply Qle_refl|assumption]|].
    split; [rewrite Hz, Qn_0; lra|]. intros dealsz remz E. specialize (D2 _ _ E).
    assert (L : Qn (mt_num_of_deals dealsz) <= Qn 1) by (apply Qn_le; lia). rewrite Qn_1 in L.
    set (q := Qn (mt_num_of_deals dealsz)) in *. clearbody q OPT.
    assert (0 <= (1 - q) * OPT) by (apply Qmult_le_0_compat; lra). lra.
  - unfold tr_result in Hres. fold m' in Hres.
    destruct Hres as [[E0 Et0]|[E0 [u [Hu [[Ew Et0]|[i [ns [P [Ew [Hcat [Hrec [EP [HPq [Hi [Hri [Hni [Hb Hacc]]]]]]]]]]]]]]]]].
    { exfalso. apply Hz. unfold d. rewrite Et0. reflexivity. }
    { exfalso. apply Hz. unfold d. rewrite Et0. reflexivity. }
    assert (Henu : enough u m' recipe).
    { destruct Hu as [[A ->]|[_ ->]]; [assumption|apply (proj1 (proj2 Hst))]. }
    assert (Hku : (k <= u <= k + 1)%nat) by (destruct Hu as [[_ ->]|[_ ->]]; lia).
    assert (Hok : sizes_ok m' ns) by (apply (below_ok m' recipe _ Hl' (block_sizes_ok m' recipe u Hl' Henu) ns Hb)).
    assert (Hbn : forall l, (nth l ns 0 <= u * nth l recipe 0)%nat).
    { intros l. assert (X := proj2 Hb l). rewrite at_block_nth in X. exact X. }
    destruct (deals_max _ _ _ _ Hnt) as [_ [Hsup Hmax]]. fold (num_of_deals t) in Hsup, Hmax. fold d in Hsup, Hmax.
    assert (Hrd : forall j, (j < length recipe)%nat -> (d * nth j recipe 0 <= nth j ns 0)%nat).
    { apply (supports_shrink m' recipe ns d Hl' Hok). eapply supports_cat_eq; eassumption. }
    set (F := fp M m' recipe ns (Some i)).
    assert (HPn : forall j, nth j P 0 == F j) by (intros j; unfold F, fp; apply qeq_nth; assumption).
    assert (HLP : length P = length recipe /\ dot P recipe == 0).
    { assert (X := tr_sbb _ _ _ _ _ _ Ht). rewrite EP in X. exact X. }
    assert (HP0 : wdot F recipe == 0).
    { rewrite <- (proj2 HLP). rewrite dot_wdot by apply HLP. apply wdot_ext. intros j _ _. rewrite HPn. reflexivity. }
    assert (Hkept : forall j x, (j < length recipe)%nat -> (0 < nth j recipe 0)%nat -> In x (firstn (nth j ns 0%nat) (vals m' j)) -> F j <= x).
    { intros j x Hj _ Hx. apply tr_price_le; try assumption; [apply (acceptable_nonneg z); assumption|lia]. }
    assert (TG : forall y w, gain_from_trade t y = Ok w -> w == ttotal m' recipe ns d).
    { intros y w Hw. apply gain_closed with (P := P) in Hw; [|assumption|fold d; lia].
      rewrite Hw. rewrite (Forall2_length _ _ _ _ _ Hcat), shrink_length, <- Hl'.
      assert (Hn : new_trade (tcats t) recipe (Some P) = Ok t) by (rewrite <- EP; assumption).
      rewrite (Qsum_map_ext _ _ (fun j => tvalue m' recipe ns d j - (if y then 0 else F j * Qn (nth j recipe 0 * d)%nat))).
      - destruct y.
        + unfold ttotal. apply Qsum_map_ext. intros j _. ring.
        + symmetry. apply ttotal_surplus; assumption.
      - intros j Hj. apply in_seq in Hj. unfold gain_term. rewrite Hrec. fold (num_of_deals t). fold d.
        destruct (nth_error (tcats t) j) as [c|] eqn:Ec.
        2:{ apply nth_error_None in Ec. rewrite (Forall2_length _ _ _ _ _ Hcat), shrink_length in Ec. lia. }
        rewrite (nth_error_nth _ _ dcat Ec).
        destruct (Forall2_cat_nth _ _ _ _ Hcat Ec) as [c' [Hc' [_ Hq]]].
        apply shrink_nth in Hc'. destruct Hc' as [_ ->]. cbn [cvalues] in Hq.
        assert (Hsz : csize c = nth j ns 0%nat).
        { unfold csize. rewrite (qeq_length _ _ Hq). apply firstn_length_le. apply (proj2 Hok). }
        rewrite Hsz. unfold tvalue. rewrite (qeq_sum _ _ Hq). destruct y; [reflexivity|]. rewrite HPn. reflexivity. }
    assert (Eg := TG _ _ Hg).
    split; [intros g' Hg'; rewrite (TG _ _ Hg'), Eg; reflexivity|].
    destruct (walk_block _ _ _ _ _ _ _ Ew) as [b [Hbu Hbb]].
    assert (Hbd : (b <= d)%nat).
    { apply Hmax. eapply supports_cat_eq; [apply Forall2_cat_sym; eassumption|].
      apply supports_shrink; [assumption|assumption|]. intros j _. apply Hbb. }
    assert (LO : Qn d * OPT <= (Qn d + 1) * g).
    { rewrite Eg, Hopt. assert (E : Qn d + 1 == Qn (d + 1)) by (rewrite Qn_plus; reflexivity). rewrite E.
      assert (Hd0 : (0 < d)%nat) by lia. assert (Hen : enough k m' recipe) by apply (proj1 (proj2 Hst)).
      apply (ttotal_lower m' recipe ns F d k); try assumption.
      - intros j y Hj Hrj Hy. assert (Y : (k * nth j recipe 0 <= u * nth j recipe 0)%nat) by (apply Nat.mul_le_mono_r; lia).
        apply (tr_gap M m' recipe z (tr_order u recipe) u); try assumption; [lia|lia|].
        assert (X := proj1 (enough_nth _ _ _ Hl') Henu j Hj). lia.
      - intros j Hj. assert (Y : (S b * nth j recipe 0 <= (d + 1) * nth j recipe 0)%nat) by (apply Nat.mul_le_mono_r; lia).
        specialize (Hbb j). lia. }
    assert (NN : 0 <= g).
    { rewrite Eg. apply (ttotal_nonneg m' recipe ns F d); try assumption. lia. }
    split; [split|split].
    + exact NN.
    + rewrite Eg, Hopt. eapply Qle_trans; [apply (ttotal_upper m' recipe ns d); assumption|].
      apply (top_gain_max cap k m' recipe true); try assumption. apply enough_nth; [assumption|].
      intros j Hj. specialize (Hrd j Hj). assert (X := proj2 Hok j). lia.
    + exact LO.
    + intros dealsz remz E. specialize (D2 _ _ E).
      assert (L : Qn (mt_num_of_deals dealsz) <= Qn d + 1).
      { assert (E1 : Qn d + 1 == Qn (d + 1)) by (rewrite Qn_plus; reflexivity). rewrite E1. apply Qn_le. lia. }
      assert (K0 := Qn_nonneg (mt_num_of_deals dealsz)). assert (Q0 := Qn_nonneg d).
      set (qk := Qn (mt_num_of_deals dealsz)) in *. set (qd := Qn d) in *. clearbody qk qd OPT. clear - L LO Hopt0 K0 Q0.
      assert (A : qk * (qd * OPT) <= qk * ((qd + 1) * g)).
      { rewrite (Qmult_comm qk (qd * OPT)), (Qmult_comm qk ((qd+1)*g)). apply Qmult_le_compat_r; assumption. }
      assert (B : (qd + 1) * ((qk - 1) * OPT) <= qk * (qd * OPT)).
      { assert (0 <= (qd + 1 - qk) * OPT) by (apply Qmult_le_0_compat; lra). lra. }
      apply Qmult_le_l with (z := qd + 1); lra.
Qed.
