(** * Small changes of the values (C113): trade reduction *)

From Coq Require Import String List Arith Lia QArith Qabs Lqa Permutation Sorted.
From Verif Require Import Base Model_Agents Model_Prices Model_Trade Model_Market Model_Ascending Model_TradeReduction
  Spec_Market Spec_Trade Spec_Ascending Spec_TradeReduction Spec_Reorder Spec_Lipschitz Proof_Market Proof_Ascending
  Proof_Ascending2 Proof_Ascending3 Proof_Ascending4 Proof_Statics Proof_TR Proof_TR2 Proof_TR3 Proof_TR4 Proof_TR5 Proof_TA10 Proof_Better Proof_Lipschitz.
Import ListNotations.
Open Scope Q_scope.

(** ** The order of trade reduction: whole procurement-sets, and in each of them one category after the other *)

Lemma walk_split : forall M m recipe z o ns i ns', walk M m recipe z o ns = Some (i, ns') ->
  exists o1 o2, o = o1 ++ i :: o2 /\ ns' = decs o1 ns.
Proof.
  intros M m recipe z. induction o as [|a o IH]; intros ns i ns' H; cbn [walk] in H; [discriminate|].
  destruct (accepts z (psum M m recipe (dec a ns))).
  - injection H as -> ->. exists [], o. split; reflexivity.
  - destruct (IH _ _ _ H) as (o1 & o2 & -> & ->). exists (a :: o1), o2. split; reflexivity.
Qed.

Lemma decs_count : forall o ns j, nth j (decs o ns) 0%nat = (nth j ns 0 - count_occ Nat.eq_dec o j)%nat.
Proof.
  induction o as [|a o IH]; intros ns j; cbn [decs count_occ]; [lia|]. rewrite IH. destruct (Nat.eq_dec a j) as [->|N].
  - rewrite nth_dec_same. lia.
  - rewrite nth_dec_other by assumption. lia.
Qed.

Lemma count_repeat : forall a b n, count_occ Nat.eq_dec (repeat a n) b = if Nat.eq_dec a b then n else 0%nat.
Proof.
  intros a b n. induction n as [|n IH]; cbn [repeat count_occ]; [destruct (Nat.eq_dec a b); reflexivity|].
  destruct (Nat.eq_dec a b); [rewrite IH; reflexivity|assumption].
Qed.

Lemma pivots_count : forall recipe a c, count_occ Nat.eq_dec (pivot_categories_from a recipe) c = if (c <? a)%nat then 0%nat else nth (c - a) recipe 0%nat.
Proof.
  induction recipe as [|r recipe IH]; intros a c; cbn [pivot_categories_from]; [cbn [count_occ]; destruct (c <? a)%nat; [reflexivity|]; destruct (c - a)%nat; reflexivity|].
  rewrite count_occ_app, count_repeat, IH. destruct (Nat.eq_dec a c) as [->|N].
  - rewrite Nat.ltb_irrefl. destruct (Nat.ltb_spec c (S c)); [|lia]. rewrite Nat.sub_diag. cbn [nth]. lia.
  - destruct (Nat.ltb_spec c (S a)), (Nat.ltb_spec c a); try lia. replace (c - a)%nat with (S (c - S a)) by lia. reflexivity.
Qed.

Lemma pivots_sorted : forall recipe a, StronglySorted le (pivot_categories_from a recipe) /\ Forall (le a) (pivot_categories_from a recipe).
Proof.
  induction recipe as [|r recipe IH]; intros a; cbn [pivot_categories_from]; [split; constructor|].
  destruct (IH (S a)) as [A B]. assert (B' : Forall (le a) (pivot_categories_from (S a) recipe)).
  { rewrite Forall_forall in *. intros x Hx. specialize (B x Hx). lia. }
  induction r as [|r [R1 R2]]; cbn [repeat app]; [split; assumption|]. split; constructor; auto.
Qed.

Lemma sorted_split : forall l1 i l2, StronglySorted le (l1 ++ i :: l2) -> (forall x, In x l1 -> (x <= i)%nat) /\ (forall x, In x l2 -> (i <= x)%nat).
Proof.
  induction l1 as [|a l1 IH]; intros i l2 H; cbn [app] in H; inversion H as [|? ? H' HF]; subst.
  - split; [intros x []|]. rewrite Forall_forall in HF. exact HF.
  - destruct (IH _ _ H') as [A B]. split; [|assumption]. intros x [<-|Hx]; [|auto]. rewrite Forall_forall in HF. apply HF. apply in_or_app. right. left. reflexivity.
Qed.

Lemma block_split : forall (l : list nat) u o1 i o2, concat (repeat l u) = o1 ++ i :: o2 ->
  exists q l1 l2, (q < u)%nat /\ l = l1 ++ i :: l2 /\ o1 = concat (repeat l q) ++ l1.
Proof.
  intros l u. induction u as [|u IH]; intros o1 i o2 H; cbn [repeat concat] in H; [destruct o1; discriminate|].
  apply app_eq_app in H. destruct H as (l' & [[E1 E2]|[E1 E2]]).
  - destruct l' as [|x l'].
    + rewrite app_nil_r in E1. cbn [app] in E2. destruct (IH [] i o2) as (q & l1 & l2 & Q1 & Q2 & Q3); [symmetry; exact E2|].
      exists (S q), l1, l2. split; [lia|]. split; [assumption|]. cbn [repeat concat]. rewrite <- app_assoc, <- Q3, app_nil_r. congruence.
    + cbn [app] in E2. injection E2 as -> E2. exists 0%nat, o1, l'. split; [lia|]. split; [assumption|reflexivity].
  - destruct (IH l' i o2 E2) as (q & l1 & l2 & Q1 & Q2 & Q3). exists (S q), l1, l2. split; [lia|]. split; [assumption|].
    cbn [repeat concat]. rewrite <- app_assoc, <- Q3. assumption.
Qed.

Lemma count_blocks : forall (l : list nat) q c, count_occ Nat.eq_dec (concat (repeat l q)) c = (q * count_occ Nat.eq_dec l c)%nat.
Proof. intros l q c. induction q as [|q IH]; cbn [repeat concat]; [reflexivity|]. rewrite count_occ_app, IH. lia. Qed.

(** Where the walk stops: [t] whole procurement-sets below. *)
Lemma walk_shape : forall M m recipe z u i ns, walk M m recipe z (tr_order u recipe) (at_block u recipe) = Some (i, ns) ->
  exists t, (t < u)%nat /\ (forall c, (c < i)%nat -> nth c ns 0 = (t * nth c recipe 0))%nat
    /\ (forall c, (i < c)%nat -> nth c ns 0 = (S t * nth c recipe 0))%nat /\ (t * nth i recipe 0 < nth i ns 0 <= S t * nth i recipe 0)%nat.
Proof.
  intros M m recipe z u i ns H. destruct (walk_split _ _ _ _ _ _ _ _ H) as (o1 & o2 & E & ->).
  unfold tr_order in E. destruct (block_split _ _ _ _ _ E) as (q & l1 & l2 & Q1 & Q2 & ->).
  assert (PS := proj1 (pivots_sorted recipe 0)). fold (pivot_categories recipe) in PS. rewrite Q2 in PS. destruct (sorted_split _ _ _ PS) as [S1 S2].
  assert (CT : forall c, (count_occ Nat.eq_dec l1 c + count_occ Nat.eq_dec (i :: l2) c = nth c recipe 0)%nat).
  { intros c. rewrite <- count_occ_app, <- Q2. unfold pivot_categories. rewrite pivots_count. cbn [Nat.ltb Nat.leb]. rewrite Nat.sub_0_r. reflexivity. }
  assert (N : forall c, nth c (decs (concat (repeat (pivot_categories recipe) q) ++ l1) (at_block u recipe)) 0%nat
    = (u * nth c recipe 0 - (q * nth c recipe 0 + count_occ Nat.eq_dec l1 c))%nat).
  { intros c. rewrite decs_count, at_block_nth, count_occ_app, count_blocks. unfold pivot_categories. rewrite pivots_count. cbn [Nat.ltb Nat.leb]. rewrite Nat.sub_0_r. reflexivity. }
  exists (u - S q)%nat. assert (EU : exists w, u = (w + S q)%nat) by (exists (u - S q)%nat; lia). destruct EU as [w ->].
  replace (w + S q - S q)%nat with w by lia. split; [lia|]. split; [|split].
  - intros c Hc. rewrite N. assert (Z : count_occ Nat.eq_dec (i :: l2) c = 0%nat).
    { apply count_occ_not_In. intros [->|X]; [lia|]. specialize (S2 c X). lia. }
    specialize (CT c). rewrite Z in CT. replace (count_occ Nat.eq_dec l1 c) with (nth c recipe 0%nat) by lia. rewrite Nat.mul_add_distr_r. cbn [Nat.mul]. lia.
  - intros c Hc. rewrite N. assert (Z : count_occ Nat.eq_dec l1 c = 0%nat).
    { apply count_occ_not_In. intros X. specialize (S1 c X). lia. }
    rewrite Z, Nat.mul_add_distr_r. cbn [Nat.mul]. lia.
  - rewrite N. specialize (CT i). cbn [count_occ] in CT. destruct (Nat.eq_dec i i) as [_|X]; [|congruence].
    rewrite Nat.mul_add_distr_r. cbn [Nat.mul]. lia.
Qed.

(** The number of procurement-sets that the first [a] agents of category [i] begin. *)
Definition begun (recipe : list nat) (i a : nat) : nat := ((a + (nth i recipe 0 - 1)) / nth i recipe 0)%nat.

Lemma begun_mono : forall recipe i a b, (a <= b)%nat -> (begun recipe i a <= begun recipe i b)%nat.
Proof.
  intros recipe i a b H. unfold begun. destruct (nth i recipe 0%nat) as [|r]; [cbn; lia|]. apply Nat.div_le_mono; lia.
Qed.

Lemma begun_le : forall recipe i a t, (0 < nth i recipe 0)%nat -> (a <= t * nth i recipe 0)%nat -> (begun recipe i a <= t)%nat.
Proof.
  intros recipe i a t R H. unfold begun. set (r := nth i recipe 0%nat) in *.
  enough ((a + (r - 1)) / r < S t)%nat by lia. apply Nat.div_lt_upper_bound; nia.
Qed.

Lemma begun_gt : forall recipe i a t, (0 < nth i recipe 0)%nat -> (t * nth i recipe 0 < a)%nat -> (t < begun recipe i a)%nat.
Proof.
  intros recipe i a t R H. unfold begun. set (r := nth i recipe 0%nat) in *.
  enough (S t <= (a + (r - 1)) / r)%nat by lia. apply Nat.div_le_lower_bound; nia.
Qed.

Definition block_ahead (recipe : list nat) (i a j b : nat) : Prop :=
  (begun recipe j b < begun recipe i a \/ (begun recipe j b <= begun recipe i a /\ i < j))%nat.

Lemma block_asym : forall recipe i a a' j b b', used_by recipe i -> used_by recipe j ->
  block_ahead recipe i a j b -> block_ahead recipe j b' i a' -> (a <= a')%nat -> (b' <= b)%nat -> False.
Proof.
  intros recipe i a a' j b b' _ _ A B L L'. apply (begun_mono recipe i) in L. apply (begun_mono recipe j) in L'. unfold block_ahead in A, B. lia.
Qed.

(** ** The prices *)

Definition starts (M : Q) (recipe : list nat) (u : nat) (m : market) (c : nat) : Q := pr M (clone_market m) (at_block u recipe) c.

Lemma tr_prices_order : forall M cap m recipe z t deals rem P U, cap_suffices cap m recipe -> values_at_least (- M) m ->
  trade_reduction_M M cap m recipe z = Ok t -> optimal_trade cap m recipe true = Ok (deals, rem) -> deals <> [] -> tprices t = Some P ->
  enough U (clone_market m) recipe -> ~ enough (S U) (clone_market m) recipe ->
  exists f, length recipe = length m /\ (forall c, (c < length m)%nat -> nth c P 0 == f c) /\ wdot f recipe == 0
    /\ ((exists i, hd_error (pivot_categories recipe) = Some i /\ f i <= starts M recipe U m i
          /\ forall c, used_by recipe c -> c <> i -> f c == starts M recipe U m c)
        \/ in_order (block_ahead recipe) recipe (starts M recipe U m) (vals (clone_market m)) f).
Proof.
  intros M cap m recipe z t deals rem P U Hcap Hv Ht Eo NE HP EU NU.
  destruct (tr_errors M cap m recipe z) as [[_ [Hl Hpos]]|[X _]]; [|congruence].
  apply has_positive in Hpos.
  destruct (tr_spec M cap m recipe z Hl Hpos Hv) as [k [deals' [rem' [t' [Eo' [Ek [Hst [Et [_ Hres]]]]]]]]].
  assert (t' = t) by congruence. subst t'. rewrite Eo in Eo'. injection Eo' as <- <-.
  assert (K0 : (0 < k)%nat) by (rewrite <- Ek; unfold mt_num_of_deals; destruct deals; [congruence|cbn; lia]).
  unfold starts. set (m' := clone_market m) in *.
  assert (Lm' : length m' = length m) by apply clone_length.
  assert (Hl' : length recipe = length m') by congruence.
  assert (Hs' : sorted_market m') by apply Proof_Market.clone_sorted.
  assert (Hv' : values_at_least (- M) m') by (apply values_at_least_clone; assumption).
  assert (Hcap' : cap_suffices cap m' recipe) by (apply cap_clone; assumption).
  unfold tr_result in Hres. fold m' in Hres. destruct Hres as [[E0 _]|[_ [u [Hu Hw]]]]; [lia|].
  destruct Hw as [[_ E]|(i & ns & P' & Ew & _ & _ & HP' & HQ & Hi & Hri & Hni & Hbel & Hacc)]; [rewrite E in HP; discriminate|].
  assert (P' = P) by congruence. subst P'.
  assert (Henu : enough u m' recipe).
  { destruct Hu as [[A ->]|[_ ->]]; [assumption|apply (proj1 (proj2 Hst))]. }
  assert (LU : (u <= U)%nat).
  { destruct (le_lt_dec u U) as [L|L]; [assumption|exfalso]. apply NU. eapply enough_le; [|exact Henu]. lia. }
  destruct (walk_shape _ _ _ _ _ _ _ Ew) as (tt & Htt & N1 & N2 & N3).
  destruct (walk_last _ _ _ _ _ _ _ _ Ew) as (_ & ST & NLE).
  apply acceptable_nonneg in Hacc.
  set (f := fp M m' recipe ns (Some i)).
  assert (FO : forall c, (c < length m)%nat -> c <> i -> f c = pr M m' ns c).
  { intros c Hc N. unfold f. apply fp_other; [lia|congruence]. }
  assert (FM : f i = bal M m' recipe ns i) by (apply fp_main; lia).
  assert (Hir : (i < length recipe)%nat) by lia.
  assert (UP := bal_upper M m' recipe ns i Hl' Hir Hri Hacc). rewrite <- FM in UP.
  assert (BE := bal_eq M m' recipe Hl' ns i Hri). rewrite <- FM in BE.
  assert (Z : wdot f recipe == 0).
  { set (h := fun c => if Nat.eq_dec c i then f i else pr M m' ns c).
    assert (E1 : wdot f recipe == wdot h recipe).
    { apply wdot_ext. intros c Hc _. unfold h. destruct (Nat.eq_dec c i) as [->|N]; [reflexivity|]. rewrite FO by (assumption || lia). reflexivity. }
    assert (E2 : wdot h recipe == wdot (pr M m' ns) recipe + Qn (nth i recipe 0%nat) * (h i - pr M m' ns i)).
    { apply wdot_update; [lia|]. intros c N. unfold h. destruct (Nat.eq_dec c i) as [|_]; [contradiction|reflexivity]. }
    fold (psum M m' recipe ns) in E2. unfold h at 2 in E2. destruct (Nat.eq_dec i i) as [_|X]; [|congruence]. lra. }
  exists f. split; [assumption|]. split.
  { intros c Hc. unfold f, fp. clear -HQ. revert c. induction HQ as [|x y l l' H HQ IH]; intros [|c]; cbn [nth]; try reflexivity; [assumption|apply IH]. }
  split; [assumption|].
  assert (RK : forall c, (c < length m)%nat -> (nth c ns 0 <= length (vals m' c))%nat).
  { intros c Hc. assert (X := proj1 (enough_nth _ m' recipe Hl') Henu c ltac:(lia)). specialize (NLE c). rewrite at_block_nth in NLE. lia. }
  assert (SP : forall c, (c < length m)%nat -> pr M m' (at_block U recipe) c <= pr M m' ns c).
  { intros c Hc. specialize (NLE c). rewrite at_block_nth in NLE. unfold pr at 2.
    destruct (le_lt_dec (length (vals m' c)) (nth c ns 0%nat)) as [L|L].
    - rewrite (nth_overflow _ _ L). unfold pr. rewrite at_block_nth. rewrite nth_overflow; [lra|nia].
    - apply pr_le; [assumption|assumption|rewrite at_block_nth; nia|assumption]. }
  assert (SJ : forall c, desc (vals m' c)).
  { intros c. destruct (lt_dec c (length m')) as [L|L]; [|rewrite vals_out by lia; constructor].
    eapply sorted_market_nth; [exact Hs'|]. apply nth_error_nth'. assumption. }
  destruct (Qlt_le_dec 0 (psum M m' recipe ns)) as [PSUM|NEG].
  - (* the prices were too high from the start *)
    left. assert (NS : ns = at_block u recipe).
    { destruct ST as [E|E]; [assumption|]. exfalso. apply E. destruct z; simpl; lra. }
    assert (EUu : u = U).
    { destruct Hu as [[A Eu]|[A Eu]].
      - exfalso. assert (X := later_unacceptable cap k m' recipe true Hs' Hcap' Hst k (le_n _) A). apply not_acceptable in X.
        assert (Y : psum M m' recipe ns <= ps_gain m' recipe k).
        { apply psum_le_gain; try assumption. intros c Hc _. rewrite NS, Eu, at_block_nth. lia. }
        lra.
      - destruct (Nat.eq_dec u U) as [E|E]; [assumption|exfalso]. apply A. eapply enough_le; [|exact EU]. lia. }
    exists i. split; [|split].
    + unfold tr_order in Ew. destruct u as [|u']; [lia|]. cbn [repeat concat] in Ew. destruct (pivot_categories recipe) as [|a l] eqn:EPC.
      * exfalso. rewrite (proj2 (concat_nil_Forall _)) in Ew; [discriminate|]. apply Forall_forall. intros x Hx. apply repeat_spec in Hx. assumption.
      * cbn [app walk] in Ew. cbn [hd_error]. destruct (accepts z (psum M m' recipe (dec a (at_block (S u') recipe)))) eqn:EA; [congruence|exfalso].
        destruct (walk_last _ _ _ _ _ _ _ _ Ew) as (_ & _ & N4).
        assert (U1 : (0 < nth a recipe 0)%nat).
        { assert (X := pivots_count recipe 0 a). fold (pivot_categories recipe) in X. rewrite EPC in X. cbn [Nat.ltb Nat.leb] in X. rewrite Nat.sub_0_r in X.
          rewrite <- X. cbn [count_occ]. destruct (Nat.eq_dec a a); [lia|congruence]. }
        specialize (N4 a). rewrite nth_dec_same, NS, at_block_nth in N4. nia.
    + rewrite NS, EUu in FM, BE, PSUM. assert (RP := Qn_pos _ Hri). set (r := Qn (nth i recipe 0%nat)) in *. nra.
    + intros c [Hc _] N. rewrite FO by (assumption || lia). rewrite NS, EUu. reflexivity.
  - right. assert (LO := bal_lower M m' recipe ns i Hl' Hri NEG). rewrite <- FM in LO.
    assert (FL : forall c, (c < length m)%nat -> pr M m' ns c <= f c).
    { intros c Hc. destruct (Nat.eq_dec c i) as [->|N]; [assumption|]. rewrite FO by assumption. lra. }
    assert (EX : forall c, (c < length m)%nat -> (exceed (f c) (vals m' c) <= nth c ns 0)%nat).
    { intros c Hc. apply (exceed_rank_le _ _ (- M)); [apply SJ|apply RK; assumption|right; apply FL; assumption]. }
    assert (PM : forall c, (c < length m)%nat -> - M <= pr M m' ns c).
    { intros c Hc. unfold pr. destruct (le_lt_dec (length (vals m' c)) (nth c ns 0%nat)) as [L|L]; [rewrite nth_overflow by assumption; lra|].
      apply (vals_nonneg M m' c); [assumption|]. apply nth_In. assumption. }
    assert (PS : forall c, (c < length m)%nat -> - M <= pr M m' (at_block U recipe) c).
    { intros c Hc. unfold pr. destruct (le_lt_dec (length (vals m' c)) (nth c (at_block U recipe) 0%nat)) as [L|L]; [rewrite nth_overflow by assumption; lra|].
      apply (vals_nonneg M m' c); [assumption|]. apply nth_In. assumption. }
    intros c [Hc Hrc]. assert (Hcm : (c < length m)%nat) by lia. split; [specialize (FL c Hcm); specialize (SP c Hcm); lra|].
    intros p Sp Lp. assert (Mp : - M <= p) by (specialize (PS c Hcm); lra).
    assert (G : ((if (c =? i)%nat then nth c ns 0 else S (nth c ns 0)) <= exceed p (vals m' c))%nat).
    { destruct (Nat.eqb_spec c i) as [->|N].
      - replace (nth i ns 0%nat) with (S (nth i ns 0 - 1))%nat by lia. apply (exceed_rank _ _ (- M)); [apply SJ|specialize (RK i Hcm); lia|lra].
      - rewrite FO in Lp by assumption. unfold pr in Lp.
        destruct (le_lt_dec (length (vals m' c)) (nth c ns 0%nat)) as [L|L]; [rewrite nth_overflow in Lp by assumption; lra|].
        apply (exceed_rank _ _ (- M)); [apply SJ|assumption|assumption]. }
    split; [destruct (Nat.eqb_spec c i) as [E|]; [rewrite E in *; lia|lia]|]. intros d [Hd Hrd] N. assert (Hdm : (d < length m)%nat) by lia. assert (X := EX d Hdm).
    assert (BD : (begun recipe d (exceed (f d) (vals m' d)) <= if (d <? i)%nat then tt else S tt)%nat).
    { apply begun_le; [assumption|]. destruct (Nat.ltb_spec d i); [rewrite <- N1 by assumption; assumption|].
      destruct (Nat.eq_dec d i) as [->|]; [lia|]. rewrite <- N2 by lia. assumption. }
    assert (BC : ((if (i <? c)%nat then S tt else tt) < begun recipe c (exceed p (vals m' c)))%nat).
    { apply begun_gt; [assumption|]. destruct (Nat.eqb_spec c i) as [->|NC].
      - rewrite Nat.ltb_irrefl. lia.
      - destruct (Nat.ltb_spec i c); [rewrite <- N2 by assumption; lia|]. rewrite <- N1 by lia. lia. }
    unfold block_ahead. destruct (Nat.ltb_spec d i), (Nat.ltb_spec i c); lia.
Qed.

(** ** The theorem *)

Lemma most_sets : forall m recipe, length recipe = length m -> (exists j, used_by recipe j) -> exists U, enough U m recipe /\ ~ enough (S U) m recipe.
Proof.
  intros m recipe Hl [j [Hj Hr]].
  assert (X : ~ enough (S (length (vals m j))) m recipe).
  { intros E. assert (Y := proj1 (enough_nth _ m recipe Hl) E j Hj). nia. }
  assert (Z : enough 0 m recipe) by (apply (enough_nth 0 m recipe Hl); intros; lia).
  revert X. generalize (length (vals m j)). intros n. induction n as [|n IH]; intros X; [exists 0%nat; auto|].
  destruct (enough_dec (S n) m recipe) as [E|E]; [exists (S n); auto|auto].
Qed.

Lemma near_sizes : forall eps m m' j, 0 <= eps -> near eps m m' -> length (vals (clone_market m) j) = length (vals (clone_market m') j).
Proof.
  intros eps m m' j HE HN. rewrite (Permutation_length (Proof_Better.vals_clone m j)), (Permutation_length (Proof_Better.vals_clone m' j)).
  destruct (near_nth eps m m' j HE HN) as (l & HP & HF). rewrite (Permutation_length HP). apply (Forall2_length _ _ _ _ _ HF).
Qed.

Lemma near_rank : forall M eps m m' j k, 0 <= eps -> near eps m m' ->
  nth k (vals (clone_market m') j) (- M) <= nth k (vals (clone_market m) j) (- M) + eps
  /\ nth k (vals (clone_market m) j) (- M) <= nth k (vals (clone_market m') j) (- M) + eps.
Proof.
  intros M eps m m' j k HE HN. assert (L := near_sizes eps m m' j HE HN).
  assert (SJ : forall m c, desc (vals (clone_market m) c)).
  { intros m0 c. destruct (lt_dec c (length (clone_market m0))) as [X|X]; [|rewrite vals_out by lia; constructor].
    eapply sorted_market_nth; [apply Proof_Market.clone_sorted|]. apply nth_error_nth'. assumption. }
  destruct (le_lt_dec (length (vals (clone_market m) j)) k) as [K|K].
  { rewrite !nth_overflow by (rewrite <- ?L; assumption). split; lra. }
  split; apply Qnot_lt_le; intros X.
  - assert (A := exceed_rank _ k (- M) (SJ m' j) ltac:(lia) _ X). destruct (near_vals eps m m' j (nth k (vals (clone_market m) j) (- M)) HE HN) as [_ B].
    assert (C := exceed_rank_le _ k (- M) (SJ m j) (nth k (vals (clone_market m) j) (- M)) ltac:(lia) (or_intror (Qle_refl _))). lia.
  - assert (A := exceed_rank _ k (- M) (SJ m j) ltac:(lia) _ X). destruct (near_vals eps m m' j (nth k (vals (clone_market m') j) (- M)) HE HN) as [B _].
    assert (C := exceed_rank_le _ k (- M) (SJ m' j) (nth k (vals (clone_market m') j) (- M)) ltac:(lia) (or_intror (Qle_refl _))). lia.
Qed.

Theorem reduction_near : forall M cap eps m m' recipe z t t' deals rem deals' rem' P P', 0 <= eps ->
  values_at_least (- M) m -> values_at_least (- M) m' -> cap_suffices cap m recipe -> cap_suffices cap m' recipe -> near eps m m' ->
  trade_reduction_M M cap m recipe z = Ok t -> trade_reduction_M M cap m' recipe z = Ok t' ->
  optimal_trade cap m recipe true = Ok (deals, rem) -> deals <> [] -> optimal_trade cap m' recipe true = Ok (deals', rem') -> deals' <> [] ->
  tprices t = Some P -> tprices t' = Some P' ->
  forall j, (j < length m)%nat -> (0 < nth j recipe 0)%nat ->
    Qn (nth j recipe 0%nat) * Qabs (nth j P' 0 - nth j P 0) <= eps * Qn (leverage recipe j).
Proof.
  intros M cap eps m m' recipe z t t' deals rem deals' rem' P P' HE Hv Hv' Hcap Hcap' HN Ht Ht' Eo NE Eo' NE' HP HP' j Hj Hr.
  assert (LM := near_length _ _ _ HN).
  destruct (tr_errors M cap m recipe z) as [[_ [Hl Hpos]]|[X _]]; [|congruence]. apply has_positive in Hpos.
  destruct (most_sets (clone_market m) recipe) as (U & EU & NU); [rewrite clone_length; assumption|exact Hpos|].
  assert (SZ : forall n, enough n (clone_market m) recipe <-> enough n (clone_market m') recipe).
  { intros n. rewrite !enough_nth by (rewrite clone_length; congruence). split; intros H c Hc; specialize (H c Hc); rewrite (near_sizes eps m m' c HE HN) in *; assumption. }
  destruct (tr_prices_order M cap m recipe z t deals rem P U Hcap Hv Ht Eo NE HP EU NU) as (f & _ & EF & Z & CASE).
  destruct (tr_prices_order M cap m' recipe z t' deals' rem' P' U Hcap' Hv' Ht' Eo' NE' HP') as (f' & _ & EF' & Z' & CASE');
    [apply SZ; assumption|rewrite <- SZ; assumption|].
  rewrite EF, EF' by lia.
  assert (S1 : forall k, starts M recipe U m' k <= starts M recipe U m k + eps) by (intros k; apply (near_rank M eps m m' k _ HE HN)).
  assert (S2 : forall k, starts M recipe U m k <= starts M recipe U m' k + eps) by (intros k; apply (near_rank M eps m m' k _ HE HN)).
  apply sums_abs; try assumption; [|split; [lia|assumption]].
  assert (LOW : forall m f i, f i <= starts M recipe U m i -> (forall c, used_by recipe c -> c <> i -> f c == starts M recipe U m c) ->
    forall c, used_by recipe c -> f c <= starts M recipe U m c).
  { intros m0 f0 i Hi HC c Hc. destruct (Nat.eq_dec c i) as [->|N]; [assumption|]. rewrite (HC c Hc N). lra. }
  destruct CASE as [(i & EI & LI & OI)|IO]; destruct CASE' as [(i' & EI' & LI' & OI')|IO'].
  - assert (i' = i) by congruence. subst i'. destruct (Qlt_le_dec (f i + eps) (f' i)) as [A|A]; [right|left]; intros k Hk;
      (destruct (Nat.eq_dec k i) as [->|N]; [lra|]); rewrite (OI k Hk N), (OI' k Hk N); auto.
  - right. intros k Hk. assert (X := LOW m f i LI OI k Hk). assert (Y := proj1 (IO' k Hk)). specialize (S2 k). lra.
  - left. intros k Hk. assert (X := LOW m' f' i' LI' OI' k Hk). assert (Y := proj1 (IO k Hk)). specialize (S1 k). lra.
  - apply (same_way eps recipe (block_ahead recipe) HE (block_asym recipe) (vals (clone_market m)) (vals (clone_market m'))
      (starts M recipe U m) (starts M recipe U m')); try assumption; try (intros k p _; apply (near_vals eps m m' k p HE HN)); intros k _; auto.
Qed.
