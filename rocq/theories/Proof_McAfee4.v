(** * McAfee's trade reduction with the price heuristic: truthfulness in two-sided markets *)

From Coq Require Import String List Arith Lia QArith Lqa Qabs Permutation Sorted Bool.
From Verif Require Import Base Model_Agents Model_Trade Model_Prices Model_Market Model_TradeReduction Model_McAfee
  Spec_Market Spec_Trade Spec_Ascending Spec_TradeReduction Spec_McAfee
  Proof_Market Proof_Trade Proof_Ascending Proof_Ascending2 Proof_Strategy Proof_Deals
  Proof_TR2 Proof_McAfee Proof_McAfee2 Proof_McAfee3.
Import ListNotations.
Open Scope Q_scope.

Definition goodb (c v : Q) : bool := is_price_good_for_ps c [v].

Lemma goodb_iff : forall c v, goodb c v = true <-> (0 <= v -> c <= v) /\ (v <= 0 -> - c <= v).
Proof.
  intros c v. unfold goodb. rewrite good_iff. split.
  - intros H. apply H. left. reflexivity.
  - intros H x [<-|[]]. assumption.
Qed.

Lemma goodb_false : forall c v, goodb c v = false -> (0 <= v /\ v < c) \/ (v <= 0 /\ v < - c).
Proof.
  intros c v H. destruct (Qlt_le_dec v 0) as [A|A].
  - right. split; [lra|]. destruct (Qlt_le_dec v (- c)); [assumption|].
    assert (X : goodb c v = true) by (apply goodb_iff; split; lra). congruence.
  - destruct (Qlt_le_dec v c); [left; split; assumption|].
    destruct (Qlt_le_dec 0 v).
    + assert (X : goodb c v = true) by (apply goodb_iff; split; lra). congruence.
    + destruct (Qlt_le_dec v (- c)); [right; split; lra|].
      assert (X : goodb c v = true) by (apply goodb_iff; split; lra). congruence.
Qed.

Lemma goodb_proper : forall c c' v v', c == c' -> v == v' -> goodb c v = goodb c' v'.
Proof. intros c c' v v' Hc Hv. apply eq_true_iff_eq. rewrite !goodb_iff, Hc, Hv. reflexivity. Qed.

Lemma good2 : forall c a b, is_price_good_for_ps c [a; b] = goodb c a && goodb c b.
Proof. intros. unfold goodb, is_price_good_for_ps. simpl. rewrite !andb_true_r. reflexivity. Qed.

Definition signed (c v : Q) : Q := if Qlt_bool v 0 then - c else c.

Definition next_average (M : Q) (O S : list Q) (T : nat) : Q :=
  (Qabs (nth T O (- M)) + Qabs (nth (Datatypes.S T) S (- M))) / 2.

(** The mechanism as seen by one agent of a two-category market. *)
Definition two_util (O S : list Q) (T : nat) (c : Q) (v : Q) (pos : nat) (x : Q) : Q :=
  if (pos <? T)%nat then
    x - (if goodb c (nth (T - 1) O 0) && goodb c (nth T S 0) then signed c (nth (T - 1) O 0) else nth (T - 1) O 0)
  else if (pos =? T)%nat && (T <? length S)%nat && Qle_bool 0 (v + nth T S 0) && (goodb c v && goodb c (nth T S 0))
       then x - signed c v else 0.

Lemma two_others : forall (m : market) i t, length m = 2%nat -> (i < 2)%nat ->
  (others_ok m i t <-> (t < length (sort_desc (cvalues (nth (1 - i) m dcat))))%nat)
  /\ others_sum m i t == nth t (sort_desc (cvalues (nth (1 - i) m dcat))) 0.
Proof.
  intros m i t L Hi. rewrite sort_desc_length. unfold others_ok, others_sum. rewrite L. split.
  - split.
    + intros H. apply (H (1 - i)%nat); lia.
    + intros H j Hj Hn. replace j with (1 - i)%nat by lia. assumption.
  - destruct i as [|[|i]]; [| |lia]; cbn [Nat.sub seq map Nat.eqb]; rewrite !Qsum_cons; cbn [Qsum fold_right]; ring.
Qed.

Lemma two_row : forall d (m : market) i t, length m = 2%nat -> (i < 2)%nat ->
  row d m t = [nth t (vals m i) d; nth t (vals m (1 - i)) d] \/ row d m t = [nth t (vals m (1 - i)) d; nth t (vals m i) d].
Proof.
  intros d m i t L Hi. destruct m as [|a [|b [|? ?]]]; try discriminate.
  destruct i as [|[|i]]; [left|right|lia]; reflexivity.
Qed.

Lemma Qabs_proper : forall a b, a == b -> Qabs a == Qabs b.
Proof. intros a b H. rewrite H. reflexivity. Qed.

Lemma two_utility : forall M cap m recipe i name pre post T v pos t x,
  length m = 2%nat -> (i < length m)%nat -> possible_position (pre ++ post) v pos ->
  let mv := set_nth i (mkCat name (pre ++ v :: post)) m in
  let O := sort_desc (pre ++ post) in
  let S := sort_desc (cvalues (nth (1 - i) m dcat)) in
  (forall s, (1 <= s <= T)%nat -> at_row O (others_ok m i) (others_sum m i) s) ->
  ~ at_row O (others_ok m i) (others_sum m i) (Datatypes.S T) ->
  cap_suffices cap mv recipe -> mcafee_M M cap mv recipe true = Ok t ->
  utility t i pos x == two_util O S T (next_average M O S T) v pos x.
Proof.
  intros M cap m recipe i name pre post T v pos t x L2 Hi Hp mv O S HT HT' Hcap H.
  assert (Lmv : length mv = length m) by apply set_nth_length.
  destruct (mcafee_optimal _ _ _ _ _ _ H) as [deals [rem Ho]].
  destruct (mcafee_result _ _ _ _ _ _ _ _ H Ho) as [Hne [Hl [H1 [Hst [Er [_ R]]]]]].
  set (k := mt_num_of_deals deals) in *. clearbody k.
  assert (Lc : length (clone_market mv) = length m) by (rewrite clone_length; assumption).
  destruct (report_deals cap m recipe i name pre post v pos k Hi Hp ltac:(lia) H1 Hcap Hst) as [K1 K2].
  fold O in K1, K2.
  assert (Hd : desc O) by apply sort_desc_desc.
  assert (Hp' : possible_position O v pos) by (eapply position_perm; [apply Permutation_sym, sort_desc_perm|exact Hp]).
  destruct (deals_threshold O _ _ T v pos k Hd (others_antitone m i) Hp' HT HT' K1 K2) as [C1 [C2 C3]].
  assert (Hk : forall j, (j < length (clone_market mv))%nat -> (k <= length (vals (clone_market mv) j))%nat).
  { intros j Hj. apply (ones_enough _ recipe); [assumption|lia|apply Hst|assumption]. }
  destruct (mc_utility _ _ _ _ _ recipe i pos x R Er H1 ltac:(lia) ltac:(lia) Hk) as [P [HP ->]].
  assert (D := mc_deals _ _ _ _ _ R). assert (L := position_le _ _ _ Hp').
  assert (Vi : forall s d, nth s (vals (clone_market mv) i) d == nth s (ins pos v O) d).
  { intros s d. rewrite vals_clone_nth. unfold mv. rewrite nth_set_nth_same by assumption. cbn [cvalues].
    apply (Forall2_nth _ _ s d (sorted_ins pre post v pos Hp)). }
  assert (Vj : vals (clone_market mv) (1 - i) = S).
  { rewrite vals_clone_nth. unfold mv. rewrite nth_set_nth_other by lia. reflexivity. }
  set (c := next_average M O S T).
  destruct (mc_prices _ _ _ _ _ R) as [P' [HP' [_ Hpr]]]. assert (P' = P) by congruence. subst P'. clear HP'.
  specialize (Hpr i ltac:(lia)).
  (* the candidate price and its acceptance when k = T + 1 and pos <= T *)
  assert (HA : k = Datatypes.S T -> (pos <= T)%nat ->
     candidate M (clone_market mv) k == c
     /\ accepted M (clone_market mv) k true (row 0 (clone_market mv) T) = goodb c (nth T (ins pos v O) 0) && goodb c (nth T S 0)).
  { intros Ek Hpt.
    assert (Ec : candidate M (clone_market mv) k == c).
    { unfold candidate, c, next_average. rewrite Lc, L2. change (Qn 2) with 2.
      rewrite Ek. assert (V := Vi (Datatypes.S T) (- M)). rewrite ins_after in V by lia. apply Qabs_proper in V.
      destruct (two_row (- M) (clone_market mv) i (Datatypes.S T) ltac:(lia) ltac:(lia)) as [->| ->];
        cbn [map]; rewrite !Qsum_cons; cbn [Qsum fold_right]; rewrite V, Vj; field. }
    split; [assumption|]. unfold accepted. cbn [andb].
    assert (V := Vi T 0).
    destruct (two_row 0 (clone_market mv) i T ltac:(lia) ltac:(lia)) as [->| ->];
      rewrite good2, Vj; rewrite (goodb_proper _ _ _ _ Ec V), (goodb_proper _ _ (nth T S 0) (nth T S 0) Ec (Qeq_refl _));
      [reflexivity|apply andb_comm]. }
  unfold two_util. destruct (Nat.ltb_spec pos T) as [Q|Q].
  - assert (Ek := C1 Q). destruct (HA Ek ltac:(lia)) as [Ec EA]. rewrite Ek in D, Hpr, Ec, EA. cbv zeta in Hpr.
    destruct T as [|T]; [lia|]. rewrite ins_after in EA by lia. replace (Datatypes.S T - 1)%nat with T by lia.
    rewrite EA in D, Hpr.
    assert (Hlt : (pos < num_of_deals t)%nat) by (destruct (goodb c (nth T O 0) && goodb c (nth (Datatypes.S T) S 0)); lia).
    destruct (Nat.ltb_spec pos (num_of_deals t)); [|lia]. rewrite Hpr.
    assert (V := Vi (Datatypes.S T) 0). rewrite ins_after in V by lia.
    unfold signed. rewrite <- (Qlt_bool_proper _ _ 0 V).
    destruct (goodb c (nth T O 0) && goodb c (nth (Datatypes.S T) S 0)); [|rewrite V; reflexivity].
    destruct (Qlt_bool (nth (Datatypes.S T) (vals (clone_market mv) i) 0) 0); rewrite Ec; reflexivity.
  - destruct ((pos =? T)%nat && (T <? length S)%nat && Qle_bool 0 (v + nth T S 0) && (goodb c v && goodb c (nth T S 0))) eqn:EB.
    + apply andb_true_iff in EB. destruct EB as [EB E4]. apply andb_true_iff in EB. destruct EB as [EB E3].
      apply andb_true_iff in EB. destruct EB as [E1 E2]. apply Nat.eqb_eq in E1. apply Nat.ltb_lt in E2. apply Qle_bool_iff in E3.
      destruct (two_others m i T L2 ltac:(lia)) as [O1 O2].
      assert (Ek : k = Datatypes.S T). { apply C3; [assumption|apply O1; assumption|rewrite O2; assumption]. }
      destruct (HA Ek ltac:(lia)) as [Ec EA]. rewrite Ek in D, Hpr, Ec, EA. cbv zeta in Hpr.
      subst pos. rewrite ins_at in EA by assumption. rewrite E4 in EA. rewrite EA in D, Hpr.
      destruct (Nat.ltb_spec T (num_of_deals t)); [|lia]. rewrite Hpr.
      assert (V := Vi T 0). rewrite ins_at in V by assumption. unfold signed. rewrite <- (Qlt_bool_proper _ _ 0 V).
      destruct (Qlt_bool (nth T (vals (clone_market mv) i) 0) 0); rewrite Ec; reflexivity.
    + assert (Hlt : (num_of_deals t <= pos)%nat).
      { destruct (C2 Q) as [Hkp|[Ep Ek]].
        - destruct k; [lia|]. destruct (accepted _ _ _ _ _) in D; lia.
        - destruct (HA Ek ltac:(lia)) as [_ EA]. rewrite Ek in D, EA. subst pos. rewrite ins_at in EA by assumption.
          rewrite EA in D. destruct (K1 T ltac:(lia)) as [_ [F1 F2]]. rewrite ins_at in F2 by assumption.
          destruct (two_others m i T L2 ltac:(lia)) as [O1 O2]. apply O1 in F1. rewrite O2 in F2. fold S in F1, F2.
          assert (B1 : (T =? T)%nat = true) by apply Nat.eqb_refl.
          assert (B2 : (T <? length S)%nat = true) by (apply Nat.ltb_lt; assumption).
          assert (B3 : Qle_bool 0 (v + nth T S 0) = true) by (apply Qle_bool_iff; assumption).
          rewrite B1, B2, B3 in EB. cbn [andb] in EB. rewrite EB in D. lia. }
      destruct (Nat.ltb_spec pos (num_of_deals t)); [lia|reflexivity].
Qed.

(** ** The mechanism is truthful *)

Lemma two_util_nonneg : forall O S T c x pos, desc O -> (T <= length O)%nat -> possible_position O x pos ->
  0 <= two_util O S T c x pos x.
Proof.
  intros O S T c x pos Hd HT Hp. unfold two_util. destruct (Nat.ltb_spec pos T) as [Q|Q].
  - assert (X := position_after O x pos (T - 1) Hd Hp ltac:(lia)).
    destruct (goodb c (nth (T - 1) O 0) && goodb c (nth T S 0)) eqn:E; [|lra].
    apply andb_true_iff in E. destruct E as [E _]. apply goodb_iff in E. unfold signed.
    destruct (Qlt_bool_reflect (nth (T - 1) O 0) 0); destruct E as [E1 E2].
    + specialize (E2 ltac:(lra)). lra.
    + specialize (E1 ltac:(lra)). lra.
  - destruct (_ && (goodb c x && goodb c (nth T S 0))) eqn:E; [|lra].
    apply andb_true_iff in E. destruct E as [_ E]. apply andb_true_iff in E. destruct E as [E _].
    apply goodb_iff in E. unfold signed. destruct (Qlt_bool_reflect x 0); destruct E as [E1 E2].
    + specialize (E2 ltac:(lra)). lra.
    + specialize (E1 ltac:(lra)). lra.
Qed.

(** The competing row, when it exists, has a negative sum. *)
Definition no_more (O S : list Q) (T : nat) : Prop :=
  (T < length O)%nat -> (Datatypes.S T < length S)%nat -> nth T O 0 + nth (Datatypes.S T) S 0 < 0.

Lemma nth_default : forall (l : list Q) n d d', (n < length l)%nat -> nth n l d = nth n l d'.
Proof. intros. apply nth_indep. assumption. Qed.

(** When the agent is at position T and his value passes both tests he trades at the candidate price. *)
Lemma at_threshold : forall O S T c v x, (T < length S)%nat -> 0 <= v + nth T S 0 -> goodb c v = true -> goodb c (nth T S 0) = true ->
  two_util O S T c v T x = x - signed c v.
Proof.
  intros O S T c v x H1 H2 H3 H4. unfold two_util. rewrite Nat.ltb_irrefl, Nat.eqb_refl, H3, H4.
  rewrite (proj2 (Nat.ltb_lt _ _) H1). rewrite (proj2 (Qle_bool_iff _ _) H2). reflexivity.
Qed.

Lemma abs_signs : forall a, (0 <= a -> Qabs a == a) /\ (a <= 0 -> Qabs a == - a).
Proof. intros a. split; intros H; [apply Qabs_pos|apply Qabs_neg]; assumption. Qed.

Lemma buyer_truthful : forall M O S T x v' pos pos', 0 < M -> desc O -> (T <= length O)%nat -> ((0 < T)%nat -> (T < length S)%nat) ->
  Forall (fun y => 0 <= y < M) O -> Forall (fun y => y <= 0) S -> 0 <= x -> no_more O S T ->
  possible_position O x pos -> possible_position O v' pos' ->
  let c := next_average M O S T in
  two_util O S T c v' pos' x <= two_util O S T c x pos x.
Proof.
  intros M O S T x v' pos pos' HM Hd HTO HTS HO HS Hx Hno Hp Hp' c.
  assert (U := two_util_nonneg O S T c x pos Hd HTO Hp).
  rewrite Forall_forall in HO, HS.
  assert (Sn : forall n, nth n S 0 <= 0).
  { intros n. destruct (nth_in_or_default n S 0) as [Y|Y]; [apply HS; assumption|rewrite Y; lra]. }
  assert (On : forall n, 0 <= nth n O 0).
  { intros n. destruct (nth_in_or_default n O 0) as [Y|Y]; [apply HO; assumption|rewrite Y; lra]. }
  assert (C0 : 0 <= c).
  { unfold c, next_average. assert (A := Qabs_nonneg (nth T O (- M))). assert (B := Qabs_nonneg (nth (Datatypes.S T) S (- M))).
    apply Qle_shift_div_l; lra. }
  (* behind position T the value is at most the candidate price *)
  assert (Far : (T < pos)%nat -> x <= c).
  { intros Hpt. assert (L := position_le _ _ _ Hp). assert (X := position_before O x pos T Hd Hp Hpt).
    assert (E1 : Qabs (nth T O (- M)) == nth T O 0).
    { rewrite (nth_default O T (- M) 0) by lia. apply abs_signs. apply On. }
    assert (E2 : nth T O 0 < M) by (apply HO, nth_In; lia).
    unfold c, next_average. rewrite E1. apply Qle_shift_div_l; [lra|].
    destruct (lt_dec (Datatypes.S T) (length S)) as [Y|Y].
    - assert (N := Hno ltac:(lia) Y). rewrite (nth_default S _ (- M) 0) by lia.
      rewrite (proj2 (abs_signs _) (Sn _)). lra.
    - rewrite (nth_overflow S) by lia. rewrite (proj2 (abs_signs (- M))) by lra. lra. }
  (* the lying agent can only trade at the threshold value or at the candidate price *)
  assert (Cand : goodb c (nth T S 0) = true -> (T < length S)%nat -> ((pos < T)%nat -> goodb c (nth (T - 1) O 0) = true) -> x - c <= two_util O S T c x pos x).
  { intros G4 GS Gacc. destruct (lt_eq_lt_dec pos T) as [[Hlt|Heq]|Hgt].
    - unfold two_util. rewrite (proj2 (Nat.ltb_lt _ _) Hlt), (Gacc Hlt), G4. cbn [andb]. unfold signed.
      destruct (Qlt_bool_reflect (nth (T - 1) O 0) 0) as [Y|Y]; [|lra]. assert (Z := On (T - 1)%nat). lra.
    - subst pos. destruct (Qlt_le_dec x c) as [Y|Y]; [lra|].
      assert (G5 := G4). apply goodb_iff in G5. destruct G5 as [_ G5]. specialize (G5 (Sn T)).
      rewrite at_threshold; [|assumption|lra|apply goodb_iff; split; lra|assumption].
      unfold signed. destruct (Qlt_bool_reflect x 0); lra.
    - assert (X := Far Hgt). lra. }
  unfold two_util at 1. destruct (Nat.ltb_spec pos' T) as [Q|Q].
  - destruct (lt_dec pos T) as [Hlt|Hge].
    + unfold two_util. rewrite (proj2 (Nat.ltb_lt _ _) Hlt). lra.
    + assert (X := position_before O x pos (T - 1) Hd Hp ltac:(lia)).
      destruct (goodb c (nth (T - 1) O 0) && goodb c (nth T S 0)) eqn:E; [|lra].
      apply andb_true_iff in E. destruct E as [E1 E2]. unfold signed.
      destruct (Qlt_bool_reflect (nth (T - 1) O 0) 0) as [Y|Y]; [assert (Z := On (T - 1)%nat); lra|].
      apply Cand; [assumption|apply HTS; lia|intros; lia].
  - destruct ((pos' =? T)%nat && (T <? length S)%nat && Qle_bool 0 (v' + nth T S 0) && (goodb c v' && goodb c (nth T S 0))) eqn:EB; [|assumption].
    apply andb_true_iff in EB. destruct EB as [EB E4]. apply andb_true_iff in EB. destruct EB as [EB E3].
    apply andb_true_iff in EB. destruct EB as [E1 E2]. apply Nat.eqb_eq in E1. apply Nat.ltb_lt in E2. apply Qle_bool_iff in E3.
    apply andb_true_iff in E4. destruct E4 as [E4 E5].
    assert (V0 : 0 <= v') by (assert (Z := Sn T); lra).
    unfold signed. destruct (Qlt_bool_reflect v' 0) as [Y|_]; [lra|].
    destruct (lt_dec pos T) as [Hlt|Hge].
    + destruct (goodb c (nth (T - 1) O 0)) eqn:EG.
      * apply Cand; [assumption|assumption|intros; reflexivity].
      * unfold two_util. rewrite (proj2 (Nat.ltb_lt _ _) Hlt), EG. cbn [andb].
        apply goodb_false in EG. assert (Z := On (T - 1)%nat). destruct EG as [[_ EG]|[_ EG]]; lra.
    + apply Cand; [assumption|assumption|intros; lia].
Qed.

Lemma seller_truthful : forall M O S T x v' pos pos', 0 < M -> desc O -> (T <= length O)%nat -> ((0 < T)%nat -> (T < length S)%nat) ->
  Forall (fun y => y <= 0) O -> Forall (fun y => 0 <= y /\ 2 * y < M) S -> x < 0 -> no_more O S T ->
  possible_position O x pos -> possible_position O v' pos' ->
  let c := next_average M O S T in
  two_util O S T c v' pos' x <= two_util O S T c x pos x.
Proof.
  intros M O S T x v' pos pos' HM Hd HTO HTS HO HS Hx Hno Hp Hp' c.
  assert (U := two_util_nonneg O S T c x pos Hd HTO Hp).
  rewrite Forall_forall in HO, HS.
  assert (Sn : forall n, 0 <= nth n S 0).
  { intros n. destruct (nth_in_or_default n S 0) as [Y|Y]; [apply HS; assumption|rewrite Y; lra]. }
  assert (On : forall n, nth n O 0 <= 0).
  { intros n. destruct (nth_in_or_default n O 0) as [Y|Y]; [apply HO; assumption|rewrite Y; lra]. }
  assert (C0 : 0 <= c).
  { unfold c, next_average. assert (A := Qabs_nonneg (nth T O (- M))). assert (B := Qabs_nonneg (nth (Datatypes.S T) S (- M))).
    apply Qle_shift_div_l; lra. }
  assert (GT : goodb c (nth T S 0) = true -> c <= nth T S 0).
  { intros G. apply goodb_iff in G. destruct G as [G _]. apply G, Sn. }
  (* behind position T the value is at most minus the candidate price *)
  assert (Far : goodb c (nth T S 0) = true -> (T < length S)%nat -> (T < pos)%nat -> x <= - c).
  { intros G GS Hpt. apply GT in G. assert (L := position_le _ _ _ Hp). assert (X := position_before O x pos T Hd Hp Hpt).
    assert (E1 : Qabs (nth T O (- M)) == - nth T O 0).
    { rewrite (nth_default O T (- M) 0) by lia. apply abs_signs. apply On. }
    assert (EC : c * 2 == - nth T O 0 + Qabs (nth (Datatypes.S T) S (- M))).
    { unfold c, next_average. rewrite E1. field. }
    destruct (lt_dec (Datatypes.S T) (length S)) as [Y|Y].
    - assert (N := Hno ltac:(lia) Y). rewrite (nth_default S _ (- M) 0) in EC by lia.
      rewrite (proj1 (abs_signs _) (Sn _)) in EC. lra.
    - rewrite (nth_overflow S) in EC by lia. rewrite (proj2 (abs_signs (- M))) in EC by lra.
      assert (Z : 0 <= nth T S 0 /\ 2 * nth T S 0 < M) by (apply HS, nth_In; assumption). assert (W := On T). lra. }
  assert (Cand : goodb c (nth T S 0) = true -> (T < length S)%nat -> ((pos < T)%nat -> goodb c (nth (T - 1) O 0) = true) -> x + c <= two_util O S T c x pos x).
  { intros G4 GS Gacc. destruct (lt_eq_lt_dec pos T) as [[Hlt|Heq]|Hgt].
    - unfold two_util. rewrite (proj2 (Nat.ltb_lt _ _) Hlt), (Gacc Hlt), G4. cbn [andb]. unfold signed.
      destruct (Qlt_bool_reflect (nth (T - 1) O 0) 0) as [Y|Y]; [lra|].
      assert (X := position_after O x pos (T - 1) Hd Hp ltac:(lia)). lra.
    - subst pos. destruct (Qlt_le_dec x (- c)) as [Y|Y]; [lra|].
      assert (G5 := GT G4).
      rewrite at_threshold; [|assumption|lra|apply goodb_iff; split; lra|assumption].
      unfold signed. destruct (Qlt_bool_reflect x 0); lra.
    - assert (X := Far G4 GS Hgt). lra. }
  unfold two_util at 1. destruct (Nat.ltb_spec pos' T) as [Q|Q].
  - destruct (lt_dec pos T) as [Hlt|Hge].
    + unfold two_util. rewrite (proj2 (Nat.ltb_lt _ _) Hlt). lra.
    + assert (X := position_before O x pos (T - 1) Hd Hp ltac:(lia)).
      destruct (goodb c (nth (T - 1) O 0) && goodb c (nth T S 0)) eqn:E; [|lra].
      apply andb_true_iff in E. destruct E as [E1 E2]. unfold signed.
      destruct (Qlt_bool_reflect (nth (T - 1) O 0) 0) as [Y|Y]; [|lra].
      assert (X' := Cand E2 ltac:(apply HTS; lia) ltac:(intros; lia)). lra.
  - destruct ((pos' =? T)%nat && (T <? length S)%nat && Qle_bool 0 (v' + nth T S 0) && (goodb c v' && goodb c (nth T S 0))) eqn:EB; [|assumption].
    apply andb_true_iff in EB. destruct EB as [EB E4]. apply andb_true_iff in EB. destruct EB as [EB E3].
    apply andb_true_iff in EB. destruct EB as [E1 E2]. apply Nat.eqb_eq in E1. apply Nat.ltb_lt in E2. apply Qle_bool_iff in E3.
    apply andb_true_iff in E4. destruct E4 as [E4 E5].
    unfold signed. destruct (Qlt_bool_reflect v' 0) as [Y|Y]; [|lra].
    destruct (lt_dec pos T) as [Hlt|Hge].
    + destruct (goodb c (nth (T - 1) O 0)) eqn:EG.
      * assert (X := Cand E5 E2 ltac:(intros; reflexivity)). lra.
      * unfold two_util. rewrite (proj2 (Nat.ltb_lt _ _) Hlt), EG. cbn [andb].
        assert (X := position_after O x pos (T - 1) Hd Hp ltac:(lia)).
        apply goodb_false in EG. destruct EG as [[EG0 EG]|[_ EG]]; lra.
    + assert (X := Cand E5 E2 ltac:(intros; lia)). lra.
Qed.

Lemma threshold_facts : forall m i pre post T, length m = 2%nat -> (i < 2)%nat ->
  let O := sort_desc (pre ++ post) in let S := sort_desc (cvalues (nth (1 - i) m dcat)) in
  (forall s, (1 <= s <= T)%nat -> at_row O (others_ok m i) (others_sum m i) s) ->
  ~ at_row O (others_ok m i) (others_sum m i) (Datatypes.S T) ->
  (T <= length O)%nat /\ ((0 < T)%nat -> (T < length S)%nat) /\ no_more O S T.
Proof.
  intros m i pre post T L2 Hi O S HT HT'. split; [|split].
  - destruct T as [|T]; [lia|]. destruct (HT (Datatypes.S T) ltac:(lia)). lia.
  - intros H0. destruct (HT T ltac:(lia)) as [_ [A _]]. apply (two_others m i T L2 Hi). assumption.
  - intros A B. destruct (Qlt_le_dec (nth T O 0 + nth (Datatypes.S T) S 0) 0) as [Y|Y]; [assumption|].
    exfalso. apply HT'. split; [lia|]. destruct (two_others m i (Datatypes.S T) L2 Hi) as [O1 O2].
    split; [apply O1; assumption|]. rewrite O2. replace (Datatypes.S T - 1)%nat with T by lia. assumption.
Qed.

Lemma Forall_sort : forall (P : Q -> Prop) l, Forall P l -> Forall P (sort_desc l).
Proof. intros P l H. eapply Permutation_Forall; [apply Permutation_sym, sort_desc_perm|assumption]. Qed.

Theorem mcafee_truthful_buyer : forall M cap m recipe i name pre post v v' pos pos' t t', 0 < M ->
  length m = 2%nat -> (i < length m)%nat ->
  possible_position (pre ++ post) v pos -> possible_position (pre ++ post) v' pos' ->
  Forall (fun y => 0 <= y < M) (pre ++ post) -> Forall (fun y => y <= 0) (cvalues (nth (1 - i) m dcat)) -> 0 <= v ->
  let honest := set_nth i (mkCat name (pre ++ v :: post)) m in
  let lying := set_nth i (mkCat name (pre ++ v' :: post)) m in
  cap_suffices cap honest recipe -> cap_suffices cap lying recipe ->
  mcafee_M M cap honest recipe true = Ok t -> mcafee_M M cap lying recipe true = Ok t' ->
  utility t' i pos' v <= utility t i pos v.
Proof.
  intros M cap m recipe i name pre post v v' pos pos' t t' HM L2 Hi Hp Hp' HO HS Hv honest lying C C' H H'.
  set (O := sort_desc (pre ++ post)). set (S := sort_desc (cvalues (nth (1 - i) m dcat))).
  destruct (threshold_exists O (others_ok m i) (others_sum m i) (others_ok_dec m i)) as [T [HT HT']].
  destruct (threshold_facts m i pre post T L2 ltac:(lia) HT HT') as [F1 [F2 F3]].
  rewrite (two_utility M cap m recipe i name pre post T v pos t v) by assumption.
  rewrite (two_utility M cap m recipe i name pre post T v' pos' t' v) by assumption.
  apply buyer_truthful; try assumption.
  - apply sort_desc_desc.
  - apply Forall_sort. assumption.
  - apply Forall_sort. assumption.
  - eapply position_perm; [apply Permutation_sym, sort_desc_perm|exact Hp].
  - eapply position_perm; [apply Permutation_sym, sort_desc_perm|exact Hp'].
Qed.

Theorem mcafee_truthful_seller : forall M cap m recipe i name pre post v v' pos pos' t t', 0 < M ->
  length m = 2%nat -> (i < length m)%nat ->
  possible_position (pre ++ post) v pos -> possible_position (pre ++ post) v' pos' ->
  Forall (fun y => y <= 0) (pre ++ post) -> Forall (fun y => 0 <= y /\ 2 * y < M) (cvalues (nth (1 - i) m dcat)) -> v < 0 ->
  let honest := set_nth i (mkCat name (pre ++ v :: post)) m in
  let lying := set_nth i (mkCat name (pre ++ v' :: post)) m in
  cap_suffices cap honest recipe -> cap_suffices cap lying recipe ->
  mcafee_M M cap honest recipe true = Ok t -> mcafee_M M cap lying recipe true = Ok t' ->
  utility t' i pos' v <= utility t i pos v.
Proof.
  intros M cap m recipe i name pre post v v' pos pos' t t' HM L2 Hi Hp Hp' HO HS Hv honest lying C C' H H'.
  set (O := sort_desc (pre ++ post)). set (S := sort_desc (cvalues (nth (1 - i) m dcat))).
  destruct (threshold_exists O (others_ok m i) (others_sum m i) (others_ok_dec m i)) as [T [HT HT']].
  destruct (threshold_facts m i pre post T L2 ltac:(lia) HT HT') as [F1 [F2 F3]].
  rewrite (two_utility M cap m recipe i name pre post T v pos t v) by assumption.
  rewrite (two_utility M cap m recipe i name pre post T v' pos' t' v) by assumption.
  apply seller_truthful; try assumption.
  - apply sort_desc_desc.
  - apply Forall_sort. assumption.
  - apply Forall_sort. assumption.
  - eapply position_perm; [apply Permutation_sym, sort_desc_perm|exact Hp].
  - eapply position_perm; [apply Permutation_sym, sort_desc_perm|exact Hp'].
Qed.
