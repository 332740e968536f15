(** * A winner cannot influence the outcome: McAfee's protocol with the heuristic price (C119) *)

From Coq Require Import String List Arith Lia QArith Lqa Qabs Permutation Sorted Bool.
From Verif Require Import Base Model_Agents Model_Trade Model_Prices Model_Market Model_TradeReduction Model_McAfee
  Spec_Market Spec_Trade Spec_Ascending Spec_TradeReduction Spec_McAfee
  Proof_Market Proof_Trade Proof_Ascending Proof_Ascending2 Proof_Strategy Proof_Deals
  Proof_TR2 Proof_McAfee Proof_McAfee2 Proof_McAfee3 Proof_McAfee4 Spec_Threshold Proof_Threshold Spec_ThresholdHeuristic.
Import ListNotations.
Open Scope Q_scope.

Definition good (c x : Q) : Prop := (0 <= x -> c <= x) /\ (x <= 0 -> - c <= x).

Lemma good_mono : forall c x y, 0 <= c -> (0 <= x <-> 0 <= y) -> x <= y -> good c x -> good c y.
Proof.
  intros c x y Hc S H [A B]. split; intros Hy.
  - apply S in Hy. specialize (A Hy). lra.
  - destruct (Qlt_le_dec x 0) as [X|X]; [specialize (B ltac:(lra)); lra|]. lra.
Qed.

Lemma good_proper1 : forall c c' x x', c == c' -> x == x' -> good c x -> good c' x'.
Proof. intros c c' x x' Hc Hx [A B]. split; intros Y; [specialize (A ltac:(lra))|specialize (B ltac:(lra))]; lra. Qed.

Lemma accepted_iff : forall M m k h T, accepted M m k h (row 0 m T) = true <->
  h = true /\ forall j, (j < length m)%nat -> good (candidate M m k) (nth T (vals m j) 0).
Proof.
  intros M m k h T. unfold accepted. rewrite andb_true_iff, good_iff. split; intros [A B]; (split; [exact A|]).
  - intros j Hj. apply B. unfold vals. rewrite <- (col_nth m j T Hj). apply nth_In. rewrite row_length. exact Hj.
  - intros x Hx. apply In_nth with (d := 0) in Hx. destruct Hx as [j [Hj <-]]. rewrite row_length in Hj.
    rewrite col_nth by exact Hj. apply B. exact Hj.
Qed.

(** The outcome, seen from one agent, with the threshold T given by the others. *)
Lemma price_outcome : forall M cap m recipe h i name pre post T v pos t P,
  (i < length m)%nat -> possible_position (pre ++ post) v pos ->
  let mv := set_nth i (mkCat name (pre ++ v :: post)) m in
  let O := sort_desc (pre ++ post) in
  let acc := accepted M (clone_market mv) (S T) h (row 0 (clone_market mv) T) in
  (forall s, (1 <= s <= T)%nat -> at_row O (others_ok m i) (others_sum m i) s) ->
  ~ at_row O (others_ok m i) (others_sum m i) (S T) ->
  cap_suffices cap mv recipe -> mcafee_M M cap mv recipe h = Ok t -> tprices t = Some P ->
  (still_in (tcats t) i pos <->
     (pos < T)%nat \/ (pos = T /\ others_ok m i T /\ 0 <= v + others_sum m i T /\ acc = true))
  /\ (still_in (tcats t) i pos -> num_of_deals t = (if acc then S T else T)
      /\ length (tcats t) = length m /\ length P = length m
      /\ nth T (vals (clone_market mv) i) 0 == (if (pos <? T)%nat then nth (T - 1) O 0 else v)
      /\ (forall j, (j < length m)%nat -> nth j P 0 == let x := nth T (vals (clone_market mv) j) 0 in
            if acc then (if Qlt_bool x 0 then - candidate M (clone_market mv) (S T) else candidate M (clone_market mv) (S T)) else x)
      /\ (forall j c, nth_error (tcats t) j = Some c ->
            cname c = cname (nth j (clone_market mv) dcat)
            /\ Forall2 Qeq (cvalues c) (firstn (num_of_deals t) (vals (clone_market mv) j)))
      /\ (T < length (vals (clone_market mv) i))%nat
      /\ others_ok m i T).
Proof.
  intros M cap m recipe h i name pre post T v pos t P Hi Hp mv O acc HT HT' Hcap H HP.
  assert (Lmv : length mv = length m) by apply set_nth_length.
  destruct (mcafee_optimal _ _ _ _ _ _ H) as [deals [rem Ho]].
  destruct (mcafee_result _ _ _ _ _ _ _ _ H Ho) as [Hne [Hl [H1 [Hst [Er [_ R]]]]]].
  set (k := mt_num_of_deals deals) in *. clearbody k.
  assert (Lc : length (clone_market mv) = length m) by (rewrite clone_length; assumption).
  destruct (report_deals cap m recipe i name pre post v pos k Hi Hp ltac:(lia) H1 Hcap Hst) as [K1 K2].
  fold O in K1, K2.
  assert (Hd : desc O) by apply sort_desc_desc.
  assert (Hp' : possible_position O v pos) by (eapply position_perm; [apply Permutation_sym, sort_desc_perm|exact Hp]).
  destruct (deals_threshold O _ _ T v pos k Hd (others_antitone m i) Hp' HT HT' K1 K2) as [C1 [C2 C3]].
  assert (Hk : forall j, (j < length (clone_market mv))%nat -> (k <= length (vals (clone_market mv) j))%nat).
  { intros j Hj. apply (ones_enough _ recipe); [assumption|lia|apply Hst|assumption]. }
  assert (D := mc_deals _ _ _ _ _ R). assert (L := position_le _ _ _ Hp').
  assert (Hdk : (num_of_deals t <= k)%nat) by (clear - D; destruct k; [lia|]; destruct (accepted _ _ _ _ _); lia).
  assert (CAT : forall j c, nth_error (tcats t) j = Some c ->
    cname c = cname (nth j (clone_market mv) dcat) /\ Forall2 Qeq (cvalues c) (firstn (num_of_deals t) (vals (clone_market mv) j))
    /\ length (cvalues c) = num_of_deals t).
  { intros j c E. assert (Hj : (j < length (clone_market mv))%nat).
    { rewrite <- (mc_len _ _ _ _ _ R). apply nth_error_Some. congruence. }
    destruct (mc_cat _ _ _ _ _ R j Hj) as [A [_ B]]. apply (nth_error_nth _ _ dcat) in E. rewrite E in A, B.
    split; [assumption|]. split; [exact B|]. rewrite (qeq_length _ _ B). apply firstn_length_le. specialize (Hk j Hj). lia. }
  assert (IN : still_in (tcats t) i pos <-> (pos < num_of_deals t)%nat).
  { split.
    - intros (c & E & X). destruct (CAT i c E) as (_ & _ & Y). lia.
    - intros X. assert (Y : (i < length (tcats t))%nat) by (rewrite (mc_len _ _ _ _ _ R); lia).
      destruct (nth_error (tcats t) i) as [c|] eqn:E; [|apply nth_error_None in E; lia].
      exists c. split; [exact E|]. destruct (CAT i c E) as (_ & _ & Z). lia. }
  assert (W : still_in (tcats t) i pos -> k = S T /\ (pos <= T)%nat).
  { rewrite IN. intros Q. destruct (le_lt_dec T pos) as [X|X]; [|split; [apply C1; exact X|lia]].
    destruct (C2 X) as [Y|[Y Z]]; [lia|]. split; [exact Z|lia]. }
  split.
  - split.
    + intros Q. destruct (W Q) as [E Le]. apply IN in Q. subst k. fold acc in D.
      destruct (Nat.eq_dec pos T) as [->|N]; [right|left; lia].
      destruct (K1 T ltac:(lia)) as (_ & F1 & F2). rewrite ins_at in F2 by exact L.
      split; [reflexivity|]. split; [exact F1|]. split; [exact F2|]. destruct acc; [reflexivity|lia].
    + intros [Q|(-> & F1 & F2 & A)]; apply IN.
      * rewrite (C1 Q) in D. fold acc in D. destruct acc; lia.
      * rewrite (C3 eq_refl F1 F2) in D. fold acc in D. rewrite A in D. lia.
  - intros Q. destruct (W Q) as [E Le]. apply IN in Q. subst k. fold acc in D. split; [exact D|].
    split; [rewrite (mc_len _ _ _ _ _ R); assumption|].
    destruct (mc_prices _ _ _ _ _ R) as [P' [HP' [LP Hpr]]]. assert (P' = P) by congruence. subst P'. fold acc in Hpr.
    split; [congruence|]. rewrite <- Lc. split; [|split; [|split; [|split]]].
    + rewrite vals_clone_nth. unfold mv. rewrite nth_set_nth_same by assumption. cbn [cvalues].
      rewrite (Forall2_nth _ _ T 0 (sorted_ins pre post v pos Hp)). fold O.
      destruct (Nat.ltb_spec pos T) as [X|X].
      * destruct T as [|T']; [lia|]. rewrite ins_after by lia. replace (S T' - 1)%nat with T' by lia. reflexivity.
      * replace T with pos by lia. rewrite ins_at by exact L. reflexivity.
    + intros j Hj. specialize (Hpr j Hj). exact Hpr.
    + intros j c Ej. destruct (CAT j c Ej) as (A & B & _). auto.
    + specialize (Hk i ltac:(lia)). lia.
    + apply K1. lia.
Qed.

Section Outcomes.
  Variables (M : Q) (cap : nat) (m : market) (recipe : list nat) (h : bool) (i : nat) (name : string) (pre post : list Q)
    (v v' : Q) (pos pos' : nat) (t t' : trade) (P P' : list Q).
  Hypothesis Hi : (i < length m)%nat.
  Hypothesis Hp : possible_position (pre ++ post) v pos.
  Hypothesis Hp' : possible_position (pre ++ post) v' pos'.
  Let first := set_nth i (mkCat name (pre ++ v :: post)) m.
  Let second := set_nth i (mkCat name (pre ++ v' :: post)) m.
  Hypothesis Sides : one_side (v :: v' :: pre ++ post).

  Let O := sort_desc (pre ++ post).

  Lemma same_sign : forall x y, In x (v :: v' :: pre ++ post) -> In y (v :: v' :: pre ++ post) -> (0 <= x <-> 0 <= y).
  Proof.
    intros x y Hx Hy. destruct Sides as [A|A]; rewrite Forall_forall in A; assert (X := A x Hx); assert (Y := A y Hy); cbn in X, Y; lra.
  Qed.

  Lemma In_O : forall n, (n < length O)%nat -> In (nth n O 0) (v :: v' :: pre ++ post).
  Proof.
    intros n Hn. right. right. apply (Permutation_in _ (sort_desc_perm (pre ++ post))). apply nth_In. exact Hn.
  Qed.

  Lemma others_same : forall j, j <> i -> nth j (clone_market first) dcat = nth j (clone_market second) dcat.
  Proof. intros j N. unfold first, second. rewrite !Proof_Ascending3.clone_set_nth, !nth_set_nth_other by auto. reflexivity. Qed.

  Lemma next_row : forall T w p mv, possible_position (pre ++ post) w p -> (p <= T)%nat -> mv = set_nth i (mkCat name (pre ++ w :: post)) m ->
    nth (S T) (vals (clone_market mv) i) (- M) == nth T O (- M).
  Proof.
    intros T w p mv Hw Hpos ->. rewrite vals_clone_nth, nth_set_nth_same by assumption. cbn [cvalues].
    rewrite (Forall2_nth _ _ (S T) (- M) (sorted_ins pre post w p Hw)). fold O. rewrite ins_after; [reflexivity| |exact Hpos].
    unfold O. rewrite sort_desc_length. apply (position_le _ _ _ Hw).
  Qed.

  Lemma same_candidate : forall T, (pos <= T)%nat -> (pos' <= T)%nat ->
    candidate M (clone_market first) (S T) == candidate M (clone_market second) (S T).
  Proof.
    intros T Q Q'. unfold candidate.
    assert (L : length (clone_market first) = length (clone_market second)).
    { rewrite !clone_length. unfold first, second. rewrite !set_nth_length. reflexivity. }
    rewrite L.
    assert (X : Qsum (map Qabs (row (- M) (clone_market first) (S T))) == Qsum (map Qabs (row (- M) (clone_market second) (S T)))).
    { apply qeq_sum. apply qeq_of_nth; [unfold row; rewrite !map_length; exact L|].
      intros j Hj. unfold row in *. rewrite !map_map in *. rewrite map_length in Hj.
      rewrite (nth_indep _ 0 ((fun c => Qabs (nth (S T) (cvalues c) (- M))) dcat)) by (rewrite map_length; exact Hj).
      rewrite (nth_indep (map _ (clone_market second)) 0 ((fun c => Qabs (nth (S T) (cvalues c) (- M))) dcat)) by (rewrite map_length, <- L; exact Hj).
      rewrite (map_nth (fun c => Qabs (nth (S T) (cvalues c) (- M)))), (map_nth (fun c => Qabs (nth (S T) (cvalues c) (- M)))).
      destruct (Nat.eq_dec j i) as [->|N]; [|rewrite others_same by exact N; reflexivity].
      change (cvalues (nth i (clone_market first) dcat)) with (vals (clone_market first) i).
      change (cvalues (nth i (clone_market second) dcat)) with (vals (clone_market second) i).
      rewrite (next_row T v pos first Hp Q eq_refl), (next_row T v' pos' second Hp' Q' eq_refl). reflexivity. }
    rewrite X. reflexivity.
  Qed.
  Lemma acc_transfer : forall T, (pos <= T)%nat -> (pos' <= T)%nat ->
    nth T (vals (clone_market first) i) 0 == (if (pos <? T)%nat then nth (T - 1) O 0 else v) ->
    nth T (vals (clone_market second) i) 0 == (if (pos' <? T)%nat then nth (T - 1) O 0 else v') ->
    (T <= length O)%nat ->
    (if (pos <? T)%nat then nth (T - 1) O 0 else v) <= (if (pos' <? T)%nat then nth (T - 1) O 0 else v') ->
    accepted M (clone_market first) (S T) h (row 0 (clone_market first) T) = true ->
    accepted M (clone_market second) (S T) h (row 0 (clone_market second) T) = true.
  Proof.
    intros T Q Q' X X' LT Le A. apply accepted_iff in A. destruct A as [Hh A]. apply accepted_iff. split; [exact Hh|].
    assert (C := same_candidate T Q Q').
    assert (L : length (clone_market first) = length m) by (rewrite clone_length; unfold first; apply set_nth_length).
    intros j Hj. rewrite clone_length in Hj. unfold second in Hj. rewrite set_nth_length in Hj.
    specialize (A j ltac:(lia)).
    destruct (Nat.eq_dec j i) as [->|N].
    - apply (good_proper1 _ _ _ _ C X) in A.
      apply (good_proper1 _ _ _ _ (Qeq_refl _) (Qeq_sym _ _ X')). apply (good_mono _ _ _ (candidate_nonneg _ _ _)) with (3 := A); [|exact Le].
      apply same_sign.
      + destruct (Nat.ltb_spec pos T); [apply In_O; lia|left; reflexivity].
      + destruct (Nat.ltb_spec pos' T); [apply In_O; lia|right; left; reflexivity].
    - unfold vals in *. rewrite <- others_same by exact N. apply (good_proper1 _ _ _ _ C (Qeq_refl _) A).
  Qed.

  Hypothesis Cf : cap_suffices cap first recipe.
  Hypothesis Cs : cap_suffices cap second recipe.
  Hypothesis Ht : mcafee_M M cap first recipe h = Ok t.
  Hypothesis Ht' : mcafee_M M cap second recipe h = Ok t'.
  Hypothesis HP : tprices t = Some P.
  Hypothesis HP' : tprices t' = Some P'.

  Lemma threshold_length : forall T, (forall s, (1 <= s <= T)%nat -> at_row O (others_ok m i) (others_sum m i) s) -> (T <= length O)%nat.
  Proof. intros T HT. destruct T as [|T']; [lia|]. destruct (HT (S T') ltac:(lia)). lia. Qed.

  Lemma hmc_monotone : v < v' -> still_in (tcats t) i pos -> still_in (tcats t') i pos'.
  Proof.
    intros Hv I.
    destruct (threshold_exists O (others_ok m i) (others_sum m i) (others_ok_dec m i)) as [T [HT HT']].
    destruct (price_outcome M cap m recipe h i name pre post T v pos t P Hi Hp HT HT' Cf Ht HP) as [A B].
    destruct (price_outcome M cap m recipe h i name pre post T v' pos' t' P' Hi Hp' HT HT' Cs Ht' HP') as [A' _].
    assert (X := position_order _ _ _ _ _ Hp Hp' Hv). destruct (B I) as (_ & _ & _ & B4 & _).
    apply A'. apply A in I. destruct I as [I|(Ep & I1 & I2 & I3)]; [left; lia|].
    destruct (Nat.eq_dec pos' T) as [Ep'|N]; [right|left; lia].
    split; [exact Ep'|]. split; [exact I1|]. split; [lra|].
    apply (acc_transfer T); try lia; try exact I3; try exact B4.
    - destruct (Nat.ltb_spec pos' T); [lia|]. rewrite vals_clone_nth. unfold second. rewrite nth_set_nth_same by assumption. cbn [cvalues].
      rewrite (Forall2_nth _ _ T 0 (sorted_ins pre post v' pos' Hp')). rewrite <- Ep'. rewrite ins_at; [reflexivity|].
      rewrite sort_desc_length. apply (position_le _ _ _ Hp').
    - apply threshold_length. exact HT.
    - destruct (Nat.ltb_spec pos' T); [lia|]. destruct (Nat.ltb_spec pos T); [lia|]. lra.
  Qed.

  Lemma row_order : forall T, (pos <= T)%nat -> (pos' < T)%nat -> 
    (if (pos <? T)%nat then nth (T - 1) O 0 else v) <= nth (T - 1) O 0.
  Proof.
    intros T Q Q'. destruct (Nat.ltb_spec pos T) as [X|X]; [lra|].
    apply (position_before O v pos (T - 1)); [apply sort_desc_desc| |lia].
    eapply position_perm; [apply Permutation_sym, sort_desc_perm|exact Hp].
  Qed.
End Outcomes.

Lemma one_side_swap : forall a b l, one_side (a :: b :: l) -> one_side (b :: a :: l).
Proof.
  intros a b l [H|H]; [left|right]; inversion H as [|? ? X Y]; inversion Y; subst; repeat (constructor; [assumption|]); assumption.
Qed.

Lemma hmc_winner_same : forall M cap m recipe h i name pre post v v' pos pos' t t' P P',
  (i < length m)%nat -> possible_position (pre ++ post) v pos -> possible_position (pre ++ post) v' pos' ->
  let first := set_nth i (mkCat name (pre ++ v :: post)) m in
  let second := set_nth i (mkCat name (pre ++ v' :: post)) m in
  one_side (v :: v' :: pre ++ post) ->
  cap_suffices cap first recipe -> cap_suffices cap second recipe ->
  mcafee_M M cap first recipe h = Ok t -> mcafee_M M cap second recipe h = Ok t' ->
  tprices t = Some P -> tprices t' = Some P' ->
  still_in (tcats t) i pos -> still_in (tcats t') i pos' ->
  num_of_deals t = num_of_deals t' /\ same_outcome i pos pos' (tcats t) (tcats t') P P'.
Proof.
  intros M cap m recipe h i name pre post v v' pos pos' t t' P P' Hi Hp Hp' first second Sides Cf Cs Ht Ht' HP HP' I I'.
  set (O := sort_desc (pre ++ post)).
  destruct (threshold_exists O (others_ok m i) (others_sum m i) (others_ok_dec m i)) as [T [HT HT']].
  destruct (price_outcome M cap m recipe h i name pre post T v pos t P Hi Hp HT HT' Cf Ht HP) as [A B].
  destruct (price_outcome M cap m recipe h i name pre post T v' pos' t' P' Hi Hp' HT HT' Cs Ht' HP') as [A' B'].
  fold first in A, B. fold second in A', B'. fold O in B, B'.
  destruct (B I) as (B1 & B2 & B3 & B4 & B5 & B6 & B7 & B8).
  destruct (B' I') as (B1' & B2' & B3' & B4' & B5' & B6' & B7' & B8'). clear B B'.
  apply A in I. apply A' in I'. clear A A'.
  assert (Q : (pos <= T)%nat) by (destruct I as [I|[I _]]; lia).
  assert (Q' : (pos' <= T)%nat) by (destruct I' as [I'|[I' _]]; lia).
  assert (LT : (T <= length O)%nat) by (clear - HT; destruct T as [|T']; [lia|]; destruct (HT (S T') ltac:(lia)); lia).
  assert (C := same_candidate M m i name pre post v v' pos pos' Hi Hp Hp' T Q Q'). fold first second in C.
  assert (EA : accepted M (clone_market first) (S T) h (row 0 (clone_market first) T)
             = accepted M (clone_market second) (S T) h (row 0 (clone_market second) T)).
  { destruct I as [I|(I & _ & _ & IA)].
    - destruct I' as [I'|(I' & _ & _ & IA')].
      + apply eq_true_iff_eq. split.
        * apply (acc_transfer M m h i name pre post v v' pos pos' Hi Hp Hp' Sides T Q Q' B4 B4' LT).
          destruct (Nat.ltb_spec pos T); [|lia]. destruct (Nat.ltb_spec pos' T); [|lia]. lra.
        * apply (acc_transfer M m h i name pre post v' v pos' pos Hi Hp' Hp (one_side_swap _ _ _ Sides) T Q' Q B4' B4 LT).
          destruct (Nat.ltb_spec pos T); [|lia]. destruct (Nat.ltb_spec pos' T); [|lia]. lra.
      + rewrite IA'.
        apply (acc_transfer M m h i name pre post v' v pos' pos Hi Hp' Hp (one_side_swap _ _ _ Sides) T Q' Q B4' B4 LT); [|exact IA'].
        destruct (Nat.ltb_spec pos T); [|lia]. exact (row_order m i pre post v' pos' pos Hi Hp' T Q' I).
    - rewrite IA. symmetry. destruct I' as [I'|(I' & _ & _ & IA')]; [|exact IA'].
      apply (acc_transfer M m h i name pre post v v' pos pos' Hi Hp Hp' Sides T Q Q' B4 B4' LT); [|exact IA].
      destruct (Nat.ltb_spec pos' T); [|lia]. exact (row_order m i pre post v pos pos' Hi Hp T Q I'). }
  assert (EN : num_of_deals t = num_of_deals t') by (rewrite B1, B1', EA; reflexivity).
  set (acc := accepted M (clone_market second) (S T) h (row 0 (clone_market second) T)) in *.
  rewrite EA in B1, B5, I. clear EA.
  assert (VO := fun j => others_same m i name pre post v v' j). fold first second in VO.
  assert (In1 : forall p w, possible_position (pre ++ post) w p -> In w (v :: v' :: pre ++ post) ->
    In (if (p <? T)%nat then nth (T - 1) O 0 else w) (v :: v' :: pre ++ post)).
  { intros p w _ Hw. destruct (Nat.ltb_spec p T); [|exact Hw]. apply In_O. fold O. lia. }
  assert (NP : (num_of_deals t <= S T)%nat /\ (pos < num_of_deals t)%nat /\ (pos' < num_of_deals t)%nat).
  { rewrite EN at 3. rewrite B1, B1'. destruct acc; [lia|].
    destruct I as [I|(_ & _ & _ & I)]; [|discriminate]. destruct I' as [I'|(_ & _ & _ & I')]; [|discriminate]. lia. }
  destruct NP as (N0 & N1' & N2').
  split; [exact EN|]. split; [|split; [congruence|split]].
  - assert (EQ : forall j, (j < length P)%nat -> nth j P 0 == nth j P' 0).
    { intros j Hj. rewrite B5, B5' by lia. cbv zeta. destruct (Nat.eq_dec j i) as [->|N].
      - destruct acc eqn:Eacc.
        + assert (Sg := same_sign pre post v v' Sides _ _ (In1 pos v Hp (or_introl eq_refl)) (In1 pos' v' Hp' (or_intror (or_introl eq_refl)))).
          rewrite <- B4, <- B4' in Sg.
          destruct (Qlt_bool_reflect (nth T (vals (clone_market first) i) 0) 0) as [Y|Y];
          destruct (Qlt_bool_reflect (nth T (vals (clone_market second) i) 0) 0) as [Z|Z]; try (rewrite C; reflexivity); exfalso; lra.
        + destruct I as [I|(_ & _ & _ & I)]; [|discriminate]. destruct I' as [I'|(_ & _ & _ & I')]; [|discriminate].
          rewrite B4, B4'. destruct (Nat.ltb_spec pos T); [|lia]. destruct (Nat.ltb_spec pos' T); [|lia]. reflexivity.
      - unfold vals. rewrite VO by assumption. destruct acc; [|reflexivity]. destruct (Qlt_bool _ 0); rewrite C; reflexivity. }
    assert (EL : length P = length P') by congruence. clear -EL EQ. revert P' EL EQ.
    induction P as [|a l IH]; intros [|b l'] EL EQ; simpl in EL; try lia; constructor.
    + apply (EQ 0%nat). simpl. lia.
    + apply IH; [lia|]. intros j Hj. apply (EQ (S j)). simpl. lia.
  - intros j c c' N E E'. destruct (B6 j c E) as [N1 V1]. destruct (B6' j c' E') as [N2 V2]. rewrite VO in N1 by assumption.
    unfold vals in V1, V2. rewrite VO in V1 by assumption. rewrite <- EN in V2.
    split; [congruence|]. eapply F2_trans; [exact V1|apply F2_sym; exact V2].
  - destruct (nth_error (tcats t) i) as [c|] eqn:E; [|apply nth_error_None in E; lia].
    destruct (nth_error (tcats t') i) as [c'|] eqn:E'; [|apply nth_error_None in E'; lia].
    destruct (B6 i c E) as [N1 V1]. destruct (B6' i c' E') as [N2 V2].
    exists c, c'. split; [reflexivity|]. split; [reflexivity|].
    assert (Vf : vals (clone_market first) i = sort_desc (pre ++ v :: post)).
    { rewrite vals_clone_nth. unfold first. rewrite nth_set_nth_same by assumption. reflexivity. }
    assert (Vs : vals (clone_market second) i = sort_desc (pre ++ v' :: post)).
    { rewrite vals_clone_nth. unfold second. rewrite nth_set_nth_same by assumption. reflexivity. }
    split.
    { rewrite N1, N2. unfold first, second. rewrite !Proof_Ascending3.clone_set_nth, !nth_set_nth_same by (rewrite clone_length; assumption). reflexivity. }
    rewrite Vf in V1, B7. rewrite Vs in V2, B7'. rewrite <- EN in V2. split.
    + rewrite (qeq_length _ _ V1), (qeq_length _ _ V2), !firstn_length_le by lia. reflexivity.
    + eapply F2_trans; [apply F2_without; exact V1|]. eapply F2_trans; [|apply F2_sym, F2_without; exact V2].
      apply without_reports; assumption.
Qed.

Lemma mc_util_in : forall M cap m recipe h i pos x t P, (i < length m)%nat -> mcafee_M M cap m recipe h = Ok t -> tprices t = Some P ->
  (still_in (tcats t) i pos -> utility t i pos x == x - nth i P 0) /\ (~ still_in (tcats t) i pos -> utility t i pos x == 0).
Proof.
  intros M cap m recipe h i pos x t P Hi H HP.
  destruct (mcafee_optimal _ _ _ _ _ _ H) as [deals [rem Ho]].
  destruct (mcafee_result _ _ _ _ _ _ _ _ H Ho) as [Hne [Hl [H1 [Hst [Er [_ R]]]]]].
  set (k := mt_num_of_deals deals) in *. clearbody k.
  assert (Lc : length (clone_market m) = length m) by apply clone_length.
  assert (Hk : forall j, (j < length (clone_market m))%nat -> (k <= length (vals (clone_market m) j))%nat).
  { intros j Hj. apply (ones_enough _ recipe); [assumption|lia|apply Hst|assumption]. }
  destruct (mc_utility _ _ _ _ _ recipe i pos x R Er H1 ltac:(lia) ltac:(lia) Hk) as [P0 [HP0 U]].
  assert (P0 = P) by congruence. subst P0.
  assert (D := mc_deals _ _ _ _ _ R).
  assert (Hdk : (num_of_deals t <= k)%nat) by (clear - D; destruct k; [lia|]; destruct (accepted _ _ _ _ _); lia).
  assert (IN : still_in (tcats t) i pos <-> (pos < num_of_deals t)%nat).
  { destruct (mc_cat _ _ _ _ _ R i ltac:(lia)) as [_ [_ B]]. assert (E := qeq_length _ _ B).
    rewrite firstn_length_le in E by (specialize (Hk i ltac:(lia)); lia).
    assert (N := nth_error_nth' (tcats t) dcat (n := i) ltac:(rewrite (mc_len _ _ _ _ _ R); lia)). split.
    - intros (c & Ec & X). rewrite N in Ec. injection Ec as <-. lia.
    - intros X. exists (nth i (tcats t) dcat). split; [exact N|lia]. }
  rewrite IN. split; intros X; rewrite U; destruct (Nat.ltb_spec pos (num_of_deals t)); try lia; reflexivity.
Qed.

Lemma in_pays_at_most : forall M cap m recipe h i name pre post v pos t P,
  (i < length m)%nat -> possible_position (pre ++ post) v pos ->
  mcafee_M M cap (set_nth i (mkCat name (pre ++ v :: post)) m) recipe h = Ok t -> tprices t = Some P ->
  still_in (tcats t) i pos -> nth i P 0 <= v.
Proof.
  intros M cap m recipe h i name pre post v pos t P Hi Hp H HP (c & Ec & Hpos).
  destruct (mcafee_optimal _ _ _ _ _ _ H) as [deals [rem Ho]].
  destruct (mcafee_result _ _ _ _ _ _ _ _ H Ho) as [Hne [Hl [H1 [Hst [Er [_ R]]]]]].
  set (mv := set_nth i (mkCat name (pre ++ v :: post)) m) in *.
  assert (Lc : length (clone_market mv) = length m) by (rewrite clone_length; apply set_nth_length).
  destruct (mc_cat _ _ _ _ _ R i ltac:(lia)) as [_ [_ B]]. rewrite (nth_error_nth _ _ dcat Ec) in B.
  assert (Ev : nth pos (cvalues c) 0 == v).
  { rewrite (qeq_nth _ _ pos 0 B). assert (L := qeq_length _ _ B). rewrite firstn_length in L.
    assert (F : forall (l : list Q) n p, (p < n)%nat -> nth p (firstn n l) 0 = nth p l 0).
    { clear. induction l as [|a l IH]; intros [|n] [|p] X; simpl; try lia; auto. apply IH. lia. }
    rewrite F by lia. rewrite vals_clone_nth. unfold mv. rewrite nth_set_nth_same by assumption. cbn [cvalues].
    rewrite (Forall2_nth _ _ pos 0 (sorted_ins pre post v pos Hp)). rewrite ins_at; [reflexivity|].
    rewrite sort_desc_length. apply (position_le _ _ _ Hp). }
  destruct (mc_prices _ _ _ _ _ R) as [P0 [HP0 [LP _]]]. assert (P0 = P) by congruence. subst P0.
  rewrite <- Ev. apply (mcafee_ir M cap mv recipe h t P H HP i c (nth i P 0)); [exact Ec| |apply nth_In; exact Hpos].
  apply nth_error_nth'. lia.
Qed.

Lemma hmc_threshold : forall M cap m recipe i name pre post other v v' pos pos' t t' P P', 0 < M ->
  length m = 2%nat -> (i < length m)%nat ->
  possible_position (pre ++ post) v pos -> possible_position (pre ++ post) v' pos' ->
  let first := set_nth i (mkCat name (pre ++ v :: post)) m in
  let second := set_nth i (mkCat name (pre ++ v' :: post)) m in
  nth_error m (1 - i) = Some other -> opposite_sides (v :: pre ++ post) (cvalues other) ->
  Forall (fun x => 2 * x < M) ((pre ++ post) ++ cvalues other) ->
  cap_suffices cap first recipe -> cap_suffices cap second recipe ->
  mcafee_M M cap first recipe true = Ok t -> mcafee_M M cap second recipe true = Ok t' ->
  tprices t = Some P -> tprices t' = Some P' ->
  ~ still_in (tcats t) i pos -> still_in (tcats t') i pos' -> v <= nth i P' 0 <= v'.
Proof.
  intros M cap m recipe i name pre post other v v' pos pos' t t' P P' HM L2 Hi Hp Hp' first second Ho Hs Hb Cf Cs Ht Ht' HP HP' N I.
  split; [|exact (in_pays_at_most M cap m recipe true i name pre post v' pos' t' P' Hi Hp' Ht' HP' I)].
  assert (U : utility t' i pos' v <= utility t i pos v).
  { apply Forall_app in Hb. destruct Hb as [B1 B2]. rewrite Forall_forall in B1, B2.
    destruct Hs as [[S1 S2]|[S1 S2]]; inversion S1 as [|? ? Sv So]; subst; rewrite Forall_forall in So, S2.
    - apply (mcafee_truthful_buyer M cap m recipe i name pre post v v' pos pos' t t'); try assumption.
      + apply Forall_forall. intros x Hx. assert (X := So x Hx). assert (Y := B1 x Hx). cbn in X, Y. lra.
      + rewrite (nth_error_nth _ _ dcat Ho). apply Forall_forall. intros x Hx. assert (X := S2 x Hx). cbn in X. lra.
    - apply (mcafee_truthful_seller M cap m recipe i name pre post v v' pos pos' t t'); try assumption.
      + apply Forall_forall. intros x Hx. assert (X := So x Hx). cbn in X. lra.
      + rewrite (nth_error_nth _ _ dcat Ho). apply Forall_forall. intros x Hx. assert (X := S2 x Hx). assert (Y := B2 x Hx). cbn in X, Y. lra. }
  assert (L1 : length first = length m) by apply set_nth_length. assert (L3 : length second = length m) by apply set_nth_length.
  destruct (mc_util_in M cap first recipe true i pos v t P ltac:(lia) Ht HP) as [_ U1].
  destruct (mc_util_in M cap second recipe true i pos' v t' P' ltac:(lia) Ht' HP') as [U2 _].
  rewrite (U1 N), (U2 I) in U. lra.
Qed.
