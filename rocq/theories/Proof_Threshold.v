(** * A winner cannot influence the outcome (C95) *)

From Coq Require Import String List Arith Lia QArith Lqa Permutation Sorted Bool.
From Verif Require Import Base Model_Agents Model_Trade Model_Prices Model_Market Model_Ascending
  Spec_Market Spec_Trade Spec_Ascending Spec_Threshold Proof_Market Proof_Trade Proof_Prices Proof_Ascending
  Proof_Ascending2 Proof_Strategy Proof_Ascending3.
Import ListNotations.
Open Scope Q_scope.

Lemma F2_firstn : forall n l l', Forall2 Qeq l l' -> Forall2 Qeq (firstn n l) (firstn n l').
Proof. induction n; intros l l' H; [constructor|]. inversion H; subst; [constructor|]. simpl. constructor; auto. Qed.

Lemma F2_skipn : forall n l l', Forall2 Qeq l l' -> Forall2 Qeq (skipn n l) (skipn n l').
Proof. induction n; intros l l' H; [exact H|]. inversion H; subst; simpl; [constructor|]. auto. Qed.

Lemma F2_without : forall n l l', Forall2 Qeq l l' -> Forall2 Qeq (without n l) (without n l').
Proof. intros. unfold without. apply Forall2_app; [apply F2_firstn|apply F2_skipn]; assumption. Qed.

Lemma F2_refl : forall l, Forall2 Qeq l l.
Proof. induction l; constructor; [reflexivity|assumption]. Qed.

Lemma F2_sym : forall l l', Forall2 Qeq l l' -> Forall2 Qeq l' l.
Proof. intros l l' H. induction H; constructor; [symmetry; assumption|assumption]. Qed.

Lemma F2_trans : forall l1 l2 l3, Forall2 Qeq l1 l2 -> Forall2 Qeq l2 l3 -> Forall2 Qeq l1 l3.
Proof. intros l1 l2 l3 H. revert l3. induction H; intros l3 H3; inversion H3; subst; constructor; [etransitivity; eassumption|auto]. Qed.

Lemma without_ins : forall pos v l n, (pos <= length l)%nat -> (pos < n)%nat -> without pos (firstn n (ins pos v l)) = firstn (n - 1) l.
Proof.
  intros pos v l n H1 H2. unfold without, ins.
  assert (E : firstn n (firstn pos l ++ v :: skipn pos l) = firstn pos l ++ v :: firstn (n - 1 - pos) (skipn pos l)).
  { rewrite firstn_app. rewrite firstn_length_le by assumption. rewrite firstn_all2 by (rewrite firstn_length_le; lia).
    f_equal. replace (n - pos)%nat with (S (n - 1 - pos)) by lia. reflexivity. }
  rewrite E. rewrite firstn_app, firstn_length_le by assumption.
  rewrite Nat.sub_diag. cbn [firstn]. rewrite app_nil_r.
  rewrite firstn_all2 by (rewrite firstn_length_le; lia).
  rewrite skipn_app, firstn_length_le by assumption. rewrite skipn_all2 by (rewrite firstn_length_le; lia).
  replace (S pos - pos)%nat with 1%nat by lia. cbn [skipn]. cbn [app].
  transitivity (firstn (n - 1) (firstn pos l ++ skipn pos l)).
  - rewrite firstn_app, firstn_length_le by assumption. rewrite (firstn_all2 (n := n - 1)) by (rewrite firstn_length_le; lia). reflexivity.
  - rewrite firstn_skipn. reflexivity.
Qed.

(** The other agents left in the category of the agent. *)
Lemma without_reports : forall pre post lo hi bl bh n,
  possible_position (pre ++ post) lo bl -> possible_position (pre ++ post) hi bh -> (bl < n)%nat -> (bh < n)%nat ->
  Forall2 Qeq (without bl (firstn n (sort_desc (pre ++ lo :: post)))) (without bh (firstn n (sort_desc (pre ++ hi :: post)))).
Proof.
  intros pre post lo hi bl bh n Hl Hh Nl Nh.
  assert (LO : forall v pos, possible_position (pre ++ post) v pos -> (pos <= length (sort_desc (pre ++ post)))%nat).
  { intros v pos [_ H]. rewrite sort_desc_length. assert (X := at_least_length v (pre ++ post)). lia. }
  eapply F2_trans; [apply F2_without, F2_firstn, sorted_ins; exact Hl|].
  eapply F2_trans; [|apply F2_sym, F2_without, F2_firstn, sorted_ins; exact Hh].
  rewrite !without_ins by eauto. apply F2_firstn, F2_refl.
Qed.

Lemma same_outcome_sym : forall i p p' c c' q q', same_outcome i p p' c c' q q' -> same_outcome i p' p c' c q' q.
Proof.
  intros i p p' c c' q q' (A & B & C & x & y & D1 & D2 & D3 & D4 & D5). split; [apply F2_sym; assumption|].
  split; [auto|].
  split; [intros j a b Hj Ha Hb; destruct (C j b a Hj Hb Ha); split; [auto|apply F2_sym; assumption]|]. exists y, x. split; [assumption|]. split; [assumption|]. split; [auto|].
  split; [auto|apply F2_sym; assumption].
Qed.

(** Two runs of the ascending auction that differ in one report. *)
Lemma two_runs_outcome : forall M fuel m recipe i name pre post lo hi bl bh tl th Pl Ph, 0 < M ->
  (i < length m)%nat ->
  possible_position (pre ++ post) lo bl -> possible_position (pre ++ post) hi bh ->
  lo <= hi -> (bh <= bl)%nat ->
  ascending_auction_M M fuel (set_nth i (mkCat name (pre ++ lo :: post)) m) recipe = Ok tl ->
  ascending_auction_M M fuel (set_nth i (mkCat name (pre ++ hi :: post)) m) recipe = Ok th ->
  tprices tl = Some Pl -> tprices th = Some Ph ->
  (still_in (tcats tl) i bl /\ still_in (tcats th) i bh /\ num_of_deals tl = num_of_deals th
     /\ same_outcome i bl bh (tcats tl) (tcats th) Pl Ph)
  \/ (~ still_in (tcats tl) i bl /\ (still_in (tcats th) i bh -> lo <= nth i Ph 0 <= hi)).
Proof.
  intros M fuel m recipe i name pre post lo hi bl bh tl th Pl Ph HM Him Hpl Hph Hle Hb Hl Hh HPl HPh.
  apply auction_outcome in Hl. apply auction_outcome in Hh.
  destruct Hl as [Ll [Hpos [nl [sl [Ol [Al [El [Sl Xl]]]]]]]].
  destruct Hh as [Lh [_ [nh [sh [Oh [Ah [Eh [Sh Xh]]]]]]]].
  set (ml := clone_market (set_nth i (mkCat name (pre ++ lo :: post)) m)) in *.
  set (mh := clone_market (set_nth i (mkCat name (pre ++ hi :: post)) m)) in *.
  destruct (two_reports pre post lo hi bl bh (- M) Hpl Hph Hle Hb) as [R1 [R2 [R3 [R4 [R5 R6]]]]].
  assert (Vl : vals ml i = sort_desc (pre ++ lo :: post)).
  { unfold ml. rewrite clone_set_nth, vals_set_same by (rewrite clone_length; assumption). reflexivity. }
  assert (Vh : vals mh i = sort_desc (pre ++ hi :: post)).
  { unfold mh. rewrite clone_set_nth, vals_set_same by (rewrite clone_length; assumption). reflexivity. }
  assert (Vo : forall j, j <> i -> nth j mh dcat = nth j ml dcat).
  { intros j Hj. unfold ml, mh. rewrite !clone_set_nth, !nth_set_nth_other by auto. reflexivity. }
  assert (Ni : cname (nth i mh dcat) = cname (nth i ml dcat)).
  { unfold ml, mh. rewrite !clone_set_nth, !nth_set_nth_same by (rewrite clone_length; assumption). reflexivity. }
  assert (Vo' : forall j, j <> i -> vals mh j = vals ml j).
  { intros j Hj. unfold vals. rewrite Vo by assumption. reflexivity. }
  assert (RES := without_reports pre post lo hi bl bh).
  rewrite <- Vl, <- Vh in *.
  assert (Hi : (i < length recipe)%nat).
  { rewrite Ll. unfold ml. rewrite clone_length, set_nth_length. assumption. }
  assert (S0 : sizes0 mh = sizes0 ml).
  { apply list_ext_nth with (d := 0%nat).
    - unfold sizes0. rewrite !map_length. congruence.
    - intros j _. rewrite !sizes0_nth. destruct (Nat.eq_dec j i) as [->|Hne]; [auto|rewrite Vo' by assumption; reflexivity]. }
  rewrite S0 in Ah.
  assert (Hstart : (bl < nth i (sizes0 ml) 0)%nat) by (rewrite sizes0_nth; assumption).
  assert (D := dichotomy M ml mh recipe i bl Ll Lh Hi
     ltac:(intros j n Hj; rewrite Vo' by assumption; reflexivity) R3
     ltac:(rewrite R4; exact R6) fuel (sizes0 ml) nl sl nh sh Hstart Al Ah).
  assert (Kl := proj1 (outcome_inv M ml recipe HM Ll Hpos nl sl Ol)).
  assert (Kh := proj1 (outcome_inv M mh recipe HM Lh Hpos nh sh Oh)).
  assert (Cl : tcats tl = shrink ml nl) by (rewrite El; reflexivity).
  assert (Ch : tcats th = shrink mh nh) by (rewrite Eh; reflexivity).
  rewrite El in HPl. rewrite Eh in HPh. cbn [tprices] in HPl, HPh. inversion HPl; subst Pl. inversion HPh; subst Ph. clear HPl HPh.
  assert (IN : forall mm ns pos, (i < length mm)%nat -> sizes_ok mm ns ->
    still_in (shrink mm ns) i pos <-> (pos < nth i ns 0)%nat).
  { intros mm ns pos Hlt Hok. unfold still_in, shrink. rewrite nth_error_map_seq by assumption. split.
    - intros (c & E & H). inversion E; subst c. cbn [cvalues] in H. rewrite firstn_length_le in H by apply Hok. assumption.
    - intros H. eexists. split; [reflexivity|]. cbn [cvalues]. rewrite firstn_length_le by apply Hok. assumption. }
  assert (Iml : (i < length ml)%nat) by lia. assert (Imh : (i < length mh)%nat) by lia.
  rewrite Cl, Ch. rewrite (IN ml nl bl Iml Kl), (IN mh nh bh Imh Kh).
  destruct D as [[<- [<- Hn]]|[Hn D]].
  - left. split; [assumption|]. split; [lia|]. split.
    { apply Nat.le_antisymm.
      - apply Xh. apply supports_shrink; [assumption|assumption|].
        apply (supports_shrink ml recipe nl _ Ll Kl). assumption.
      - apply Xl. apply supports_shrink; [assumption|assumption|].
        apply (supports_shrink mh recipe nl _ Lh Kh). assumption. }
    split; [|split; [|split]].
    + assert (EL : length (final_prices M ml recipe nl sl) = length (final_prices M mh recipe nl sl)).
      { rewrite !final_length. congruence. }
      assert (EQ : forall j, (j < length (final_prices M ml recipe nl sl))%nat ->
        nth j (final_prices M ml recipe nl sl) 0 == nth j (final_prices M mh recipe nl sl) 0).
      { intros j Hj. rewrite final_length in Hj. symmetry.
        apply (fp_same M ml mh recipe i bl Ll Lh); auto.
        - intros k n Hk. rewrite Vo' by assumption. reflexivity.
        - lia.
        - intros main E. destruct (outcome_inv M ml recipe HM Ll Hpos nl sl Ol) as [_ [_ [mn [Hch [[X _]|[X _]]]]]]; [congruence|].
          assert (mn = main) by congruence. subst mn. apply choice_spec in Hch. tauto. }
      clear -EL EQ. revert EL EQ. generalize (final_prices M ml recipe nl sl), (final_prices M mh recipe nl sl).
      induction l as [|a l IH]; intros [|b l'] EL EQ; simpl in EL; try lia; constructor.
      * apply (EQ 0%nat). simpl. lia.
      * apply IH; [lia|]. intros j Hj. apply (EQ (S j)). simpl. lia.
    + rewrite !shrink_length. congruence.
    + intros j c c' Hj Hc Hc'. unfold shrink in Hc, Hc'. destruct (lt_dec j (length ml)) as [H|H].
      * rewrite nth_error_map_seq in Hc, Hc' by lia. rewrite Vo in Hc' by assumption. unfold vals in Hc, Hc'. rewrite Vo in Hc' by assumption.
        assert (c = c') by congruence. subst c'. split; [reflexivity|apply F2_refl].
      * exfalso. apply H. rewrite <- (shrink_length ml nl). apply nth_error_Some. unfold shrink. congruence.
    + eexists. eexists. split; [unfold shrink; apply nth_error_map_seq; assumption|]. split; [unfold shrink; apply nth_error_map_seq; assumption|].
      cbn [cname cvalues]. split; [congruence|]. split; [rewrite !firstn_length; congruence|]. apply RES; [assumption|assumption|assumption|lia].
  - right. split; [lia|]. intros Hin.
    assert (Hs : sorted_market mh) by apply clone_sorted.
    assert (Hdi : desc (vals mh i)) by (rewrite Vh; apply sort_desc_desc).
    assert (Hsz : (nth i nh 0 <= length (vals mh i))%nat) by apply Kh.
    change (nth i (final_prices M mh recipe nh sh) 0) with (fp M mh recipe nh sh i). split.
    + destruct D as [D|[-> D]].
      * eapply Qle_trans; [|apply fp_lower; eassumption]. unfold pr.
        eapply Qle_trans; [exact R6|]. apply desc_nth; [assumption|assumption|].
        rewrite <- R1. assumption.
      * rewrite fp_main by assumption. rewrite <- R4. exact D.
    + eapply Qle_trans; [apply (fp_upper M mh recipe HM Lh Hpos nh sh i Oh Hs Imh); [lia|]|].
      * destruct D as [D|[-> _]]; [left; rewrite <- R1; lia|right; left; reflexivity].
      * rewrite <- R5. apply desc_nth; [assumption|lia|lia].
Qed.

Theorem asc_winner_same : forall M fuel m recipe i name pre post v v' pos pos' t t' P P', 0 < M -> (i < length m)%nat ->
  possible_position (pre ++ post) v pos -> possible_position (pre ++ post) v' pos' ->
  ascending_auction_M M fuel (set_nth i (mkCat name (pre ++ v :: post)) m) recipe = Ok t ->
  ascending_auction_M M fuel (set_nth i (mkCat name (pre ++ v' :: post)) m) recipe = Ok t' ->
  tprices t = Some P -> tprices t' = Some P' ->
  still_in (tcats t) i pos -> still_in (tcats t') i pos' ->
  num_of_deals t = num_of_deals t' /\ same_outcome i pos pos' (tcats t) (tcats t') P P'.
Proof.
  intros M fuel m recipe i name pre post v v' pos pos' t t' P P' HM Hi Hp Hp' Ht Ht' HP HP' I I'.
  assert (A : v <= v' -> (pos' <= pos)%nat -> num_of_deals t = num_of_deals t' /\ same_outcome i pos pos' (tcats t) (tcats t') P P').
  { intros H Hb. destruct (two_runs_outcome M fuel m recipe i name pre post v v' pos pos' t t' P P' HM Hi Hp Hp' H Hb Ht Ht' HP HP') as [D|[D _]]; tauto. }
  assert (B : v' <= v -> (pos <= pos')%nat -> num_of_deals t = num_of_deals t' /\ same_outcome i pos pos' (tcats t) (tcats t') P P').
  { intros H Hb. destruct (two_runs_outcome M fuel m recipe i name pre post v' v pos' pos t' t P' P HM Hi Hp' Hp H Hb Ht' Ht HP' HP) as [D|[D _]]; [|tauto].
    split; [symmetry; tauto|]. apply same_outcome_sym. tauto. }
  destruct (Qlt_le_dec v v') as [H|H].
  - apply A; [lra|]. eapply position_order; eassumption.
  - destruct (Qlt_le_dec v' v) as [H1|H1].
    + apply B; [lra|]. eapply position_order; eassumption.
    + destruct (le_lt_dec pos' pos); [apply A|apply B]; try lia; assumption.
Qed.

Theorem asc_monotone : forall M fuel m recipe i name pre post v v' pos pos' t t', 0 < M -> (i < length m)%nat ->
  possible_position (pre ++ post) v pos -> possible_position (pre ++ post) v' pos' -> v < v' ->
  ascending_auction_M M fuel (set_nth i (mkCat name (pre ++ v :: post)) m) recipe = Ok t ->
  ascending_auction_M M fuel (set_nth i (mkCat name (pre ++ v' :: post)) m) recipe = Ok t' ->
  still_in (tcats t) i pos -> still_in (tcats t') i pos'.
Proof.
  intros M fuel m recipe i name pre post v v' pos pos' t t' HM Hi Hp Hp' H Ht Ht' I.
  assert (HP : exists P, tprices t = Some P).
  { destruct (auction_outcome _ _ _ _ _ Ht) as (_ & _ & ns & stop & _ & _ & E & _). rewrite E. eexists. reflexivity. }
  assert (HP' : exists P, tprices t' = Some P).
  { destruct (auction_outcome _ _ _ _ _ Ht') as (_ & _ & ns & stop & _ & _ & E & _). rewrite E. eexists. reflexivity. }
  destruct HP as [P HP]. destruct HP' as [P' HP'].
  destruct (two_runs_outcome M fuel m recipe i name pre post v v' pos pos' t t' P P' HM Hi Hp Hp' ltac:(lra) (position_order _ _ _ _ _ Hp Hp' H) Ht Ht' HP HP')
    as [D|[D _]]; tauto.
Qed.

Theorem asc_threshold : forall M fuel m recipe i name pre post v v' pos pos' t t' P', 0 < M -> (i < length m)%nat ->
  possible_position (pre ++ post) v pos -> possible_position (pre ++ post) v' pos' ->
  ascending_auction_M M fuel (set_nth i (mkCat name (pre ++ v :: post)) m) recipe = Ok t ->
  ascending_auction_M M fuel (set_nth i (mkCat name (pre ++ v' :: post)) m) recipe = Ok t' ->
  tprices t' = Some P' ->
  ~ still_in (tcats t) i pos -> still_in (tcats t') i pos' -> v <= nth i P' 0 <= v'.
Proof.
  intros M fuel m recipe i name pre post v v' pos pos' t t' P' HM Hi Hp Hp' Ht Ht' HP' O I.
  assert (HP : exists P, tprices t = Some P).
  { destruct (auction_outcome _ _ _ _ _ Ht) as (_ & _ & ns & stop & _ & _ & E & _). rewrite E. eexists. reflexivity. }
  destruct HP as [P HP].
  assert (A : v <= v' -> (pos' <= pos)%nat -> v <= nth i P' 0 <= v').
  { intros H Hb. destruct (two_runs_outcome M fuel m recipe i name pre post v v' pos pos' t t' P P' HM Hi Hp Hp' H Hb Ht Ht' HP HP') as [D|[_ D]]; tauto. }
  destruct (Qlt_le_dec v v') as [H|H].
  - apply A; [lra|]. eapply position_order; eassumption.
  - assert (B : (pos <= pos')%nat -> False).
    { intros Hb. destruct (two_runs_outcome M fuel m recipe i name pre post v' v pos' pos t' t P' P HM Hi Hp' Hp H Hb Ht' Ht HP' HP) as [D|[D _]]; tauto. }
    destruct (Qlt_le_dec v' v) as [H1|H1].
    + exfalso. apply B. eapply position_order; eassumption.
    + destruct (le_lt_dec pos' pos); [apply A; assumption|exfalso; apply B; lia].
Qed.
