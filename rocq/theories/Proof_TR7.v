(** * Truthfulness of trade reduction with an all-ones recipe *)

From Coq Require Import String List Arith Lia QArith Lqa Permutation Sorted Bool.
From Verif Require Import Base Model_Agents Model_Trade Model_Prices Model_Market Model_Ascending Model_TradeReduction
  Spec_Market Spec_Trade Spec_Ascending Spec_TradeReduction Proof_Market Proof_Trade Proof_Prices Proof_Ascending
  Proof_Ascending2 Proof_Strategy Proof_Ascending3 Proof_Ascending4 Proof_Deals Proof_TR Proof_TR2 Proof_TR3 Proof_TR4 Proof_TR5 Proof_TR6.
Import ListNotations.
Open Scope Q_scope.

Section WalkDichotomy.
  Variables (M : Q) (ml mh : market) (recipe : list nat) (i b : nat) (z : bool).
  Hypothesis Hlenl : length recipe = length ml.
  Hypothesis Hlenh : length recipe = length mh.
  Hypothesis Hi : (i < length recipe)%nat.
  Hypothesis Hr : (0 < nth i recipe 0)%nat.
  Hypothesis Hother : forall j n, j <> i -> nth n (vals mh j) (- M) == nth n (vals ml j) (- M).
  Hypothesis Habove : forall n, (b < n)%nat -> nth n (vals mh i) (- M) == nth n (vals ml i) (- M).
  Hypothesis Hlow : nth b (vals ml i) (- M) <= nth b (vals mh i) (- M).

  (** The outcome with the low report is one in which the agent is gone. *)
  Definition gone (w : option (nat * list nat)) : Prop :=
    match w with Some (_, n) => (nth i n 0 <= b)%nat | None => True end.

  Lemma walk_gone : forall m o ns, (nth i ns 0 <= b)%nat -> gone (walk M m recipe z o ns).
  Proof.
    intros m o ns H. destruct (walk M m recipe z o ns) as [[a n]|] eqn:E; simpl; [|exact I].
    apply walk_last in E. destruct E as [_ [_ E]]. specialize (E i). lia.
  Qed.

  Lemma walk_dichotomy : forall o ns, (b < nth i ns 0)%nat ->
    (walk M ml recipe z o ns = walk M mh recipe z o ns)
    \/ (gone (walk M ml recipe z o ns)
        /\ (gone (walk M mh recipe z o ns)
            \/ exists nh, walk M mh recipe z o ns = Some (i, nh) /\ nth b (vals ml i) (- M) <= bal M mh recipe nh i)).
  Proof.
    induction o as [|main o IH]; intros ns Hb; [left; reflexivity|]. cbn [walk].
    destruct (le_lt_dec (nth i (dec main ns) 0%nat) b) as [Hd|Hd].
    - assert (Em : main = i).
      { destruct (Nat.eq_dec main i) as [E|E]; [assumption|]. rewrite nth_dec_other in Hd by assumption. lia. }
      subst main. rewrite nth_dec_same in Hd. assert (En : nth i ns 0%nat = S b) by lia.
      assert (Hq := Qn_pos _ Hr).
      assert (El := psum_dec M ml recipe ns i Hi). assert (Eh := psum_dec M mh recipe ns i Hi).
      rewrite En in El, Eh. replace (S b - 1)%nat with b in El, Eh by lia.
      rewrite (psum_same M ml mh recipe i b Hother Habove ns Hb) in Eh.
      rewrite (pr_same M ml mh i b Hother Habove ns i Hb) in Eh.
      assert (X : Qn (nth i recipe 0%nat) * nth b (vals ml i) (- M) <= Qn (nth i recipe 0%nat) * nth b (vals mh i) (- M))
        by (apply Qmult_le_l; assumption).
      assert (Hmono : psum M ml recipe (dec i ns) <= psum M mh recipe (dec i ns)) by (rewrite El, Eh; lra).
      destruct (accepts z (psum M ml recipe (dec i ns))) eqn:Al.
      + assert (Ah : accepts z (psum M mh recipe (dec i ns)) = true).
        { apply accepts_iff. apply accepts_iff in Al. eapply acceptable_le; eassumption. }
        rewrite Ah. left. reflexivity.
      + right. split; [apply walk_gone; rewrite nth_dec_same; lia|].
        destruct (accepts z (psum M mh recipe (dec i ns))) eqn:Ah.
        * right. exists ns. split; [reflexivity|].
          assert (Eb := bal_eq M mh recipe Hlenh ns i Hr).
          rewrite (psum_same M ml mh recipe i b Hother Habove ns Hb), (pr_same M ml mh i b Hother Habove ns i Hb) in Eb.
          assert (H0 : psum M ml recipe (dec i ns) <= 0).
          { apply (not_acceptable z). intros Y. apply accepts_iff in Y. congruence. }
          rewrite El in H0. apply Qnot_lt_le. intros Z.
          assert (Y : Qn (nth i recipe 0%nat) * bal M mh recipe ns i < Qn (nth i recipe 0%nat) * nth b (vals ml i) (- M)).
          { apply Qmult_lt_l; assumption. }
          lra.
        * left. apply walk_gone. rewrite nth_dec_same. lia.
    - rewrite (accepts_ext z (psum M mh recipe (dec main ns)) (psum M ml recipe (dec main ns)))
        by (apply (psum_same M ml mh recipe i b Hother Habove); assumption).
      destruct (accepts z (psum M ml recipe (dec main ns))); [left; reflexivity|]. apply IH. assumption.
  Qed.
End WalkDichotomy.

Lemma utility_walk : forall M m recipe ns main t P i pos v,
  length recipe = length m -> sizes_ok m ns -> (i < length recipe)%nat ->
  Forall2 cat_eq (tcats t) (shrink m ns) -> trecipe t = recipe -> tprices t = Some P ->
  qeq P (final_prices M m recipe ns (Some main)) ->
  utility t i pos v
  == (if (pos <? nth i ns 0)%nat
     then Qn (nth i recipe 0%nat * num_of_deals t) / Qn (nth i ns 0%nat) * (v - fp M m recipe ns (Some main) i)
     else 0).
Proof.
  intros M m recipe ns main t P i pos v Hl Hok Hi Hcat Hr HP Hq. unfold utility. rewrite Hr, HP.
  rewrite (nth_error_nth' recipe 0%nat Hi).
  assert (Hc : exists c, nth_error (tcats t) i = Some c /\ csize c = nth i ns 0%nat).
  { destruct (Forall2_cat_nth (shrink m ns) (tcats t) i (mkCat (cname (nth i m dcat)) (firstn (nth i ns 0%nat) (vals m i))) (Forall2_cat_sym _ _ Hcat)) as [c [E1 E2]].
    - unfold shrink. apply nth_error_map_seq. lia.
    - exists c. split; [assumption|]. rewrite <- (cat_eq_size _ _ E2). unfold csize. cbn [cvalues]. apply firstn_length_le. apply Hok. }
  destruct Hc as [c [-> ->]]. destruct (pos <? nth i ns 0)%nat; [|reflexivity].
  unfold fp. rewrite (qeq_nth _ _ i 0 Hq). reflexivity.
Qed.

Lemma utility_empty : forall t i pos v, (forall c, In c (tcats t) -> cvalues c = []) -> utility t i pos v = 0.
Proof.
  intros t i pos v H. unfold utility. destruct (nth_error (tcats t) i) as [c|] eqn:E; [|reflexivity].
  destruct (nth_error (trecipe t) i); [|reflexivity]. destruct (tprices t); [|reflexivity].
  unfold csize. rewrite (H c) by (eapply nth_error_In; eassumption).
  destruct (Nat.ltb_spec pos (length (@nil Q))) as [L|L]; [simpl in L; lia|reflexivity].
Qed.

Lemma tr_two_runs : forall M cap m recipe z i name pre post lo hi bl bh tl th, 0 < M -> all_ones recipe ->
  (i < length m)%nat ->
  possible_position (pre ++ post) lo bl -> possible_position (pre ++ post) hi bh ->
  lo <= hi -> (bh <= bl)%nat ->
  let Ml := set_nth i (mkCat name (pre ++ lo :: post)) m in
  let Mh := set_nth i (mkCat name (pre ++ hi :: post)) m in
  values_small M recipe Ml -> values_small M recipe Mh -> cap_suffices cap Ml recipe -> cap_suffices cap Mh recipe ->
  trade_reduction_M M cap Ml recipe z = Ok tl -> trade_reduction_M M cap Mh recipe z = Ok th ->
  (forall v, utility th i bh v == utility tl i bl v)
  \/ (forall v, utility tl i bl v == 0
        /\ (v <= lo -> utility th i bh v <= 0) /\ (hi <= v -> 0 <= utility th i bh v)).
Proof.
  intros M cap m recipe z i name pre post lo hi bl bh tl th HM H1 Him Hpl Hph Hle Hb Ml Mh Sml Smh Cl Ch Hl Hh.
  set (fuel := (total_agents Ml + total_agents Mh)%nat).
  destruct (tr_ones M cap Ml recipe z tl fuel HM H1 Sml Cl Hl ltac:(unfold fuel; lia)) as [Ll [Hne [Ntl Wl]]].
  destruct (tr_ones M cap Mh recipe z th fuel HM H1 Smh Ch Hh ltac:(unfold fuel; lia)) as [Lh [_ [Nth Wh]]].
  set (ml := clone_market Ml) in *. set (mh := clone_market Mh) in *.
  destruct (two_reports pre post lo hi bl bh (- M) Hpl Hph Hle Hb) as [R1 [R2 [R3 [R4 [R5 R6]]]]].
  assert (Vl : vals ml i = sort_desc (pre ++ lo :: post)).
  { unfold ml, Ml. rewrite clone_set_nth, vals_set_same by (rewrite clone_length; assumption). reflexivity. }
  assert (Vh : vals mh i = sort_desc (pre ++ hi :: post)).
  { unfold mh, Mh. rewrite clone_set_nth, vals_set_same by (rewrite clone_length; assumption). reflexivity. }
  assert (Vo : forall j, j <> i -> vals mh j = vals ml j).
  { intros j Hj. unfold ml, mh, Ml, Mh. rewrite !clone_set_nth, !vals_set_other by auto. reflexivity. }
  rewrite <- Vl, <- Vh in *.
  assert (Hi : (i < length recipe)%nat).
  { rewrite Ll. unfold ml, Ml. rewrite clone_length, set_nth_length. assumption. }
  assert (Hri : (0 < nth i recipe 0)%nat) by (rewrite (all_ones_nth recipe i H1 Hi); lia).
  assert (S0 : sizes0 mh = sizes0 ml).
  { apply list_ext_nth with (d := 0%nat).
    - unfold sizes0. rewrite !map_length. congruence.
    - intros j _. rewrite !sizes0_nth. destruct (Nat.eq_dec j i) as [->|Hn]; [auto|rewrite Vo by assumption; reflexivity]. }
  rewrite S0 in Wh.
  assert (Hstart : (bl < nth i (sizes0 ml) 0)%nat) by (rewrite sizes0_nth; assumption).
  set (o := path fuel recipe (sizes0 ml)) in *.
  assert (HO : forall j n, j <> i -> nth n (vals mh j) (- M) == nth n (vals ml j) (- M)).
  { intros j n Hj. rewrite Vo by assumption. reflexivity. }
  destruct (walk_dichotomy M ml mh recipe i bl z Ll Lh Hi Hri HO R3 ltac:(rewrite R4; exact R6) o (sizes0 ml) Hstart) as [D|[Dl Dh]].
  - rewrite <- D in Wh. destruct (walk M ml recipe z o (sizes0 ml)) as [[main ns]|] eqn:EW.
    + destruct Wl as [Pl [Okl [Cl' [Rl [Pl1 [Pl2 [B1 [B2 B3]]]]]]]].
      destruct Wh as [Ph [Okh [Ch' [Rh [Ph1 [Ph2 _]]]]]].
      destruct (le_lt_dec (nth i ns 0%nat) bl) as [Hout|Hin].
      * (* the agent is out of the low run; his utility there is 0 *)
        right. intros v.
        rewrite (utility_walk M ml recipe ns main tl Pl i bl v Ll Okl Hi Cl' Rl Pl1 Pl2).
        rewrite (utility_walk M mh recipe ns main th Ph i bh v Lh Okh Hi Ch' Rh Ph1 Ph2).
        destruct (Nat.ltb_spec bl (nth i ns 0%nat)); [lia|]. split; [reflexivity|].
        destruct (Nat.ltb_spec bh (nth i ns 0%nat)) as [Hin|Hin]; [|split; lra].
        assert (Hq : 0 <= Qn (nth i recipe 0%nat * num_of_deals th) / Qn (nth i ns 0%nat)).
        { apply Qle_shift_div_l; [apply Qn_pos; lia|]. rewrite Qmult_0_l. apply Qn_nonneg. }
        assert (Hdi : desc (vals mh i)) by (rewrite Vh; apply sort_desc_desc).
        assert (EWh : walk M mh recipe z o (sizes0 ml) = Some (main, ns)) by congruence.
        assert (Lastl := walk_last _ _ _ _ _ _ _ _ EWh). destruct Lastl as [A1 [A2 _]].
        assert (Neg : psum M mh recipe ns <= 0).
        { destruct A2 as [E|A2]; [|apply (not_acceptable z); assumption]. exfalso. rewrite E in Hout. lia. }
        assert (Plo : lo <= fp M mh recipe ns (Some main) i).
        { assert (X : lo <= pr M mh ns i).
          { unfold pr. eapply Qle_trans; [exact R6|]. apply desc_nth; [assumption|assumption|]. rewrite <- R1. lia. }
          destruct (Nat.eq_dec main i) as [->|Hn].
          - rewrite fp_main by lia. eapply Qle_trans; [exact X|]. apply bal_lower; assumption.
          - rewrite fp_other by (lia || congruence). assumption. }
        assert (Phi : fp M mh recipe ns (Some main) i <= hi).
        { assert (X : nth (nth i ns 0 - 1)%nat (vals mh i) (- M) <= hi).
          { rewrite <- R5. apply desc_nth; [assumption|lia|lia]. }
          destruct (Nat.eq_dec main i) as [->|Hn].
          - rewrite fp_main by lia. eapply Qle_trans; [|exact X]. apply bal_upper; [assumption|assumption|assumption|].
            apply (acceptable_nonneg z). assumption.
          - rewrite fp_other by (lia || congruence). eapply Qle_trans; [|exact X]. unfold pr. apply desc_nth; [assumption|lia|lia]. }
        set (q := Qn (nth i recipe 0%nat * num_of_deals th) / Qn (nth i ns 0%nat)) in *.
        set (x := fp M mh recipe ns (Some main) i) in *. clearbody q x.
        split; intros Hv; nra.
      * left. intros v.
        rewrite (utility_walk M ml recipe ns main tl Pl i bl v Ll Okl Hi Cl' Rl Pl1 Pl2).
        rewrite (utility_walk M mh recipe ns main th Ph i bh v Lh Okh Hi Ch' Rh Ph1 Ph2).
        destruct (Nat.ltb_spec bh (nth i ns 0%nat)); [|lia].
        destruct (Nat.ltb_spec bl (nth i ns 0%nat)); [|lia].
        assert (Ed : num_of_deals th = num_of_deals tl).
        { destruct (deals_max _ _ _ _ Ntl) as [_ [S1 X1]]. destruct (deals_max _ _ _ _ Nth) as [_ [S2 X2]].
          fold (num_of_deals tl) in S1, X1. fold (num_of_deals th) in S2, X2.
          assert (T1 : supports (shrink ml ns) recipe (num_of_deals tl)) by (eapply supports_cat_eq; eassumption).
          assert (T2 : supports (shrink mh ns) recipe (num_of_deals th)) by (eapply supports_cat_eq; eassumption).
          rewrite supports_shrink in T1, T2 by assumption.
          apply Nat.le_antisymm.
          - apply X1. eapply supports_cat_eq; [apply Forall2_cat_sym; eassumption|]. apply supports_shrink; assumption.
          - apply X2. eapply supports_cat_eq; [apply Forall2_cat_sym; eassumption|]. apply supports_shrink; assumption. }
        rewrite Ed.
        rewrite (fp_same M ml mh recipe i bl Ll Lh) with (ns := ns) (stop := Some main) (j := i); auto.
        -- reflexivity.
        -- intros mn E. inversion E; subst. assumption.
    + left. intros v. rewrite (utility_empty tl) by apply Wl. rewrite (utility_empty th) by apply Wh. reflexivity.
  - right. intros v.
    assert (Ul : utility tl i bl v == 0).
    { destruct (walk M ml recipe z o (sizes0 ml)) as [[main ns]|] eqn:EW.
      - destruct Wl as [Pl [Okl [Cl' [Rl [Pl1 [Pl2 _]]]]]].
        rewrite (utility_walk M ml recipe ns main tl Pl i bl v Ll Okl Hi Cl' Rl Pl1 Pl2).
        simpl in Dl. destruct (Nat.ltb_spec bl (nth i ns 0%nat)); [lia|reflexivity].
      - rewrite (utility_empty tl) by apply Wl. reflexivity. }
    split; [assumption|].
    destruct (walk M mh recipe z o (sizes0 ml)) as [[main ns]|] eqn:EWh.
    + destruct Wh as [Ph [Okh [Ch' [Rh [Ph1 [Ph2 [B1 [B2 B3]]]]]]]].
      rewrite (utility_walk M mh recipe ns main th Ph i bh v Lh Okh Hi Ch' Rh Ph1 Ph2).
      destruct (Nat.ltb_spec bh (nth i ns 0%nat)) as [Hin|Hin]; [|split; lra].
      assert (Hq : 0 <= Qn (nth i recipe 0%nat * num_of_deals th) / Qn (nth i ns 0%nat)).
      { apply Qle_shift_div_l; [apply Qn_pos; lia|]. rewrite Qmult_0_l. apply Qn_nonneg. }
      assert (Hdi : desc (vals mh i)) by (rewrite Vh; apply sort_desc_desc).
      assert (Hsz : (nth i ns 0 <= length (vals mh i))%nat) by apply Okh.
      destruct (walk_last _ _ _ _ _ _ _ _ EWh) as [A1 [A2 _]].
      assert (Plo : lo <= fp M mh recipe ns (Some main) i).
      { destruct Dh as [D|[nh [E D]]].
        - simpl in D.
          assert (X : lo <= pr M mh ns i).
          { unfold pr. eapply Qle_trans; [exact R6|]. apply desc_nth; [assumption|assumption|]. rewrite <- R1. lia. }
          assert (Neg : psum M mh recipe ns <= 0).
          { destruct A2 as [E|A2]; [|apply (not_acceptable z); assumption]. exfalso. rewrite E in D. lia. }
          destruct (Nat.eq_dec main i) as [->|Hn].
          + rewrite fp_main by lia. eapply Qle_trans; [exact X|]. apply bal_lower; assumption.
          + rewrite fp_other by (lia || congruence). assumption.
        - inversion E; subst main nh. rewrite fp_main by lia. rewrite <- R4. exact D. }
      assert (Phi : fp M mh recipe ns (Some main) i <= hi).
      { assert (X : nth (nth i ns 0 - 1)%nat (vals mh i) (- M) <= hi).
        { rewrite <- R5. apply desc_nth; [assumption|lia|lia]. }
        destruct (Nat.eq_dec main i) as [->|Hn].
        - rewrite fp_main by lia. eapply Qle_trans; [|exact X]. apply bal_upper; [assumption|assumption|assumption|].
          apply (acceptable_nonneg z). assumption.
        - rewrite fp_other by (lia || congruence). eapply Qle_trans; [|exact X].
          destruct Dh as [D|[nh [E D]]]; [|congruence]. simpl in D. unfold pr. apply desc_nth; [assumption|lia|lia]. }
      set (q := Qn (nth i recipe 0%nat * num_of_deals th) / Qn (nth i ns 0%nat)) in *.
      set (x := fp M mh recipe ns (Some main) i) in *. clearbody q x.
      split; intros Hv; nra.
    + rewrite (utility_empty th) by apply Wh. split; intros; lra.
Qed.

Theorem tr_truthful : forall M cap m recipe z i name pre post v v' pos pos' t t', 0 < M -> all_ones recipe ->
  (i < length m)%nat ->
  possible_position (pre ++ post) v pos -> possible_position (pre ++ post) v' pos' ->
  let honest := set_nth i (mkCat name (pre ++ v :: post)) m in
  let lying := set_nth i (mkCat name (pre ++ v' :: post)) m in
  values_small M recipe honest -> values_small M recipe lying ->
  cap_suffices cap honest recipe -> cap_suffices cap lying recipe ->
  trade_reduction_M M cap honest recipe z = Ok t -> trade_reduction_M M cap lying recipe z = Ok t' ->
  utility t' i pos' v <= utility t i pos v.
Proof.
  intros M cap m recipe z i name pre post v v' pos pos' t t' HM H1 Hi Hp Hp' honest lying Sh Sl Ch Cl Ht Ht'.
  destruct (Qlt_le_dec v v') as [H|H].
  - assert (Hb := position_order _ _ _ _ _ Hp Hp' H).
    destruct (tr_two_runs M cap m recipe z i name pre post v v' pos pos' t t' HM H1 Hi Hp Hp' ltac:(lra) Hb Sh Sl Ch Cl Ht Ht') as [D|D].
    + rewrite D. lra.
    + destruct (D v) as [D1 [D2 _]]. rewrite D1. apply D2. lra.
  - destruct (Qlt_le_dec v' v) as [H2|H2].
    + assert (Hb := position_order _ _ _ _ _ Hp' Hp H2).
      destruct (tr_two_runs M cap m recipe z i name pre post v' v pos' pos t' t HM H1 Hi Hp' Hp H Hb Sl Sh Cl Ch Ht' Ht) as [D|D].
      * rewrite D. lra.
      * destruct (D v) as [D1 [_ D3]]. rewrite D1. apply D3. lra.
    + destruct (le_lt_dec pos' pos) as [Hb|Hb].
      * destruct (tr_two_runs M cap m recipe z i name pre post v v' pos pos' t t' HM H1 Hi Hp Hp' H2 Hb Sh Sl Ch Cl Ht Ht') as [D|D].
        -- rewrite D. lra.
        -- destruct (D v) as [D1 [D2 _]]. rewrite D1. apply D2. lra.
      * destruct (tr_two_runs M cap m recipe z i name pre post v' v pos' pos t' t HM H1 Hi Hp' Hp H ltac:(lia) Sl Sh Cl Ch Ht' Ht) as [D|D].
        -- rewrite D. lra.
        -- destruct (D v) as [D1 [_ D3]]. rewrite D1. apply D3. lra.
Qed.
