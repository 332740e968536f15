(** * Truthfulness of the ascending auction *)

From Coq Require Import String List Arith Lia QArith Lqa Permutation Sorted Bool.
From Verif Require Import Base Model_Agents Model_Trade Model_Prices Model_Market Model_Ascending
  Spec_Market Spec_Trade Spec_Ascending Proof_Market Proof_Trade Proof_Prices Proof_Ascending
  Proof_Ascending2 Proof_Strategy.
Import ListNotations.
Open Scope Q_scope.

Lemma loop_sizes_le : forall M m recipe fuel ns ns' stop j,
  abs_loop M fuel m recipe ns = Ok (ns', stop) -> (nth j ns' 0 <= nth j ns 0)%nat.
Proof.
  intros M m recipe fuel ns ns' stop j H.
  apply (abs_loop_ind M m recipe (fun a => nth j a 0 <= nth j ns 0)%nat) in H; [tauto|lia|].
  intros a b Ha [main [_ [_ [_ ->]]]]. assert (X := nth_dec_le main j a). lia.
Qed.

(** The walk only looks at the values through their sizes and prices. *)
Lemma psum_ext : forall M m1 m2 recipe ns,
  (forall j, (j < length recipe)%nat -> (0 < nth j recipe 0)%nat -> pr M m1 ns j == pr M m2 ns j) ->
  psum M m1 recipe ns == psum M m2 recipe ns.
Proof. intros. apply wdot_ext. assumption. Qed.

Lemma Qle_bool_ext : forall a b c, b == c -> Qle_bool a b = Qle_bool a c.
Proof. intros a b c H. apply eq_true_iff_eq. rewrite !Qle_bool_iff, H. tauto. Qed.

Lemma abs_loop_ext : forall M m1 m2 recipe,
  (forall j n, nth n (vals m1 j) (- M) == nth n (vals m2 j) (- M)) ->
  forall fuel ns, abs_loop M fuel m1 recipe ns = abs_loop M fuel m2 recipe ns.
Proof.
  intros M m1 m2 recipe H. induction fuel as [|fuel IH]; intros ns; [reflexivity|].
  cbn [abs_loop]. destruct (choice recipe ns) as [main|e|]; [|reflexivity|reflexivity].
  cbn [bind]. destruct (nth main ns 0 =? 0)%nat; [reflexivity|].
  rewrite (Qle_bool_ext 0 (psum M m1 recipe (dec main ns)) (psum M m2 recipe (dec main ns))).
  - rewrite IH. reflexivity.
  - apply psum_ext. intros j _ _. apply H.
Qed.

Section Dichotomy.
  Variables (M : Q) (ml mh : market) (recipe : list nat) (i b : nat).
  Hypothesis Hlenl : length recipe = length ml.
  Hypothesis Hlenh : length recipe = length mh.
  Hypothesis Hi : (i < length recipe)%nat.
  Hypothesis Hother : forall j n, j <> i -> nth n (vals mh j) (- M) == nth n (vals ml j) (- M).
  Hypothesis Habove : forall n, (b < n)%nat -> nth n (vals mh i) (- M) == nth n (vals ml i) (- M).
  Hypothesis Hlow : nth b (vals ml i) (- M) <= nth b (vals mh i) (- M).

  Lemma pr_same : forall ns j, (b < nth i ns 0)%nat -> pr M mh ns j == pr M ml ns j.
  Proof.
    intros ns j H. unfold pr. destruct (Nat.eq_dec j i) as [->|Hne]; [apply Habove; assumption|apply Hother; assumption].
  Qed.

  Lemma psum_same : forall ns, (b < nth i ns 0)%nat -> psum M mh recipe ns == psum M ml recipe ns.
  Proof. intros ns H. apply psum_ext. intros j _ _. apply pr_same. assumption. Qed.

  Lemma dichotomy : forall fuel ns nl sl nh sh, (b < nth i ns 0)%nat ->
    abs_loop M fuel ml recipe ns = Ok (nl, sl) -> abs_loop M fuel mh recipe ns = Ok (nh, sh) ->
    (nl = nh /\ sl = sh /\ (b < nth i nl 0)%nat)
    \/ ((nth i nl 0 <= b)%nat
        /\ ((nth i nh 0 <= b)%nat
            \/ (sh = Some i /\ nth b (vals ml i) (- M) <= bal M mh recipe nh i))).
  Proof.
    induction fuel as [|fuel IH]; intros ns nl sl nh sh Hb Hl Hh; [discriminate|].
    cbn [abs_loop] in Hl, Hh. destruct (choice recipe ns) as [main|e|] eqn:Hch; try discriminate.
    cbn [bind] in Hl, Hh. destruct (Nat.eqb_spec (nth main ns 0%nat) 0) as [Hz|Hz].
    { inversion Hl; inversion Hh; subst. left. auto. }
    destruct (le_lt_dec (nth i (dec main ns) 0%nat) b) as [Hd|Hd].
    - (* the agent with the low report is about to leave *)
      assert (Em : main = i).
      { destruct (Nat.eq_dec main i) as [E|E]; [assumption|]. rewrite nth_dec_other in Hd by assumption. lia. }
      subst main. rewrite nth_dec_same in Hd. assert (En : nth i ns 0%nat = S b) by lia.
      apply choice_spec in Hch. destruct Hch as [_ [Hr _]]. assert (Hq := Qn_pos _ Hr).
      assert (El := psum_dec M ml recipe ns i Hi). assert (Eh := psum_dec M mh recipe ns i Hi).
      rewrite En in El, Eh. replace (S b - 1)%nat with b in El, Eh by lia.
      rewrite (psum_same ns Hb) in Eh. rewrite (pr_same ns i Hb) in Eh.
      assert (Hmono : psum M ml recipe (dec i ns) <= psum M mh recipe (dec i ns)).
      { rewrite El, Eh.
        assert (X : Qn (nth i recipe 0%nat) * nth b (vals ml i) (- M) <= Qn (nth i recipe 0%nat) * nth b (vals mh i) (- M)).
        { apply Qmult_le_l; assumption. }
        lra. }
      destruct (Qle_bool_reflect 0 (psum M ml recipe (dec i ns))) as [H0|H0].
      + destruct (Qle_bool_reflect 0 (psum M mh recipe (dec i ns))) as [H1|H1]; [|lra].
        inversion Hl; inversion Hh; subst. left. auto.
      + right. split.
        { apply (loop_sizes_le M ml recipe fuel _ _ _ i) in Hl. rewrite nth_dec_same in Hl. lia. }
        destruct (Qle_bool_reflect 0 (psum M mh recipe (dec i ns))) as [H1|H1].
        * inversion Hh; subst. right. split; [reflexivity|].
          assert (Eb := bal_eq M mh recipe Hlenh nh i Hr).
          rewrite (psum_same nh Hb), (pr_same nh i Hb) in Eb.
          apply Qnot_lt_le. intros X.
          assert (Y : Qn (nth i recipe 0%nat) * bal M mh recipe nh i < Qn (nth i recipe 0%nat) * nth b (vals ml i) (- M)).
          { apply Qmult_lt_l; assumption. }
          lra.
        * left. apply (loop_sizes_le M mh recipe fuel _ _ _ i) in Hh. rewrite nth_dec_same in Hh. lia.
    - rewrite (Qle_bool_ext 0 (psum M mh recipe (dec main ns)) (psum M ml recipe (dec main ns))) in Hh
        by (apply psum_same; assumption).
      destruct (Qle_bool 0 (psum M ml recipe (dec main ns))).
      + inversion Hl; inversion Hh; subst. left. auto.
      + apply (IH (dec main ns)); assumption.
  Qed.

  Lemma bal_same : forall ns main, (b < nth i ns 0)%nat -> (0 < nth main recipe 0)%nat ->
    bal M mh recipe ns main == bal M ml recipe ns main.
  Proof.
    intros ns main H Hr.
    assert (E1 := bal_eq M mh recipe Hlenh ns main Hr). assert (E2 := bal_eq M ml recipe Hlenl ns main Hr).
    rewrite (psum_same ns H), (pr_same ns main H) in E1. rewrite <- E2 in E1.
    assert (Hq := Qn_pos _ Hr). apply (Qmult_inj_l _ _ (Qn (nth main recipe 0%nat))); [lra|assumption].
  Qed.

  Lemma fp_same : forall ns stop j, (b < nth i ns 0)%nat -> (j < length recipe)%nat ->
    (forall main, stop = Some main -> (0 < nth main recipe 0)%nat) ->
    fp M mh recipe ns stop j == fp M ml recipe ns stop j.
  Proof.
    intros ns stop j H Hj Hst.
    assert (X : stop = Some j \/ stop <> Some j).
    { destruct stop as [k|]; [destruct (Nat.eq_dec k j); [left|right]; congruence|right; discriminate]. }
    destruct X as [->|X].
    - rewrite !fp_main by lia. apply bal_same; auto.
    - rewrite !fp_other by (auto; lia). apply pr_same. assumption.
  Qed.
End Dichotomy.

Lemma supports_shrink : forall m recipe ns n, length recipe = length m -> sizes_ok m ns ->
  supports (shrink m ns) recipe n <-> forall j, (j < length recipe)%nat -> (n * nth j recipe 0 <= nth j ns 0)%nat.
Proof.
  intros m recipe ns n Hl Hok. unfold supports.
  assert (Hc : forall j, (j < length m)%nat -> csize (mkCat (cname (nth j m dcat)) (firstn (nth j ns 0%nat) (vals m j))) = nth j ns 0%nat).
  { intros j Hj. unfold csize. cbn [cvalues]. apply firstn_length_le. apply Hok. }
  split.
  - intros H j Hj. rewrite <- (Hc j) by lia. apply (H j).
    + unfold shrink. apply nth_error_map_seq. lia.
    + apply nth_error_nth'. assumption.
  - intros H j c r Hcj Hr. assert (Hj : (j < length recipe)%nat) by (apply nth_error_Some; congruence).
    unfold shrink in Hcj. rewrite nth_error_map_seq in Hcj by lia. inversion Hcj; subst c.
    rewrite Hc by lia. rewrite <- (nth_error_nth _ _ 0%nat Hr). apply H. assumption.
Qed.

(** The utility in terms of the outcome of the walk. *)
Lemma utility_outcome : forall M m recipe ns stop t i pos v,
  length recipe = length m -> sizes_ok m ns -> (i < length recipe)%nat ->
  t = mkTrade (shrink m ns) recipe (Some (final_prices M m recipe ns stop)) (num_of_deals t) ->
  utility t i pos v
  = (if (pos <? nth i ns 0)%nat
     then Qn (nth i recipe 0%nat * num_of_deals t) / Qn (nth i ns 0%nat) * (v - fp M m recipe ns stop i)
     else 0).
Proof.
  intros M m recipe ns stop t i pos v Hl Hok Hi Ht. unfold utility.
  assert (E1 : tcats t = shrink m ns) by (rewrite Ht; reflexivity).
  assert (E2 : trecipe t = recipe) by (rewrite Ht; reflexivity).
  assert (E3 : tprices t = Some (final_prices M m recipe ns stop)) by (rewrite Ht; reflexivity).
  rewrite E1, E2, E3.
  unfold shrink. rewrite nth_error_map_seq by lia.
  rewrite (nth_error_nth' recipe 0%nat Hi).
  assert (E : csize (mkCat (cname (nth i m dcat)) (firstn (nth i ns 0%nat) (vals m i))) = nth i ns 0%nat).
  { unfold csize. cbn [cvalues]. apply firstn_length_le. apply Hok. }
  rewrite E. reflexivity.
Qed.

Lemma clone_set_nth : forall i c m, clone_market (set_nth i c m) = set_nth i (clone c) (clone_market m).
Proof.
  induction i; destruct m; simpl; [reflexivity|reflexivity|reflexivity|]. f_equal. apply IHi.
Qed.

Lemma vals_set_same : forall i c m, (i < length m)%nat -> vals (set_nth i c m) i = cvalues c.
Proof. intros. unfold vals. rewrite nth_set_nth_same by assumption. reflexivity. Qed.

Lemma vals_set_other : forall i j c m, i <> j -> vals (set_nth i c m) j = vals m j.
Proof. intros. unfold vals. rewrite nth_set_nth_other by assumption. reflexivity. Qed.

Lemma total_agents_set : forall i c c' m, nth_error m i = Some c -> csize c = csize c' ->
  total_agents (set_nth i c' m) = total_agents m.
Proof.
  unfold total_agents. induction i; intros c c' [|a m] H E; simpl in *; try discriminate.
  - inversion H; subst. rewrite E. reflexivity.
  - rewrite (IHi c c' m H E). reflexivity.
Qed.

(** Two runs that differ in one report. *)
Lemma two_runs : forall M fuel m recipe i name pre post lo hi bl bh tl th, 0 < M ->
  (i < length m)%nat ->
  possible_position (pre ++ post) lo bl -> possible_position (pre ++ post) hi bh ->
  lo <= hi -> (bh <= bl)%nat ->
  ascending_auction_M M fuel (set_nth i (mkCat name (pre ++ lo :: post)) m) recipe = Ok tl ->
  ascending_auction_M M fuel (set_nth i (mkCat name (pre ++ hi :: post)) m) recipe = Ok th ->
  (forall v, utility th i bh v == utility tl i bl v)
  \/ (forall v, utility tl i bl v == 0
        /\ (v <= lo -> utility th i bh v <= 0) /\ (hi <= v -> 0 <= utility th i bh v)).
Proof.
  intros M fuel m recipe i name pre post lo hi bl bh tl th HM Him Hpl Hph Hle Hb Hl Hh.
  apply auction_outcome in Hl. apply auction_outcome in Hh.
  destruct Hl as [Ll [Hpos [nl [sl [Ol [Al [El [Sl Xl]]]]]]]].
  destruct Hh as [Lh [_ [nh [sh [Oh [Ah [Eh [Sh Xh]]]]]]]].
  set (ml := clone_market (set_nth i (mkCat name (pre ++ lo :: post)) m)) in *.
  set (mh := clone_market (set_nth i (mkCat name (pre ++ hi :: post)) m)) in *.
  destruct (two_reports pre post lo hi bl bh (- M) Hpl Hph Hle Hb) as [R1 [R2 [R3 [R4 [R5 R6]]]]].
  assert (Vl : vals ml i = sort_desc (pre ++ lo :: post)).
  { unfold ml. rewrite clone_set_nth, vals_set_same by (rewrite clone_length; assumption). reflexivity. }
  assert (Vh : vals mh i = sort_desc (pre ++ hi :: post)).
  { unfold mh. rewrite clone_set_nth, vals_set_same by (rewrite clone_length; assumption). reflexivity. }
  assert (Vo : forall j, j <> i -> vals mh j = vals ml j).
  { intros j Hj. unfold ml, mh. rewrite !clone_set_nth, !vals_set_other by auto. reflexivity. }
  rewrite <- Vl, <- Vh in *.
  assert (Hi : (i < length recipe)%nat).
  { rewrite Ll. unfold ml. rewrite clone_length, set_nth_length. assumption. }
  assert (S0 : sizes0 mh = sizes0 ml).
  { apply list_ext_nth with (d := 0%nat).
    - unfold sizes0. rewrite !map_length. congruence.
    - intros j _. rewrite !sizes0_nth. destruct (Nat.eq_dec j i) as [->|Hne]; [auto|rewrite Vo by assumption; reflexivity]. }
  rewrite S0 in Ah.
  assert (Hstart : (bl < nth i (sizes0 ml) 0)%nat) by (rewrite sizes0_nth; assumption).
  assert (D := dichotomy M ml mh recipe i bl Ll Lh Hi
     ltac:(intros j n Hj; rewrite Vo by assumption; reflexivity) R3
     ltac:(rewrite R4; exact R6) fuel (sizes0 ml) nl sl nh sh Hstart Al Ah).
  assert (Kl := proj1 (outcome_inv M ml recipe HM Ll Hpos nl sl Ol)).
  assert (Kh := proj1 (outcome_inv M mh recipe HM Lh Hpos nh sh Oh)).
  destruct D as [[<- [<- Hn]]|[Hn D]].
  - left. intros v.
    rewrite (utility_outcome M ml recipe nl sl tl i bl v Ll Kl Hi El).
    rewrite (utility_outcome M mh recipe nl sl th i bh v Lh Kh Hi Eh).
    destruct (Nat.ltb_spec bh (nth i nl 0%nat)); [|lia].
    destruct (Nat.ltb_spec bl (nth i nl 0%nat)); [|lia].
    assert (Ed : num_of_deals th = num_of_deals tl).
    { apply Nat.le_antisymm.
      - apply Xl. apply supports_shrink; [assumption|assumption|].
        apply (supports_shrink mh recipe nl _ Lh Kh). assumption.
      - apply Xh. apply supports_shrink; [assumption|assumption|].
        apply (supports_shrink ml recipe nl _ Ll Kl). assumption. }
    rewrite Ed.
    rewrite (fp_same M ml mh recipe i bl Ll Lh) with (ns := nl) (stop := sl) (j := i); auto.
    + reflexivity.
    + intros j n Hj. rewrite Vo by assumption. reflexivity.
    + intros main E. destruct (outcome_inv M ml recipe HM Ll Hpos nl sl Ol) as [_ [_ [mn [Hch [[X _]|[X _]]]]]]; [congruence|].
      assert (mn = main) by congruence. subst mn. apply choice_spec in Hch. tauto.
  - right. intros v.
    rewrite (utility_outcome M ml recipe nl sl tl i bl v Ll Kl Hi El).
    rewrite (utility_outcome M mh recipe nh sh th i bh v Lh Kh Hi Eh).
    destruct (Nat.ltb_spec bl (nth i nl 0%nat)); [lia|]. split; [reflexivity|].
    destruct (Nat.ltb_spec bh (nth i nh 0%nat)) as [Hin|Hin]; [|split; lra].
    assert (Him' : (i < length mh)%nat) by lia.
    assert (Hq : 0 <= Qn (nth i recipe 0%nat * num_of_deals th) / Qn (nth i nh 0%nat)).
    { apply Qle_shift_div_l; [apply Qn_pos; lia|]. rewrite Qmult_0_l. apply Qn_nonneg. }
    assert (Hs : sorted_market mh) by apply clone_sorted.
    assert (Hdi : desc (vals mh i)) by (rewrite Vh; apply sort_desc_desc).
    assert (Hsz : (nth i nh 0 <= length (vals mh i))%nat) by apply Kh.
    split; intros Hv.
    + assert (Hp : lo <= fp M mh recipe nh sh i).
      { destruct D as [D|[-> D]].
        - eapply Qle_trans; [|apply fp_lower; eassumption]. unfold pr.
          eapply Qle_trans; [exact R6|]. apply desc_nth; [assumption|assumption|].
          rewrite <- R1. assumption.
        - rewrite fp_main by assumption. rewrite <- R4. exact D. }
      assert (X : (v - fp M mh recipe nh sh i) <= 0) by lra.
      set (q := Qn (nth i recipe 0%nat * num_of_deals th) / Qn (nth i nh 0%nat)) in *.
      set (x := v - fp M mh recipe nh sh i) in *. clearbody q x. nra.
    + assert (Hp : fp M mh recipe nh sh i <= hi).
      { eapply Qle_trans; [apply (fp_upper M mh recipe HM Lh Hpos nh sh i Oh Hs Him'); [lia|]|].
        - destruct D as [D|[-> _]]; [left; rewrite <- R1; lia|right; left; reflexivity].
        - rewrite <- R5. apply desc_nth; [assumption|lia|lia]. }
      assert (X : 0 <= (v - fp M mh recipe nh sh i)) by lra.
      set (q := Qn (nth i recipe 0%nat * num_of_deals th) / Qn (nth i nh 0%nat)) in *.
      set (x := v - fp M mh recipe nh sh i) in *. clearbody q x. nra.
Qed.

(** C14 *)
Theorem ascending_truthful : forall M fuel m recipe i name pre post v v' pos pos' t t', 0 < M ->
  (i < length m)%nat ->
  possible_position (pre ++ post) v pos -> possible_position (pre ++ post) v' pos' ->
  ascending_auction_M M fuel (set_nth i (mkCat name (pre ++ v :: post)) m) recipe = Ok t ->
  ascending_auction_M M fuel (set_nth i (mkCat name (pre ++ v' :: post)) m) recipe = Ok t' ->
  utility t' i pos' v <= utility t i pos v.
Proof.
  intros M fuel m recipe i name pre post v v' pos pos' t t' HM Hi Hp Hp' Ht Ht'.
  destruct (Qlt_le_dec v v') as [H|H].
  - assert (Hb := position_order _ _ _ _ _ Hp Hp' H).
    destruct (two_runs M fuel m recipe i name pre post v v' pos pos' t t' HM Hi Hp Hp' ltac:(lra) Hb Ht Ht') as [D|D].
    + rewrite D. lra.
    + destruct (D v) as [D1 [D2 _]]. rewrite D1. apply D2. lra.
  - destruct (Qlt_le_dec v' v) as [H1|H1].
    + assert (Hb := position_order _ _ _ _ _ Hp' Hp H1).
      destruct (two_runs M fuel m recipe i name pre post v' v pos' pos t' t HM Hi Hp' Hp H Hb Ht' Ht) as [D|D].
      * rewrite D. lra.
      * destruct (D v) as [D1 [_ D3]]. rewrite D1. apply D3. lra.
    + destruct (le_lt_dec pos' pos) as [Hb|Hb].
      * destruct (two_runs M fuel m recipe i name pre post v v' pos pos' t t' HM Hi Hp Hp' H1 Hb Ht Ht') as [D|D].
        -- rewrite D. lra.
        -- destruct (D v) as [D1 [D2 _]]. rewrite D1. apply D2. lra.
      * destruct (two_runs M fuel m recipe i name pre post v' v pos' pos t' t HM Hi Hp' Hp H ltac:(lia) Ht' Ht) as [D|D].
        -- rewrite D. lra.
        -- destruct (D v) as [D1 [_ D3]]. rewrite D1. apply D3. lra.
Qed.
