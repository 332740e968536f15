(** * McAfee's trade reduction: budget, individual rationality, deals, gain, errors *)

From Coq Require Import String List Arith Lia QArith Lqa Qabs Permutation Sorted Bool.
From Verif Require Import Base Model_Agents Model_Trade Model_Prices Model_Market Model_TradeReduction Model_McAfee
  Spec_Market Spec_Trade Spec_Ascending Spec_TradeReduction Spec_McAfee
  Proof_Market Proof_Trade Proof_Ascending Proof_Ascending2 Proof_Deals
  Proof_TR2 Proof_McAfee.
Import ListNotations.
Open Scope Q_scope.

(** ** Errors *)

Lemma optimal_loop_nil : forall cap acc, exists acc', optimal_loop cap [] [] true acc = Ok (acc', []).
Proof.
  induction cap as [|cap IH]; intros acc; simpl; [eauto|].
  destruct (IH (acc ++ [[]])) as [acc' E]. rewrite E. eauto.
Qed.

Lemma mcafee_ok_inv : forall M cap m recipe h t, mcafee_M M cap m recipe h = Ok t ->
  m <> [] /\ length recipe = length m /\ all_ones recipe.
Proof.
  intros M cap m recipe h t H. unfold mcafee_M in H.
  destruct (Nat.eqb_spec (length recipe) (length m)) as [Hl|Hl]; [|discriminate]. cbn [negb] in H.
  destruct (forallb (fun r => r =? 1)%nat recipe) eqn:E1; [|discriminate]. cbn [negb] in H.
  split; [|split; [assumption|apply ones_inv; assumption]].
  intros ->. destruct recipe; [|discriminate].
  assert (F : forall l, fold_result (fun t ps => mcafee_add_ps 0 0 ps t) l [] = Ok []).
  { intros l. induction l as [|x l IHl]; [reflexivity|assumption]. }
  apply bind_Ok in H. destruct H as [[deals rem] [Ho H]]. unfold optimal_trade in Ho. cbn in Ho.
  destruct (optimal_loop_nil cap []) as [acc' E]. rewrite E in Ho. cbn in Ho. inversion Ho; subst. cbn in H.
  destruct h; [discriminate|]. cbn in H.
  destruct (isort _ acc') as [|lp others]; [discriminate|]. change (fun (t0 : list category) (_ : list Q) => Ok t0) with (fun (t0 : list category) ps => mcafee_add_ps 0 0 ps t0) in H. rewrite F in H. cbn in H. discriminate.
Qed.

Theorem mcafee_errors : forall M cap m recipe h, m <> [] ->
  ((exists t, mcafee_M M cap m recipe h = Ok t) /\ length recipe = length m /\ all_ones recipe)
  \/ (mcafee_M M cap m recipe h = Raise ValueError /\ ~ (length recipe = length m /\ all_ones recipe)).
Proof.
  intros M cap m recipe h Hne.
  destruct (Nat.eq_dec (length recipe) (length m)) as [Hl|Hl].
  2:{ right. split; [|tauto]. unfold mcafee_M. destruct (Nat.eqb_spec (length recipe) (length m)); [contradiction|reflexivity]. }
  destruct (forallb (fun r => r =? 1)%nat recipe) eqn:E1.
  - left. assert (H1 := ones_inv _ E1).
    destruct (mcafee_spec M cap m recipe h Hne Hl H1) as [k [deals [_ [_ [_ [t [E _]]]]]]]. eauto.
  - right. split.
    + unfold mcafee_M. rewrite Hl, Nat.eqb_refl, E1. reflexivity.
    + intros [_ H1]. rewrite (ones_forallb _ H1) in E1. discriminate.
Qed.

(** ** A convenient form of the description *)

Lemma row_length : forall d m t, length (row d m t) = length m.
Proof. intros. apply map_length. Qed.

Lemma candidate_nonneg : forall M m k, 0 <= candidate M m k.
Proof.
  intros M m k. unfold candidate. destruct m as [|c m]; [vm_compute; discriminate|].
  apply Qle_shift_div_l; [apply Qn_pos; simpl; lia|]. rewrite Qmult_0_l.
  apply Qsum_nonneg. apply Forall_forall. intros x Hx. apply in_map_iff in Hx. destruct Hx as [y [<- _]]. apply Qabs_nonneg.
Qed.

Lemma good_iff : forall p ps, is_price_good_for_ps p ps = true <->
  forall x, In x ps -> (0 <= x -> p <= x) /\ (x <= 0 -> - p <= x).
Proof.
  intros p ps. unfold is_price_good_for_ps. rewrite forallb_forall. split; intros H x Hx; specialize (H x Hx).
  - apply negb_true_iff, orb_false_iff in H. destruct H as [Ha Hb]. apply andb_false_iff in Ha, Hb. split; intros Hs.
    + destruct Ha as [Ha|Ha]; [apply Qle_bool_false in Ha; lra|]. apply Qlt_bool_false in Ha. assumption.
    + destruct Hb as [Hb|Hb]; [apply Qle_bool_false in Hb; lra|]. apply Qlt_bool_false in Hb. assumption.
  - destruct H as [Ha Hb]. apply negb_true_iff, orb_false_iff. split; apply andb_false_iff.
    + destruct (Qle_bool_reflect 0 x); [right|left; reflexivity]. apply Qlt_bool_false. auto.
    + destruct (Qle_bool_reflect x 0); [right|left; reflexivity]. apply Qlt_bool_false. auto.
Qed.

Lemma good_proper : forall p ps ps', qeq ps ps' -> is_price_good_for_ps p ps = is_price_good_for_ps p ps'.
Proof.
  intros p ps ps' H. apply eq_true_iff_eq. rewrite !good_iff.
  split; intros G x Hx.
  - destruct (qeq_In _ _ x (qeq_sym _ _ H) Hx) as [y [Hy E]]. destruct (G y Hy). split; intros X.
    + rewrite E in X |- *. auto.
    + rewrite E in X |- *. auto.
  - destruct (qeq_In _ _ x H Hx) as [y [Hy E]]. destruct (G y Hy). split; intros X.
    + rewrite E in X |- *. auto.
    + rewrite E in X |- *. auto.
Qed.

Lemma accepted_row : forall M m k h lp, qeq lp (row 0 m (k - 1)) -> accepted M m k h lp = accepted M m k h (row 0 m (k - 1)).
Proof. intros. unfold accepted. f_equal. apply good_proper. assumption. Qed.

(** Everything about the result, with the number [k] of optimal deals. *)
Record mc_result (M : Q) (m' : market) (k : nat) (h : bool) (t : trade) : Prop := {
  mc_len : length (tcats t) = length m';
  mc_cat : forall i, (i < length m')%nat -> cname (nth i (tcats t) dcat) = cname (nth i m' dcat)
            /\ desc (cvalues (nth i (tcats t) dcat))
            /\ qeq (cvalues (nth i (tcats t) dcat)) (firstn (num_of_deals t) (vals m' i));
  mc_deals : num_of_deals t = match k with O => 0%nat | S k' => if accepted M m' k h (row 0 m' k') then k else k' end;
  mc_prices : exists P, tprices t = Some P /\ length P = length m'
     /\ forall i, (i < length m')%nat -> nth i P 0 ==
          match k with
          | O => 0
          | S k' => let x := nth k' (vals m' i) 0 in
                    if accepted M m' k h (row 0 m' k') then (if Qlt_bool x 0 then - candidate M m' k else candidate M m' k) else x
          end
}.

Lemma Qlt_bool_proper : forall a b c, a == b -> Qlt_bool a c = Qlt_bool b c.
Proof. intros a b c H. apply eq_true_iff_eq. rewrite !Qlt_bool_iff. rewrite H. reflexivity. Qed.

Lemma mcafee_result : forall M cap m recipe h t deals rem, mcafee_M M cap m recipe h = Ok t ->
  optimal_trade cap m recipe true = Ok (deals, rem) ->
  let m' := clone_market m in let k := mt_num_of_deals deals in
  m <> [] /\ length recipe = length m /\ all_ones recipe /\ stops_at cap k m' recipe true /\ trecipe t = recipe
  /\ mt_gain_from_trade deals == top_gain m' recipe k
  /\ mc_result M m' k h t.
Proof.
  intros M cap m recipe h t deals rem H Ho m' k.
  destruct (mcafee_ok_inv _ _ _ _ _ _ H) as [Hne [Hl H1]].
  destruct (mcafee_spec M cap m recipe h Hne Hl H1) as [k0 [deals0 [E0 [L0 [S0 [t0 [Et [Er [Ltc [Hc Hk]]]]]]]]]].
  assert (t0 = t) by congruence. subst t0.
  rewrite E0 in Ho. inversion Ho; subst deals0 rem. clear Ho.
  assert (Hkk : k0 = k) by (unfold k, mt_num_of_deals; congruence). rewrite Hkk in S0, Hk, E0. clear L0 Hkk. fold m' in S0, Hc, Hk, E0.
  assert (Hlm : length m' = length m) by apply clone_length.
  split; [assumption|]. split; [assumption|]. split; [assumption|]. split; [assumption|]. split; [assumption|]. split.
  { destruct (optimal_trade_spec cap m recipe true Hl) as [k1 [E1 S1]]. fold m' in E1, S1.
    rewrite E0 in E1. inversion E1 as [[D1 D2]].
    assert (k1 = k).
    { unfold k, mt_num_of_deals. rewrite D1, (Permutation_length (sort_by_perm _ _ _)), map_length, seq_length. reflexivity. }
    subst k1. unfold mt_gain_from_trade. rewrite <- sorted_deals_flat.
    change (Qsum (map Qsum (map (@concat Q) (sorted_deals m' recipe k)))) with (mt_gain_from_trade (map (@concat Q) (sorted_deals m' recipe k))).
    rewrite mt_gain_flat. apply sorted_deals_gain. }
  constructor.
  - congruence.
  - intros i Hi. rewrite Hlm in Hi. apply Hc. assumption.
  - clearbody k. destruct k as [|k']; [apply Hk|].
    destruct Hk as [lp [Hq Hk]].
    assert (EA := accepted_row M m' (S k') h lp ltac:(simpl; rewrite Nat.sub_0_r; assumption)). simpl Nat.sub in EA. rewrite Nat.sub_0_r in EA.
    rewrite <- EA. destruct (accepted M m' (S k') h lp); tauto.
  - clearbody k. destruct k as [|k'].
    + exists (repeat 0 (length m)). split; [apply Hk|]. split; [rewrite repeat_length; auto|].
      intros i Hi. rewrite nth_repeat. reflexivity.
    + destruct Hk as [lp [Hq Hk]].
      assert (EA := accepted_row M m' (S k') h lp ltac:(simpl; rewrite Nat.sub_0_r; assumption)). simpl Nat.sub in EA. rewrite Nat.sub_0_r in EA.
      rewrite <- EA.
      assert (Hn : forall i, (i < length m')%nat -> nth i lp 0 == nth k' (vals m' i) 0).
      { intros i Hi. rewrite (qeq_nth _ _ i 0 Hq), col_nth by assumption. reflexivity. }
      assert (Llp : length lp = length m') by (rewrite (qeq_length _ _ Hq); apply row_length).
      destruct (accepted M m' (S k') h lp).
      * destruct Hk as [_ Hk]. eexists. split; [exact Hk|]. split; [rewrite map_length; assumption|].
        intros i Hi. set (f := fun x => if Qlt_bool x 0 then candidate M m' (S k') * (-1) else candidate M m' (S k') * 1).
        rewrite (nth_indep _ 0 (f 0)) by (rewrite map_length; lia). rewrite (map_nth f). unfold f.
        cbv zeta. rewrite (Qlt_bool_proper _ _ 0 (Hn i Hi)). destruct (Qlt_bool (nth k' (vals m' i) 0) 0); ring.
      * destruct Hk as [_ Hk]. exists lp. split; [assumption|]. split; [assumption|]. intros i Hi. cbv zeta. apply Hn. assumption.
Qed.

Lemma mcafee_optimal : forall M cap m recipe h t, mcafee_M M cap m recipe h = Ok t ->
  exists deals rem, optimal_trade cap m recipe true = Ok (deals, rem).
Proof.
  intros M cap m recipe h t H. destruct (mcafee_ok_inv _ _ _ _ _ _ H) as [_ [Hl _]].
  destruct (optimal_trade_spec cap m recipe true Hl) as [k [E _]]. eauto.
Qed.

(** The rows of the optimal deals exist, and their total value is not negative. *)
Lemma ones_enough : forall m recipe n j, all_ones recipe -> length recipe = length m -> enough n m recipe ->
  (j < length m)%nat -> (n <= length (vals m j))%nat.
Proof.
  intros m recipe n j H1 Hl He Hj.
  assert (Er : nth_error recipe j = Some 1%nat).
  { destruct (nth_error recipe j) as [r|] eqn:Er.
    - f_equal. unfold all_ones in H1. rewrite Forall_forall in H1. apply H1. eapply nth_error_In; eassumption.
    - apply nth_error_None in Er. lia. }
  specialize (He j (nth j m dcat) 1%nat (nth_error_nth' _ _ Hj) Er). unfold vals. unfold csize in He. lia.
Qed.

Lemma ones_gain : forall m recipe t, all_ones recipe -> length recipe = length m -> enough (S t) m recipe ->
  ps_gain m recipe t == Qsum (row 0 m t).
Proof. intros. rewrite <- ps_gain_concat, (ps_row 0) by assumption. reflexivity. Qed.

Lemma ones_dot : forall P recipe, all_ones recipe -> length P = length recipe -> dot P recipe == Qsum P.
Proof.
  induction P as [|p P IH]; intros [|r recipe] H1 Hl; simpl in Hl; try discriminate; [reflexivity|].
  inversion H1; subst. cbn [dot Qsum fold_right]. rewrite IH by (assumption || lia). rewrite Qn_1. unfold Qsum. ring.
Qed.

Lemma vals_desc : forall m j, sorted_market m -> desc (vals m j).
Proof.
  intros m j H. unfold vals. destruct (le_lt_dec (length m) j) as [L|L].
  - rewrite nth_overflow by assumption. constructor.
  - unfold sorted_market in H. rewrite Forall_forall in H. apply H. apply nth_In. assumption.
Qed.

Lemma accepted_inv : forall M m k h ps, accepted M m k h ps = true ->
  h = true /\ forall x, In x ps -> (0 <= x -> candidate M m k <= x) /\ (x <= 0 -> - candidate M m k <= x).
Proof.
  intros M m k h ps H. unfold accepted in H. apply andb_true_iff in H. destruct H as [-> H].
  split; [reflexivity|]. apply good_iff. assumption.
Qed.

(** ** Budget *)

Lemma mc_rejected_budget : forall M cap m recipe h t deals rem P, mcafee_M M cap m recipe h = Ok t ->
  optimal_trade cap m recipe true = Ok (deals, rem) -> tprices t = Some P ->
  (h = false \/ (num_of_deals t <> mt_num_of_deals deals)%nat) -> 0 <= dot P recipe.
Proof.
  intros M cap m recipe h t deals rem P H Ho HP Hr.
  destruct (mcafee_result _ _ _ _ _ _ _ _ H Ho) as [Hne [Hl [H1 [Hst [Er [_ R]]]]]].
  set (m' := clone_market m) in *. set (k := mt_num_of_deals deals) in *.
  assert (Hlm : length m' = length m) by apply clone_length.
  destruct (mc_prices _ _ _ _ _ R) as [P' [HP' [LP Hp]]]. assert (P' = P) by congruence. subst P'.
  rewrite ones_dot by (assumption || lia).
  assert (D := mc_deals _ _ _ _ _ R).
  destruct k as [|k'].
  - assert (qeq P (repeat 0 (length P))).
    { apply qeq_of_nth; [rewrite repeat_length; reflexivity|]. intros x Hx. rewrite nth_repeat. apply Hp. lia. }
    rewrite (qeq_sum _ _ H0). clear. induction (length P); simpl; lra.
  - assert (EA : accepted M m' (S k') h (row 0 m' k') = false).
    { destruct Hr as [->|Hr]; [reflexivity|]. destruct (accepted M m' (S k') h (row 0 m' k')); [lia|reflexivity]. }
    rewrite EA in Hp. destruct Hst as [_ [He [Ha _]]].
    assert (qeq P (row 0 m' k')).
    { apply qeq_of_nth; [rewrite row_length; assumption|]. intros x Hx. rewrite col_nth by lia. apply Hp. lia. }
    rewrite (qeq_sum _ _ H0), <- (ones_gain m' recipe k') by (assumption || lia).
    assert (X := Ha k' ltac:(lia)). exact X.
Qed.

Theorem mcafee_no_deficit_two : forall M cap m recipe h t prices, (length m <= 2)%nat ->
  mcafee_M M cap m recipe h = Ok t -> tprices t = Some prices -> 0 <= dot prices recipe.
Proof.
  intros M cap m recipe h t P L2 H HP.
  destruct (mcafee_optimal _ _ _ _ _ _ H) as [deals [rem Ho]].
  destruct (Nat.eq_dec (num_of_deals t) (mt_num_of_deals deals)) as [Ed|Ed].
  2:{ eapply mc_rejected_budget; eauto. }
  destruct (mcafee_result _ _ _ _ _ _ _ _ H Ho) as [Hne [Hl [H1 [Hst [Er [_ R]]]]]].
  set (m' := clone_market m) in *. set (k := mt_num_of_deals deals) in *.
  assert (Hlm : length m' = length m) by apply clone_length.
  destruct (mc_prices _ _ _ _ _ R) as [P' [HP' [LP Hp]]]. assert (P' = P) by congruence. subst P'.
  rewrite ones_dot by (assumption || lia).
  assert (D := mc_deals _ _ _ _ _ R).
  assert (C := candidate_nonneg M m' k).
  destruct k as [|k'].
  - destruct P as [|p0 [|p1 [|p2 P]]]; simpl in LP; try lia.
    + simpl. lra.
    + assert (X0 := Hp 0%nat ltac:(lia)). simpl in X0 |- *. lra.
    + assert (X0 := Hp 0%nat ltac:(lia)). assert (X1 := Hp 1%nat ltac:(lia)). simpl in X0, X1 |- *. lra.
  - destruct (accepted M m' (S k') h (row 0 m' k')); [|lia]. clear D. cbv zeta in Hp.
    destruct Hst as [_ [He [Ha _]]]. assert (G := Ha k' ltac:(lia)).
    eapply acceptable_proper in G; [|apply ones_gain; assumption || lia]. cbn in G.
    assert (Hrow := fun i Hi => col_nth m' i k' Hi). unfold vals in Hp.
    set (R0 := row 0 m' k') in *. assert (LR : length R0 = length m') by apply row_length.
    destruct P as [|p0 [|p1 [|p2 P]]]; simpl in LP; try lia.
    + simpl. lra.
    + destruct R0 as [|r0 [|r1 R0]]; simpl in LR; try lia.
      assert (X0 := Hp 0%nat ltac:(lia)). rewrite <- Hrow in X0 by lia. cbn [nth] in X0. simpl in G |- *.
      destruct (Qlt_bool_reflect r0 0) as [Y|Y]; lra.
    + destruct R0 as [|r0 [|r1 [|r2 R0]]]; simpl in LR; try lia.
      assert (X0 := Hp 0%nat ltac:(lia)). rewrite <- Hrow in X0 by lia. cbn [nth] in X0.
      assert (X1 := Hp 1%nat ltac:(lia)). rewrite <- Hrow in X1 by lia. cbn [nth] in X1. simpl in G |- *.
      destruct (Qlt_bool_reflect r0 0) as [Y|Y]; destruct (Qlt_bool_reflect r1 0) as [Z|Z]; lra.
Qed.

Theorem mcafee_no_deficit_plain : forall M cap m recipe t prices,
  mcafee_M M cap m recipe false = Ok t -> tprices t = Some prices -> 0 <= dot prices recipe.
Proof.
  intros M cap m recipe t P H HP. destruct (mcafee_optimal _ _ _ _ _ _ H) as [deals [rem Ho]].
  eapply mc_rejected_budget; eauto.
Qed.

(** ** Individual rationality *)

Theorem mcafee_ir : forall M cap m recipe h t prices, mcafee_M M cap m recipe h = Ok t -> tprices t = Some prices ->
  forall i c p v, nth_error (tcats t) i = Some c -> nth_error prices i = Some p -> In v (cvalues c) -> p <= v.
Proof.
  intros M cap m recipe h t P H HP i c p v Hc Hp Hv.
  destruct (mcafee_optimal _ _ _ _ _ _ H) as [deals [rem Ho]].
  destruct (mcafee_result _ _ _ _ _ _ _ _ H Ho) as [Hne [Hl [H1 [Hst [Er [_ R]]]]]].
  set (m' := clone_market m) in *. set (k := mt_num_of_deals deals) in *.
  assert (Hlm : length m' = length m) by apply clone_length.
  destruct (mc_prices _ _ _ _ _ R) as [P' [HP' [LP Hpr]]]. assert (P' = P) by congruence. subst P'.
  assert (Hi : (i < length m')%nat) by (rewrite <- LP; apply nth_error_Some; congruence).
  destruct (mc_cat _ _ _ _ _ R i Hi) as [_ [_ Hq]].
  rewrite (nth_error_nth _ _ dcat Hc) in Hq. specialize (Hpr i Hi). rewrite (nth_error_nth _ _ 0 Hp) in Hpr.
  destruct (qeq_In _ _ v Hq Hv) as [v' [Hv' Ev]].
  apply In_nth with (d := 0) in Hv'. destruct Hv' as [x [Hx Ex]].
  rewrite firstn_length in Hx.
  assert (Ex' : nth x (vals m' i) 0 = v').
  { rewrite <- Ex. symmetry. assert (Y : (x < num_of_deals t)%nat) by lia. clear - Y. generalize (vals m' i). revert x Y.
    induction (num_of_deals t); intros x Y [|a l]; destruct x; simpl; try lia; auto. apply IHn. lia. }
  assert (D := mc_deals _ _ _ _ _ R). destruct Hst as [_ [He _]].
  destruct k as [|k']; [lia|]. cbv zeta in Hpr.
  assert (Hk := ones_enough m' recipe (S k') i H1 ltac:(lia) He Hi).
  assert (Hmono : nth k' (vals m' i) 0 <= nth x (vals m' i) 0).
  { apply desc_nth; [apply vals_desc, clone_sorted| |lia].
    destruct (accepted M m' (S k') h (row 0 m' k')); lia. }
  rewrite Ex', <- Ev in Hmono.
  destruct (accepted M m' (S k') h (row 0 m' k')) eqn:EA; [|lra].
  apply accepted_inv in EA. destruct EA as [_ G].
  destruct (G (nth k' (vals m' i) 0)) as [G1 G2].
  { unfold vals. rewrite <- (col_nth m' i k' Hi). apply nth_In. rewrite row_length. assumption. }
  destruct (Qlt_bool_reflect (nth k' (vals m' i) 0) 0) as [Y|Y].
  - specialize (G2 ltac:(lra)). lra.
  - specialize (G1 ltac:(lra)). lra.
Qed.

(** ** Which agents trade *)

Lemma vals_clone : forall m i c, nth_error m i = Some c -> vals (clone_market m) i = sort_desc (cvalues c).
Proof.
  intros m i c H. unfold vals. rewrite (nth_error_nth _ _ dcat (clone_nth' _ _ _ H)). reflexivity.
Qed.

Lemma row_ranked : forall d m t, row d (clone_market m) t = map (fun c => ranked d c t) m.
Proof. intros. unfold row, clone_market. rewrite map_map. reflexivity. Qed.

Lemma candidate_spec : forall M m k, candidate M (clone_market m) k = candidate_price M m k.
Proof. intros. unfold candidate, candidate_price. rewrite row_ranked, map_map, clone_length. reflexivity. Qed.

Lemma accepted_spec : forall M m k', accepted M (clone_market m) (S k') true (row 0 (clone_market m) k') = true
  <-> price_accepted (candidate_price M m (S k')) m (S k').
Proof.
  intros M m k'. unfold accepted. simpl andb. rewrite good_iff, candidate_spec, row_ranked. unfold price_accepted.
  simpl Nat.sub. rewrite Nat.sub_0_r. split.
  - intros H c Hc. apply H. apply in_map_iff. eauto.
  - intros H x Hx. apply in_map_iff in Hx. destruct Hx as [c [<- Hc]]. auto.
Qed.

Theorem mcafee_traders : forall M cap m recipe h t deals rem, mcafee_M M cap m recipe h = Ok t ->
  optimal_trade cap m recipe true = Ok (deals, rem) ->
  let k := mt_num_of_deals deals in let p := candidate_price M m k in
  (k = 0%nat -> num_of_deals t = 0%nat)
  /\ ((0 < k)%nat -> h = true -> price_accepted p m k -> num_of_deals t = k)
  /\ ((0 < k)%nat -> h = false \/ ~ price_accepted p m k -> num_of_deals t = (k - 1)%nat)
  /\ length (tcats t) = length m
  /\ (forall i c0 c, nth_error m i = Some c0 -> nth_error (tcats t) i = Some c ->
        cname c = cname c0 /\ desc (cvalues c) /\ csize c = num_of_deals t
        /\ exists gone, same_values (cvalues c ++ gone) (cvalues c0)
             /\ (forall x y, In x (cvalues c) -> In y gone -> y <= x))
  /\ exists prices, tprices t = Some prices /\ length prices = length m
     /\ forall i c0 pr, nth_error m i = Some c0 -> nth_error prices i = Some pr -> (0 < k)%nat ->
          (num_of_deals t = k -> (0 <= ranked 0 c0 (k - 1) -> pr == p) /\ (ranked 0 c0 (k - 1) < 0 -> pr == - p))
          /\ (num_of_deals t <> k -> pr == ranked 0 c0 (k - 1)).
Proof.
  intros M cap m recipe h t deals rem H Ho k p.
  destruct (mcafee_result _ _ _ _ _ _ _ _ H Ho) as [Hne [Hl [H1 [Hst [Er [_ R]]]]]]. fold k in Hst, R.
  assert (Hlm : length (clone_market m) = length m) by apply clone_length.
  assert (D := mc_deals _ _ _ _ _ R).
  assert (Hdk : (num_of_deals t <= k)%nat).
  { destruct k; [lia|]. destruct (accepted _ _ _ _ _); lia. }
  split; [intros E; rewrite E in D; exact D|].
  split. { intros Hk -> Ha. destruct k as [|k']; [lia|]. apply accepted_spec in Ha. rewrite Ha in D. exact D. }
  split.
  { intros Hk Ha. destruct k as [|k']; [lia|].
    assert (EA : accepted M (clone_market m) (S k') h (row 0 (clone_market m) k') = false).
    { destruct Ha as [->|Ha]; [reflexivity|].
      destruct (accepted M (clone_market m) (S k') h (row 0 (clone_market m) k')) eqn:EA; [|reflexivity].
      exfalso. apply Ha. apply accepted_spec. destruct (accepted_inv _ _ _ _ _ EA) as [-> _]. exact EA. }
    rewrite EA in D. lia. }
  split; [rewrite (mc_len _ _ _ _ _ R); assumption|].
  split.
  - intros i c0 c Hc0 Hc.
    assert (Hi : (i < length (clone_market m))%nat) by (rewrite Hlm; apply nth_error_Some; congruence).
    destruct (mc_cat _ _ _ _ _ R i Hi) as [N [Ds Hq]].
    rewrite (nth_error_nth _ _ dcat Hc) in N, Ds, Hq.
    rewrite (nth_error_nth _ _ dcat (clone_nth' _ _ _ Hc0)) in N.
    split; [exact N|]. split; [assumption|].
    destruct Hst as [_ [He _]].
    assert (Hk := ones_enough (clone_market m) recipe k i H1 ltac:(lia) He Hi).
    rewrite (vals_clone _ _ _ Hc0) in *.
    split. { unfold csize. rewrite (qeq_length _ _ Hq). apply firstn_length_le. lia. }
    exists (skipn (num_of_deals t) (sort_desc (cvalues c0))). split.
    + unfold same_values. destruct (qeq_perm (sort_desc (cvalues c0)) (cvalues c ++ skipn (num_of_deals t) (sort_desc (cvalues c0))) (cvalues c0)) as [p0 [A B]].
      * rewrite <- (firstn_skipn (num_of_deals t) (sort_desc (cvalues c0))) at 1. apply qeq_app; [apply qeq_sym; assumption|apply qeq_refl].
      * apply sort_desc_perm.
      * exists p0. split; [assumption|]. apply qeq_sym. assumption.
    + intros x y Hx Hy. destruct (qeq_In _ _ x Hq Hx) as [x' [Hx' Ex]]. rewrite Ex.
      eapply desc_firstn_skipn; [apply sort_desc_desc|exact Hx'|exact Hy].
  - destruct (mc_prices _ _ _ _ _ R) as [P [HP [LP Hp]]]. exists P. split; [assumption|]. split; [lia|].
    intros i c0 pr Hc0 Hpr Hk.
    assert (Hi : (i < length (clone_market m))%nat) by (rewrite Hlm; apply nth_error_Some; congruence).
    specialize (Hp i Hi). rewrite (nth_error_nth _ _ 0 Hpr) in Hp. rewrite (vals_clone _ _ _ Hc0) in Hp.
    subst p. clearbody k. destruct k as [|k']; [lia|]. cbv zeta in Hp. rewrite candidate_spec in Hp.
    change (nth k' (sort_desc (cvalues c0)) 0) with (ranked 0 c0 k') in Hp.
    replace (S k' - 1)%nat with k' by lia.
    destruct (accepted M (clone_market m) (S k') h (row 0 (clone_market m) k')); split; intros E; try lia.
    + split; intros Hx.
      * destruct (Qlt_bool_reflect (ranked 0 c0 k') 0); [lra|assumption].
      * destruct (Qlt_bool_reflect (ranked 0 c0 k') 0); [assumption|lra].
    + assumption.
Qed.

(** ** Gain *)

Lemma gain_full : forall t z i cats P, (0 < tdeals t)%nat -> (forall c, In c cats -> csize c = tdeals t) ->
  length P = length cats ->
  (forall j, (j < length cats)%nat -> get (trecipe t) (i + j) = Ok 1%nat /\ price_at t (i + j) = Ok (nth j P 0)) ->
  exists g, gain_loop t z i cats = Ok g
    /\ g == Qsum (map (fun c => Qsum (cvalues c)) cats) - (if z then 0 else Qn (tdeals t) * Qsum P).
Proof.
  intros t z i cats. revert i. induction cats as [|c cats IH]; intros i P Hd Hc LP H.
  - destruct P; [|discriminate]. exists 0. split; [reflexivity|]. simpl. destruct z; ring.
  - destruct P as [|p P]; [discriminate|]. simpl in LP.
    destruct (H 0%nat ltac:(simpl; lia)) as [G1 G2]. rewrite Nat.add_0_r in G1, G2. cbn [nth] in G2.
    destruct (IH (S i) P Hd) as [g [E Eg]].
    + intros c' Hc'. apply Hc. right. assumption.
    + lia.
    + intros j Hj. specialize (H (S j) ltac:(simpl; lia)). rewrite Nat.add_succ_r in H. exact H.
    + cbn [gain_loop]. unfold gain_of_category. rewrite G1. cbn [bind].
      assert (S0 := Hc c (or_introl eq_refl)). rewrite S0.
      destruct (Nat.eqb_spec (tdeals t) 0); [lia|]. rewrite G2. cbn [bind]. rewrite E. cbn [bind].
      eexists. split; [reflexivity|]. assert (X : Qn (1 * tdeals t) / Qn (tdeals t) == 1).
      { rewrite Nat.mul_1_l. field. assert (Y := Qn_pos _ Hd). lra. }
      rewrite Nat.mul_1_l in *. simpl map. rewrite !Qsum_cons. destruct z.
      * rewrite X, Eg. ring.
      * rewrite X, Eg. ring.
Qed.

Lemma top_ones : forall m recipe d, all_ones recipe -> length recipe = length m ->
  top_gain m recipe d == Qsum (map (fun j => Qsum (firstn d (vals m j))) (seq 0 (length m))).
Proof.
  intros m recipe d H1 Hl. rewrite top_gain_alt. unfold vals. revert recipe H1 Hl.
  induction m as [|c m IH]; intros [|r recipe] H1 Hl; simpl in Hl; try discriminate; [reflexivity|].
  inversion H1; subst. cbn [map2 length seq map nth]. rewrite !Qsum_cons. rewrite Nat.mul_1_r.
  rewrite IH by (assumption || lia). rewrite <- seq_shift, map_map. cbn [nth]. reflexivity.
Qed.

Lemma Qsum_nth : forall A (d : A) (f : A -> Q) l, Qsum (map f l) == Qsum (map (fun j => f (nth j l d)) (seq 0 (length l))).
Proof.
  intros A d f l. induction l as [|a l IH]; [reflexivity|]. cbn [length seq map nth]. rewrite !Qsum_cons, IH.
  rewrite <- seq_shift, map_map. cbn [nth]. reflexivity.
Qed.

Lemma last_smallest : forall m recipe k, sorted_market m -> enough (S k) m recipe ->
  Qn (S k) * ps_gain m recipe k <= top_gain m recipe (S k).
Proof.
  intros m recipe k Hs He. unfold top_gain.
  assert (X := Qsum_lower (map (ps_gain m recipe) (seq 0 (S k))) (ps_gain m recipe k)).
  rewrite map_length, seq_length in X. apply X. apply Forall_forall. intros x Hx. apply in_map_iff in Hx.
  destruct Hx as [t [<- Ht]]. apply in_seq in Ht. apply ps_gain_mono; [assumption|lia|assumption].
Qed.

Theorem mcafee_gain : forall M cap m recipe h t deals rem, mcafee_M M cap m recipe h = Ok t ->
  optimal_trade cap m recipe true = Ok (deals, rem) ->
  let k := mt_num_of_deals deals in let opt := mt_gain_from_trade deals in
  exists g g' prices, gain_from_trade t true = Ok g /\ gain_from_trade t false = Ok g' /\ tprices t = Some prices
    /\ g' == g - Qn (num_of_deals t) * dot prices recipe
    /\ g <= opt /\ (Qn k - 1) * opt <= Qn k * g
    /\ (num_of_deals t = k -> g == opt).
Proof.
  intros M cap m recipe h t deals rem H Ho k opt.
  destruct (mcafee_result _ _ _ _ _ _ _ _ H Ho) as [Hne [Hl [H1 [Hst [Er [Hopt R]]]]]]. fold k in Hst, R, Hopt.
  set (m' := clone_market m) in *.
  assert (Hlm : length m' = length m) by apply clone_length.
  assert (D := mc_deals _ _ _ _ _ R).
  assert (Hdk : (num_of_deals t <= k)%nat) by (destruct k; [lia|]; destruct (accepted _ _ _ _ _); lia).
  destruct (mc_prices _ _ _ _ _ R) as [P [HP [LP _]]].
  assert (Hs : sorted_market m') by apply clone_sorted.
  assert (He := Hst). destruct He as [_ [He [Ha _]]].
  assert (Hall : forall c, In c (tcats t) -> csize c = tdeals t).
  { intros c Hc. apply In_nth with (d := dcat) in Hc. destruct Hc as [i [Hi <-]]. rewrite (mc_len _ _ _ _ _ R) in Hi.
    destruct (mc_cat _ _ _ _ _ R i Hi) as [_ [_ Hq]]. unfold csize. rewrite (qeq_length _ _ Hq).
    assert (X := ones_enough m' recipe k i H1 ltac:(lia) He Hi). unfold num_of_deals in *. apply firstn_length_le. lia. }
  assert (Hsum : Qsum (map (fun c => Qsum (cvalues c)) (tcats t)) == top_gain m' recipe (num_of_deals t)).
  { rewrite top_ones by (assumption || lia). rewrite (Qsum_nth _ dcat), (mc_len _ _ _ _ _ R).
    apply Qsum_map_ext. intros j Hj. apply in_seq in Hj.
    destruct (mc_cat _ _ _ _ _ R j ltac:(lia)) as [_ [_ Hq]]. apply qeq_sum. assumption. }
  assert (Hg : forall z, exists g, gain_from_trade t z = Ok g
     /\ g == top_gain m' recipe (num_of_deals t) - (if z then 0 else Qn (num_of_deals t) * dot P recipe)).
  { intros z. unfold gain_from_trade. destruct (Nat.eqb_spec (tdeals t) 0) as [E0|E0].
    - exists 0. split; [reflexivity|]. unfold num_of_deals. rewrite E0. unfold top_gain. simpl.
      change (Qn 0) with 0. destruct z; ring.
    - destruct (gain_full t z 0 (tcats t) P) as [g [E Eg]].
      + lia.
      + assumption.
      + rewrite (mc_len _ _ _ _ _ R). assumption.
      + intros j Hj. rewrite (mc_len _ _ _ _ _ R) in Hj. simpl. split.
        * rewrite Er. rewrite (get_lt _ _ _ 0%nat) by lia. f_equal. unfold all_ones in H1. rewrite Forall_forall in H1.
          apply H1. apply nth_In. lia.
        * unfold price_at. rewrite HP. apply get_lt. lia.
      + exists g. split; [assumption|]. rewrite Eg, Hsum. destruct z; [reflexivity|]. rewrite ones_dot by (assumption || lia). reflexivity. }
  destruct (Hg true) as [g [G1 G2]]. destruct (Hg false) as [g' [G3 G4]].
  exists g, g', P. split; [assumption|]. split; [assumption|]. split; [assumption|].
  split; [rewrite G4, G2; ring|].
  assert (G5 : g == top_gain m' recipe (num_of_deals t)) by (rewrite G2; ring). clear G1 G2 G3 G4 Hg.
  unfold opt. rewrite Hopt.
  destruct k as [|k'].
  - rewrite D in G5. rewrite G5. split; [lra|]. change (Qn 0) with 0.
    assert (Z : top_gain m' recipe 0 == 0) by reflexivity. rewrite Z. split; [lra|]. intros _. reflexivity.
  - assert (A := Ha k' ltac:(lia)). cbn in A. assert (B := last_smallest m' recipe k' Hs He).
    destruct (accepted M m' (S k') h (row 0 m' k')); rewrite D in G5; rewrite G5.
    + assert (X : 0 <= top_gain m' recipe (S k')).
      { assert (Y := Qn_nonneg (S k')). nra. }
      split; [lra|]. split; [lra|]. intros _. reflexivity.
    + assert (T := top_gain_S m' recipe k'). split; [lra|]. split; [|lia].
      rewrite T. rewrite T in B. lra.
Qed.
