(** * Gain bounds of the ascending auction (C16); independence of MAX_VALUE (C49) *)

From Coq Require Import String List Arith Lia QArith Lqa Permutation Sorted Bool.
From Verif Require Import Base Model_Agents Model_Trade Model_Prices Model_Market Model_Ascending
  Spec_Market Spec_Trade Spec_Ascending Proof_Market Proof_Trade Proof_Prices Proof_Ascending
  Proof_Ascending2 Proof_Ascending3 Proof_Ascending4.
Import ListNotations.
Open Scope Q_scope.

(** ** Closed form of gain_from_trade *)

Definition gain_term (t : trade) (P : list Q) (z : bool) (c : category) (j : nat) : Q :=
  Qsum (cvalues c) * (Qn (nth j (trecipe t) 0 * tdeals t)%nat / Qn (csize c))
  - (if z then 0 else nth j P 0 * Qn (nth j (trecipe t) 0 * tdeals t)%nat).

Lemma gain_loop_closed : forall t P z, tprices t = Some P -> forall cats i g,
  gain_loop t z i cats = Ok g ->
  g == Qsum (map (fun j => gain_term t P z (nth j cats dcat) (i + j)%nat) (seq 0 (length cats))).
Proof.
  intros t P z HP. induction cats as [|c cats IH]; intros i g H.
  - simpl in H. inversion H; subst. reflexivity.
  - cbn [gain_loop] in H. apply bind_Ok in H. destruct H as [g1 [H1 H]].
    apply bind_Ok in H. destruct H as [g2 [H2 H]]. inversion H; subst. clear H.
    apply IH in H2. cbn [length seq map nth]. rewrite seq_map_shift, Qsum_cons. cbn [nth].
    rewrite H2. unfold gain_of_category in H1. apply bind_Ok in H1. destruct H1 as [r [Hr H1]].
    destruct (csize c =? 0)%nat; [discriminate|]. apply bind_Ok in H1. destruct H1 as [p [Hp H1]].
    unfold price_at in Hp. rewrite HP in Hp. apply get_Ok in Hr. apply get_Ok in Hp.
    assert (E : g1 == gain_term t P z c (i + 0)).
    { unfold gain_term. rewrite Nat.add_0_r. rewrite (nth_error_nth _ _ _ Hr), (nth_error_nth _ _ _ Hp).
      inversion H1; subst. destruct z; ring. }
    rewrite E. apply Qplus_inj_l. apply Qsum_map_ext. intros j _.
    replace (S i + j)%nat with (i + S j)%nat by lia. reflexivity.
Qed.

Lemma gain_closed : forall t P z g, tprices t = Some P -> (0 < num_of_deals t)%nat ->
  gain_from_trade t z = Ok g ->
  g == Qsum (map (fun j => gain_term t P z (nth j (tcats t) dcat) j) (seq 0 (length (tcats t)))).
Proof.
  intros t P z g HP Hd H. unfold gain_from_trade in H. unfold num_of_deals in Hd.
  destruct (Nat.eqb_spec (tdeals t) 0); [lia|]. apply (gain_loop_closed t P z HP) in H. exact H.
Qed.

(** ** Lists *)

Lemma Qsum_firstn_split : forall a b (v : list Q), (a <= b)%nat ->
  Qsum (firstn b v) == Qsum (firstn a v) + Qsum (firstn (b - a) (skipn a v)).
Proof.
  intros a b v H. rewrite <- Qsum_app.
  replace (firstn b v) with (firstn a v ++ firstn (b - a) (skipn a v)); [reflexivity|].
  rewrite <- (firstn_skipn a (firstn b v)) at 1. rewrite firstn_firstn, skipn_firstn_comm.
  replace (Nat.min a b) with a by lia. reflexivity.
Qed.

(** The average of the top q values decreases with q. *)
Lemma top_average : forall v q n, desc v -> (q <= n <= length v)%nat ->
  Qsum (firstn n v) * Qn q <= Qsum (firstn q v) * Qn n.
Proof.
  intros v q n Hd [H1 H2]. destruct q as [|q]; [rewrite Qn_0; simpl; lra|].
  rewrite (Qsum_firstn_split (S q) n v H1).
  set (x := nth q v 0).
  assert (A : Qn (S q) * x <= Qsum (firstn (S q) v)).
  { assert (L : length (firstn (S q) v) = S q) by (apply firstn_length_le; lia).
    rewrite <- L at 1. apply Qsum_lower. apply Forall_forall. intros y Hy.
    apply In_nth with (d := 0) in Hy. destruct Hy as [k [Hk <-]]. rewrite L in Hk.
    replace (nth k (firstn (S q) v) 0) with (nth k v 0).
    - unfold x. apply desc_nth; [assumption|lia|lia].
    - rewrite <- (firstn_skipn (S q) v) at 1. rewrite app_nth1; [reflexivity|lia]. }
  assert (B : Qsum (firstn (n - S q) (skipn (S q) v)) <= Qn (n - S q) * x).
  { assert (L : length (firstn (n - S q) (skipn (S q) v)) = (n - S q)%nat).
    { apply firstn_length_le. rewrite skipn_length. lia. }
    rewrite <- L at 2. apply Qsum_upper. apply Forall_forall. intros y Hy.
    assert (Hy' : In y (skipn q v)).
    { assert (In y (skipn (S q) v)) by (rewrite <- (firstn_skipn (n - S q)); apply in_or_app; auto).
      replace (S q) with (1 + q)%nat in H by lia. rewrite <- skipn_skipn in H.
      rewrite <- (firstn_skipn 1 (skipn q v)). apply in_or_app. auto. }
    apply desc_skipn_le; [assumption|lia|assumption]. }
  assert (E : Qn n == Qn (S q) + Qn (n - S q)) by (rewrite <- Qn_plus; apply Qn_eq; lia).
  rewrite E. assert (P1 := Qn_nonneg (S q)). assert (P2 := Qn_nonneg (n - S q)).
  set (a := Qsum (firstn (S q) v)) in *. set (b := Qsum (firstn (n - S q) (skipn (S q) v))) in *.
  set (s := Qn (S q)) in *. set (u := Qn (n - S q)) in *. clearbody a b s u x.
  assert (b * s <= u * x * s) by (apply Qmult_le_compat_r; assumption).
  assert (s * x * u <= a * u) by (apply Qmult_le_compat_r; assumption).
  lra.
Qed.

(** A separating price makes the first n values the best choice. *)
Lemma separated_best : forall v n q p, (n <= length v)%nat -> (q <= length v)%nat ->
  (forall x, In x (firstn n v) -> p <= x) -> (forall x, In x (skipn n v) -> x <= p) ->
  Qsum (firstn q v) - Qn q * p <= Qsum (firstn n v) - Qn n * p.
Proof.
  intros v n q p Hn Hq Ha Hb. destruct (le_lt_dec q n) as [H|H].
  - rewrite (Qsum_firstn_split q n v H).
    assert (L : length (firstn (n - q) (skipn q v)) = (n - q)%nat) by (apply firstn_length_le; rewrite skipn_length; lia).
    assert (X : Qn (n - q) * p <= Qsum (firstn (n - q) (skipn q v))).
    { rewrite <- L at 1. apply Qsum_lower. apply Forall_forall. intros x Hx. apply Ha.
      rewrite <- (firstn_skipn q (firstn n v)). apply in_or_app. right. rewrite skipn_firstn_comm. assumption. }
    assert (E : Qn n == Qn q + Qn (n - q)) by (rewrite <- Qn_plus; apply Qn_eq; lia). rewrite E. lra.
  - rewrite (Qsum_firstn_split n q v ltac:(lia)).
    assert (L : length (firstn (q - n) (skipn n v)) = (q - n)%nat) by (apply firstn_length_le; rewrite skipn_length; lia).
    assert (X : Qsum (firstn (q - n) (skipn n v)) <= Qn (q - n) * p).
    { rewrite <- L at 2. apply Qsum_upper. apply Forall_forall. intros x Hx. apply Hb.
      rewrite <- (firstn_skipn (q - n) (skipn n v)). apply in_or_app. auto. }
    assert (E : Qn q == Qn n + Qn (q - n)) by (rewrite <- Qn_plus; apply Qn_eq; lia). rewrite E. lra.
Qed.

(** ** The gain of the auction *)

Section Gain.
  Variables (M : Q) (m : market) (recipe : list nat).
  Hypothesis HM : 0 < M.
  Hypothesis Hl : length recipe = length m.
  Hypothesis Hpos : exists j, (j < length recipe)%nat /\ (0 < nth j recipe 0)%nat.
  Hypothesis Hs : sorted_market m.
  Variables (ns : list nat) (main : nat) (d : nat).
  Hypothesis Ho : outcome M m recipe ns (Some main).
  Hypothesis Hd : (0 < d)%nat.
  Hypothesis Hsup : supports (shrink m ns) recipe d.

  Let P := fp M m recipe ns (Some main).
  Let n j := nth j ns 0%nat.
  Let r j := nth j recipe 0%nat.
  Let S j q := Qsum (firstn q (vals m j)).

  (** Expected value of the traders of category j, and their payments. *)
  Let value j := S j (n j) * (Qn (r j * d)%nat / Qn (n j)).

  Let Hok : sizes_ok m ns.
  Proof. exact (proj1 (outcome_inv M m recipe HM Hl Hpos _ _ Ho)). Qed.

  Let Hrd : forall j, (j < length recipe)%nat -> (d * r j <= n j)%nat.
  Proof. apply (supports_shrink m recipe ns d Hl Hok). exact Hsup. Qed.

  Let Hnl : forall j, (n j <= length (vals m j))%nat.
  Proof. intros j. apply Hok. Qed.

  Let value_zero : forall j, r j = 0%nat -> value j == 0.
  Proof. intros j H. unfold value. rewrite H. simpl. rewrite Qn_0. unfold Qdiv. ring. Qed.

  Lemma payments_zero : Qsum (map (fun j => P j * Qn (r j * d)%nat) (seq 0 (length recipe))) == 0.
  Proof.
    rewrite (Qsum_map_ext _ _ (fun j => Qn d * (P j * Qn (r j)))).
    - rewrite Qsum_map_scale. fold (wdot P recipe).
      assert (E := final_zero_wdot M m recipe HM Hl Hpos ns main Ho). unfold wdot in E. unfold P, r. rewrite E. ring.
    - intros j _. rewrite Qn_mult. ring.
  Qed.

  Lemma value_upper : forall j, (j < length recipe)%nat -> value j <= S j (d * r j).
  Proof.
    intros j Hj. specialize (Hrd j Hj). destruct (Nat.eq_dec (n j) 0) as [Hz|Hz].
    - unfold value, S. assert (Ez : (d * r j = 0)%nat) by lia. rewrite Hz, Ez. simpl. unfold Qdiv. lra.
    - unfold value. assert (Hq : 0 < Qn (n j)) by (apply Qn_pos; lia).
      assert (X := top_average (vals m j) (d * r j) (n j) (vals_desc m Hs j) (conj Hrd (Hnl j))).
      fold (S j (n j)) in X. fold (S j (d * r j)) in X.
      assert (E : S j (n j) * (Qn (r j * d) / Qn (n j)) == (S j (n j) * Qn (d * r j)) / Qn (n j)).
      { rewrite !Qn_mult. field. lra. }
      rewrite E. apply Qle_shift_div_r; assumption.
  Qed.

  Lemma surplus_nonneg : forall j, (j < length recipe)%nat -> values_at_least (- M) m ->
    0 <= S j (n j) - Qn (n j) * P j.
  Proof.
    intros j Hj Hv. unfold S.
    assert (L : length (firstn (n j) (vals m j)) = n j) by (apply firstn_length_le; apply Hnl).
    rewrite <- L at 2. assert (X : Qn (length (firstn (n j) (vals m j))) * P j <= Qsum (firstn (n j) (vals m j))); [|lra].
    apply Qsum_lower. apply Forall_forall. intros x Hx.
    apply (left_rational M m recipe HM Hl Hpos ns (Some main) j x Ho Hs Hv); [lia|exact Hx].
  Qed.

  Lemma value_surplus : forall j, (j < length recipe)%nat ->
    value j - P j * Qn (r j * d)%nat == (if (n j =? 0)%nat then 0 else (Qn (r j * d)%nat / Qn (n j)) * (S j (n j) - Qn (n j) * P j)).
  Proof.
    intros j Hj. destruct (Nat.eqb_spec (n j) 0) as [Hz|Hz].
    - assert (Hrj : (r j = 0)%nat) by (specialize (Hrd j Hj); nia).
      rewrite (value_zero j Hrj). rewrite Hrj. simpl. rewrite Qn_0. ring.
    - assert (Hq : 0 < Qn (n j)) by (apply Qn_pos; lia). unfold value. field. lra.
  Qed.

  Lemma value_lower : forall j k, (j < length recipe)%nat -> values_small M recipe m ->
    (forall x, supports (shrink m ns) recipe x -> (x <= d)%nat) ->
    (k * r j <= length (vals m j))%nat ->
    Qn d * (S j (k * r j) - Qn (k * r j) * P j) <= Qn (d + 1) * (value j - P j * Qn (r j * d)%nat).
  Proof.
    intros j k Hj Hv Hmax Hk. rewrite (value_surplus j Hj).
    assert (Hv' := proj1 Hv).
    assert (T := surplus_nonneg j Hj Hv').
    destruct (Nat.eq_dec (r j) 0) as [Hz|Hz].
    - rewrite Hz, Nat.mul_0_r, Nat.mul_0_l. assert (E0 : S j 0 == 0) by reflexivity.
      destruct (n j =? 0)%nat; rewrite E0, !Qn_0; unfold Qdiv; lra.
    - assert (Hup := sizes_upper M m recipe HM Hl Hpos ns main d Hv Ho Hmax j Hj ltac:(unfold r in Hz; lia)).
      fold (n j) in Hup. fold (r j) in Hup.
      specialize (Hrd j Hj). destruct (Nat.eqb_spec (n j) 0) as [Hn|Hn]; [nia|].
      assert (B : S j (k * r j) - Qn (k * r j) * P j <= S j (n j) - Qn (n j) * P j).
      { apply separated_best; [apply Hnl|assumption| |].
        - intros x Hx. apply (left_rational M m recipe HM Hl Hpos ns (Some main) j x Ho Hs Hv'); [lia|exact Hx].
        - intros x Hx. apply (gone_bounded M m recipe HM Hl Hpos ns (Some main) j x Ho Hs); [lia|exact Hx]. }
      set (T0 := S j (n j) - Qn (n j) * P j) in *. set (U := S j (k * r j) - Qn (k * r j) * P j) in *.
      assert (Hq : 0 < Qn (n j)) by (apply Qn_pos; lia).
      assert (F : Qn d <= Qn (d + 1) * (Qn (r j * d) / Qn (n j))).
      { assert (E : Qn (d + 1) * (Qn (r j * d) / Qn (n j)) == (Qn (d + 1) * Qn (r j * d)) / Qn (n j)) by (field; lra).
        rewrite E. apply Qle_shift_div_l; [assumption|]. rewrite <- !Qn_mult. apply Qn_le. nia. }
      assert (D0 := Qn_nonneg d).
      assert (G1 : Qn d * U <= Qn d * T0).
      { rewrite (Qmult_comm (Qn d) U), (Qmult_comm (Qn d) T0). apply Qmult_le_compat_r; assumption. }
      assert (G2 : Qn d * T0 <= Qn (d + 1) * (Qn (r j * d) / Qn (n j)) * T0) by (apply Qmult_le_compat_r; assumption).
      lra.
  Qed.

  (** The total. *)
  Definition total_value : Q := Qsum (map value (seq 0 (length recipe))).

  Lemma total_upper : total_value <= top_gain m recipe d.
  Proof.
    rewrite top_gain_seq by assumption. apply Qsum_map_le. intros j Hj. apply in_seq in Hj.
    apply value_upper. lia.
  Qed.

  Lemma total_surplus : total_value == Qsum (map (fun j => value j - P j * Qn (r j * d)%nat) (seq 0 (length recipe))).
  Proof.
    assert (Z := payments_zero). unfold total_value.
    rewrite (Qsum_map_ext _ (fun j => value j - P j * Qn (r j * d)%nat) (fun j => value j + (-1) * (P j * Qn (r j * d)%nat))).
    - rewrite Qsum_map_plus, Qsum_map_scale, Z. ring.
    - intros j _. ring.
  Qed.

  Lemma total_nonneg : values_at_least (- M) m -> 0 <= total_value.
  Proof.
    intros Hv. rewrite total_surplus. apply Qsum_nonneg. apply Forall_forall. intros x Hx.
    apply in_map_iff in Hx. destruct Hx as [j [<- Hj]]. apply in_seq in Hj.
    rewrite value_surplus by lia. destruct (Nat.eqb_spec (n j) 0) as [Hz|Hz]; [lra|].
    assert (T := surplus_nonneg j ltac:(lia) Hv).
    apply Qmult_le_0_compat; [|assumption]. apply Qle_shift_div_l; [apply Qn_pos; lia|].
    rewrite Qmult_0_l. apply Qn_nonneg.
  Qed.

  Lemma total_lower : forall k, values_small M recipe m ->
    (forall x, supports (shrink m ns) recipe x -> (x <= d)%nat) -> enough k m recipe ->
    Qn d * top_gain m recipe k <= Qn (d + 1) * total_value.
  Proof.
    intros k Hv Hmax Hen. rewrite total_surplus, top_gain_seq by assumption.
    assert (Z : Qsum (map (fun j => Qn (k * r j) * P j) (seq 0 (length recipe))) == 0).
    { rewrite (Qsum_map_ext _ _ (fun j => Qn k * (P j * Qn (r j)))).
      - rewrite Qsum_map_scale.
        assert (E := final_zero_wdot M m recipe HM Hl Hpos ns main Ho). unfold wdot in E. unfold P, r. rewrite E. ring.
      - intros j _. rewrite Qn_mult. ring. }
    rewrite <- !Qsum_map_scale.
    assert (E : Qsum (map (fun j => Qn d * Qsum (firstn (k * nth j recipe 0%nat) (vals m j))) (seq 0 (length recipe)))
      == Qsum (map (fun j => Qn d * (S j (k * r j) - Qn (k * r j) * P j)) (seq 0 (length recipe)))).
    { rewrite (Qsum_map_ext _ (fun j => Qn d * (S j (k * r j) - Qn (k * r j) * P j))
        (fun j => Qn d * Qsum (firstn (k * nth j recipe 0%nat) (vals m j)) + (- Qn d) * (Qn (k * r j) * P j))).
      - rewrite Qsum_map_plus, (Qsum_map_scale _ (fun j => Qn (k * r j) * P j)), Z. ring.
      - intros j _. unfold S, r. ring. }
    rewrite E. apply Qsum_map_le. intros j Hj. apply in_seq in Hj. apply value_lower; auto; [lia|].
    apply enough_nth with (j := j) in Hen; auto. lia.
  Qed.

  (** gain_from_trade computes the total. *)
  Lemma gain_total : forall z g, gain_from_trade (mkTrade (shrink m ns) recipe (Some (final_prices M m recipe ns (Some main))) d) z = Ok g ->
    g == total_value.
  Proof.
    intros z g H. apply gain_closed with (P := final_prices M m recipe ns (Some main)) in H; [|reflexivity|exact Hd].
    rewrite H. cbn [tcats]. rewrite shrink_length, <- Hl.
    assert (E : forall j, (j < length recipe)%nat ->
      gain_term (mkTrade (shrink m ns) recipe (Some (final_prices M m recipe ns (Some main))) d)
        (final_prices M m recipe ns (Some main)) z (nth j (shrink m ns) dcat) j
      == value j - (if z then 0 else P j * Qn (r j * d)%nat)).
    { intros j Hj. unfold gain_term. cbn [trecipe tdeals]. unfold shrink. rewrite nth_map_seq by lia.
      unfold csize. cbn [cvalues]. rewrite firstn_length_le by apply Hnl. reflexivity. }
    rewrite (Qsum_map_ext _ _ (fun j => value j - (if z then 0 else P j * Qn (r j * d)%nat))).
    - destruct z.
      + apply Qsum_map_ext. intros j _. ring.
      + symmetry. apply total_surplus.
    - intros j Hj. apply in_seq in Hj. apply E. lia.
  Qed.
End Gain.

(** C16 *)
Theorem ascending_gain : forall M fuel cap m recipe t deals rem z g, 0 < M -> cap_suffices cap m recipe ->
  ascending_auction_M M fuel m recipe = Ok t -> optimal_trade cap m recipe true = Ok (deals, rem) ->
  gain_from_trade t z = Ok g ->
  (forall g', gain_from_trade t (negb z) = Ok g' -> g' == g)
  /\ (g <= mt_gain_from_trade deals)
  /\ (values_at_least (- M) m -> 0 <= g)
  /\ (values_small M recipe m ->
        Qn (num_of_deals t) * mt_gain_from_trade deals <= (Qn (num_of_deals t) + 1) * g
        /\ (Qn (mt_num_of_deals deals) - 1) * mt_gain_from_trade deals <= Qn (mt_num_of_deals deals) * g).
Proof.
  intros M fuel cap m recipe t deals rem z g HM Hcap H Ho Hg.
  assert (HD := ascending_deals M fuel cap m recipe t deals rem HM Hcap H Ho).
  apply auction_outcome in H.
  destruct H as [Hl [Hpos [ns [stop [Hout [_ [Et [Hs Hmax]]]]]]]].
  assert (Hl0 : length recipe = length m) by (rewrite clone_length in Hl; assumption).
  destruct (optimal_k _ _ _ _ _ Hl0 Ho) as [Hst Hopt].
  set (k := mt_num_of_deals deals) in *. set (OPT := mt_gain_from_trade deals) in *.
  set (m' := clone_market m) in *. set (d := num_of_deals t) in *.
  assert (Hs' : sorted_market m') by apply clone_sorted.
  assert (Hcap' : cap_suffices cap m' recipe) by (apply cap_clone; assumption).
  assert (Hopt0 : 0 <= OPT).
  { rewrite Hopt. assert (X := top_gain_max cap k m' recipe true Hs' Hcap' Hst 0). unfold top_gain at 1 in X. simpl in X.
    apply X. intros i c r0 _ _. simpl. lia. }
  assert (Hsmall : values_small M recipe m -> values_small M recipe m').
  { apply small_clone_market. }
  destruct (Nat.eq_dec d 0) as [Hz|Hz].
  - assert (G : forall y w, gain_from_trade t y = Ok w -> w = 0).
    { intros y w Hw. unfold gain_from_trade in Hw. unfold d, num_of_deals in Hz. rewrite Hz in Hw. simpl in Hw. congruence. }
    assert (g = 0) by (eapply G; eassumption). subst g.
    split; [intros g' Hg'; rewrite (G _ _ Hg'); reflexivity|]. split; [assumption|]. split; [intros; lra|].
    intros Hv. rewrite Hz, Qn_0. split; [lra|].
    destruct HD as [HD _]. destruct k as [|[|k]]; [ | |lia].
    + rewrite Qn_0. lra.
    + rewrite Qn_1. lra.
  - destruct (deals_zero_stop _ _ _ _ _ _ HM Hl Hpos Hout Hs ltac:(lia)) as [main ->].
    assert (Hd0 : (0 < d)%nat) by lia.
    assert (TG : forall y w, gain_from_trade t y = Ok w -> w == total_value m' recipe ns d).
    { intros y w Hw. rewrite Et in Hw. fold d in Hw.
      apply (gain_total M m' recipe HM Hl Hpos ns main d Hout Hd0 y w Hw). }
    assert (Eg := TG _ _ Hg).
    assert (Hen : enough d m' recipe).
    { apply enough_nth; [assumption|]. intros j Hj.
      assert (Hok := proj1 (outcome_inv M m' recipe HM Hl Hpos _ _ Hout)).
      rewrite (supports_shrink m' recipe ns d Hl Hok) in Hs. specialize (Hs j Hj). assert (X := proj2 Hok j). lia. }
    split; [intros g' Hg'; rewrite (TG _ _ Hg'), Eg; reflexivity|]. split; [|split].
    + rewrite Eg, Hopt. eapply Qle_trans; [apply (total_upper M m' recipe HM Hl Hpos Hs' ns main d Hout Hd0 Hs)|].
      apply (top_gain_max cap k m' recipe true); assumption.
    + intros Hv. rewrite Eg. apply (total_nonneg M m' recipe HM Hl Hpos Hs' ns main d Hout Hd0 Hs).
      apply values_at_least_clone. assumption.
    + intros Hv. assert (X : Qn d * OPT <= (Qn d + 1) * g).
      { rewrite Eg, Hopt. assert (E : Qn d + 1 == Qn (d + 1)) by (rewrite Qn_plus; reflexivity). rewrite E.
        apply (total_lower M m' recipe HM Hl Hpos Hs' ns main d Hout Hd0 Hs); auto. apply Hst. }
      split; [exact X|]. destruct HD as [HD _].
      assert (Hkd : Qn k <= Qn d + 1).
      { assert (E : Qn d + 1 == Qn (d + 1)) by (rewrite Qn_plus; reflexivity). rewrite E. apply Qn_le. lia. }
      assert (K0 := Qn_nonneg k). assert (D1 : 0 < Qn d) by (apply Qn_pos; assumption).
      set (qk := Qn k) in *. set (qd := Qn d) in *. clearbody qk qd OPT.
      clear - X Hkd K0 D1 Hopt0.
      assert (A : qk * (qd * OPT) <= qk * ((qd + 1) * g)).
      { rewrite (Qmult_comm qk (qd * OPT)), (Qmult_comm qk ((qd+1)*g)). apply Qmult_le_compat_r; assumption. }
      assert (B : (qd + 1) * ((qk - 1) * OPT) <= qk * (qd * OPT)).
      { assert (0 <= (qd + 1 - qk) * OPT) by (apply Qmult_le_0_compat; lra). lra. }
      apply Qmult_le_l with (z := qd + 1); lra.
Qed.

(** ** C49 *)

Section TwoM.
  Variables (M1 M2 : Q) (m : market) (recipe : list nat).
  Hypothesis H1 : 0 < M1.
  Hypothesis H2 : 0 < M2.
  Hypothesis Hl : length recipe = length m.
  Hypothesis S1 : values_small M1 recipe m.
  Hypothesis S2 : values_small M2 recipe m.

  Lemma pr_touched : forall ns j, (nth j ns 0 < length (vals m j))%nat -> pr M1 m ns j = pr M2 m ns j.
  Proof. intros. unfold pr. apply nth_indep. assumption. Qed.

  Lemma sign_same : forall ns, Qle_bool 0 (psum M1 m recipe ns) = Qle_bool 0 (psum M2 m recipe ns).
  Proof.
    intros ns.
    destruct (Exists_dec (fun j => length (vals m j) <= nth j ns 0 /\ 0 < nth j recipe 0)%nat (seq 0 (length recipe))) as [X|X].
    - intros j. destruct (le_lt_dec (length (vals m j)) (nth j ns 0%nat)); [|right; lia].
      destruct (le_lt_dec (nth j recipe 0%nat) 0); [right; lia|left; lia].
    - apply Exists_exists in X. destruct X as [j [Hj [X1 X2]]]. apply in_seq in Hj.
      assert (N1 := untouched_negative M1 m recipe Hl ns j S1 ltac:(lia) X2 X1).
      assert (N2 := untouched_negative M2 m recipe Hl ns j S2 ltac:(lia) X2 X1).
      destruct (Qle_bool_reflect 0 (psum M1 m recipe ns)); [lra|].
      destruct (Qle_bool_reflect 0 (psum M2 m recipe ns)); [lra|reflexivity].
    - apply Qle_bool_ext. unfold psum. apply wdot_ext. intros j Hj Hr.
      rewrite pr_touched; [reflexivity|].
      destruct (le_lt_dec (length (vals m j)) (nth j ns 0%nat)); [exfalso|assumption].
      apply X. apply Exists_exists. exists j. split; [apply in_seq; lia|lia].
  Qed.

  Lemma same_walk : forall fuel ns, abs_loop M1 fuel m recipe ns = abs_loop M2 fuel m recipe ns.
  Proof.
    induction fuel as [|fuel IH]; intros ns; [reflexivity|]. cbn [abs_loop].
    destruct (choice recipe ns) as [main|e|]; [|reflexivity|reflexivity]. cbn [bind].
    destruct (nth main ns 0 =? 0)%nat; [reflexivity|]. rewrite sign_same, IH. reflexivity.
  Qed.

  Hypothesis Hpos : exists j, (j < length recipe)%nat /\ (0 < nth j recipe 0)%nat.

  Lemma same_final : forall ns main j, outcome M1 m recipe ns (Some main) ->
    (j < length recipe)%nat -> (0 < nth j recipe 0)%nat ->
    fp M1 m recipe ns (Some main) j == fp M2 m recipe ns (Some main) j.
  Proof.
    intros ns main j O1 Hj Hr.
    assert (O2 : outcome M2 m recipe ns (Some main)) by (destruct O1 as [f O1]; exists f; rewrite <- same_walk; assumption).
    assert (Hoth : forall l, (l < length recipe)%nat -> (0 < nth l recipe 0)%nat -> l <> main ->
       fp M1 m recipe ns (Some main) l == fp M2 m recipe ns (Some main) l).
    { intros l Hll Hrl Hne. rewrite !fp_other by (try lia; congruence).
      rewrite pr_touched; [reflexivity|].
      exact (touched M1 m recipe H1 Hl Hpos ns main l S1 O1 Hll Hrl Hne). }
    destruct (Nat.eq_dec j main) as [->|Hne]; [|apply Hoth; assumption].
    assert (Z1 := final_zero_wdot M1 m recipe H1 Hl Hpos ns main O1).
    assert (Z2 := final_zero_wdot M2 m recipe H2 Hl Hpos ns main O2).
    set (f := fun l => if Nat.eq_dec l main then fp M1 m recipe ns (Some main) main else fp M2 m recipe ns (Some main) l).
    assert (E1 : wdot f recipe == 0).
    { rewrite <- Z1. apply wdot_ext. intros l Hll Hrl. unfold f. destruct (Nat.eq_dec l main) as [->|Hx]; [reflexivity|].
      symmetry. apply Hoth; assumption. }
    rewrite (wdot_update (fp M2 m recipe ns (Some main)) f recipe main Hj) in E1.
    - rewrite Z2 in E1. unfold f in E1. destruct (Nat.eq_dec main main); [|contradiction].
      assert (Hq := Qn_pos _ Hr). set (q := Qn (nth main recipe 0%nat)) in *.
      set (a := fp M1 m recipe ns (Some main) main) in *. set (b := fp M2 m recipe ns (Some main) main) in *.
      assert (X : q * a == q * b) by lra. apply (Qmult_inj_l _ _ q); [lra|assumption].
    - intros l Hx. unfold f. destruct (Nat.eq_dec l main); [contradiction|reflexivity].
  Qed.
End TwoM.

Theorem max_value_independent : forall M1 M2 fuel m recipe t1 t2, 0 < M1 -> 0 < M2 ->
  values_small M1 recipe m -> values_small M2 recipe m ->
  ascending_auction_M M1 fuel m recipe = Ok t1 -> ascending_auction_M M2 fuel m recipe = Ok t2 ->
  tcats t1 = tcats t2 /\ num_of_deals t1 = num_of_deals t2
  /\ ((0 < num_of_deals t1)%nat -> forall i r P1 P2 p1 p2, nth_error recipe i = Some r -> (0 < r)%nat ->
        tprices t1 = Some P1 -> tprices t2 = Some P2 ->
        nth_error P1 i = Some p1 -> nth_error P2 i = Some p2 -> p1 == p2).
Proof.
  intros M1 M2 fuel m recipe t1 t2 H1 H2 S1 S2 A1 A2.
  apply auction_outcome in A1. apply auction_outcome in A2.
  destruct A1 as [Hl [Hpos [n1 [s1 [O1 [L1 [E1 [P1 X1]]]]]]]].
  destruct A2 as [_ [_ [n2 [s2 [O2 [L2 [E2 [P2 X2]]]]]]]].
  set (m' := clone_market m) in *.
  assert (Hsmall : forall M, values_small M recipe m -> values_small M recipe m').
  { intros M0. apply small_clone_market. }
  apply Hsmall in S1. apply Hsmall in S2.
  rewrite (same_walk M1 M2 m' recipe Hl S1 S2) in L1. rewrite L1 in L2. inversion L2; subst n2 s2. clear L2.
  assert (Ed : num_of_deals t1 = num_of_deals t2) by (apply Nat.le_antisymm; auto).
  split; [rewrite E1, E2; reflexivity|]. split; [assumption|].
  intros Hd i r Q1 Q2 p1 p2 Hr Hr0 T1 T2 N1 N2.
  destruct (deals_zero_stop _ _ _ _ _ _ H1 Hl Hpos O1 P1 Hd) as [main ->].
  rewrite E1 in T1. rewrite E2 in T2. cbn [tprices] in T1, T2. inversion T1; inversion T2; subst Q1 Q2.
  assert (Hi : (i < length recipe)%nat) by (apply nth_error_Some; congruence).
  assert (F := same_final M1 M2 m' recipe H1 H2 Hl S1 S2 Hpos n1 main i O1 Hi).
  rewrite (nth_error_nth _ _ _ Hr) in F. specialize (F Hr0). unfold fp in F.
  rewrite (nth_error_nth _ _ _ N1), (nth_error_nth _ _ _ N2) in F. exact F.
Qed.
