(** * Ascending auction versus the optimum; independence of MAX_VALUE *)

From Coq Require Import String List Arith Lia QArith Lqa Permutation Sorted Bool.
From Verif Require Import Base Model_Agents Model_Trade Model_Prices Model_Market Model_Ascending
  Spec_Market Spec_Trade Spec_Ascending Proof_Market Proof_Trade Proof_Prices Proof_Ascending
  Proof_Ascending2 Proof_Ascending3.
Import ListNotations.
Open Scope Q_scope.

Lemma Forall2_nth_error : forall {A B} (R : A -> B -> Prop) l l', Forall2 R l l' -> forall i a b,
  nth_error l i = Some a -> nth_error l' i = Some b -> R a b.
Proof.
  intros A B R l l' H. induction H as [|x y l l' E H IH]; intros [|i] a b Ha Hb; simpl in *; try discriminate.
  - congruence.
  - eapply IH; eassumption.
Qed.

(** A uniform bound suffices. *)
Lemma small_uniform : forall M recipe m, recipe <> [] -> has_positive_entry recipe -> length recipe = length m ->
  (exists B, 0 <= B /\ B * Qn (nsum recipe) < M /\ forall c v, In c m -> In v (cvalues c) -> - B <= v <= B) ->
  values_small M recipe m.
Proof.
  intros M recipe m NE (i0 & r0 & Hi & Hr0) Hl (B & B0 & BM & HB).
  assert (N1 : (0 < nsum recipe)%nat) by (apply (nsum_pos recipe i0); rewrite (nth_error_nth _ _ _ Hi); exact Hr0).
  assert (Y : 1 <= Qn (nsum recipe)) by (rewrite <- Qn_1; apply Qn_le; lia).
  split; [intros c v Hc Hv; specialize (HB c v Hc Hv); nra|].
  exists (repeat B (length recipe)). split.
  - rewrite Hl. clear -HB B0 BM Y. induction m as [|c m IH]; cbn [length repeat]; constructor.
    + split; [nra|]. intros v Hv. apply (HB c v); [left; reflexivity|exact Hv].
    + apply IH. intros c' v Hc. apply HB. right. exact Hc.
  - intros l r u Hr Hpos Hu.
    assert (Eu : u = B) by (apply nth_error_In, repeat_spec in Hu; exact Hu). subst u.
    assert (Ed : dot (repeat B (length recipe)) recipe == B * Qn (nsum recipe)).
    { clear. induction recipe as [|r recipe IH]; cbn [length repeat dot]; [simpl; rewrite Qn_0; ring|].
      rewrite IH. change (nsum (r :: recipe)) with (r + nsum recipe)%nat. rewrite Qn_plus. ring. }
    rewrite Ed. assert (X : 1 <= Qn r) by (rewrite <- Qn_1; apply Qn_le; lia).
    set (q := Qn r) in *. assert (M0 : 0 <= M) by nra. assert (G1 : M <= q * M) by nra. assert (G2 : 0 <= q * B) by nra.
    set (bn := B * Qn (nsum recipe)) in *. lra.
Qed.

Lemma small_M_pos : forall M recipe m, has_positive_entry recipe -> length recipe = length m -> values_small M recipe m -> 0 < M.
Proof.
  intros M recipe m (l & r & Hr & Hp) Hl [_ [U [HU HD]]].
  assert (LU : length m = length U) by (clear -HU; induction HU; simpl; auto).
  assert (LL : (l < length recipe)%nat) by (apply nth_error_Some; congruence).
  destruct (nth_error U l) as [u|] eqn:Eu; [|apply nth_error_None in Eu; lia].
  assert (X := HD l r u Hr Hp Eu).
  assert (HB : Forall (fun v => - M <= v) U) by (clear -HU; induction HU as [|c v m U [H _] HU IH]; constructor; auto).
  assert (G : forall rs us l r u, length us = length rs -> Forall (fun v => - M <= v) us -> nth_error rs l = Some r -> nth_error us l = Some u ->
            - M * Qn (nsum rs) <= dot us rs - Qn r * u + Qn r * - M).
  { clear. intros rs.
    assert (W : forall us, length us = length rs -> Forall (fun v => - M <= v) us -> - M * Qn (nsum rs) <= dot us rs).
    { induction rs as [|x rs IH]; intros [|v us] L F; simpl in L; try discriminate.
      - cbn [dot]. change (nsum []) with 0%nat. rewrite Qn_0. lra.
      - inversion F; subst. assert (Y := IH us ltac:(lia) H2). cbn [dot].
        change (nsum (x :: rs)) with (x + nsum rs)%nat. rewrite Qn_plus. assert (Z := Qn_nonneg x).
        set (q := Qn x) in *. set (n := Qn (nsum rs)) in *. assert (0 <= q * (v + M)) by nra. nra. }
    induction rs as [|x rs IH]; intros [|v us] l r u L F Hr Hu; simpl in L; try discriminate; try (destruct l; discriminate).
    inversion F; subst. cbn [dot]. change (nsum (x :: rs)) with (x + nsum rs)%nat. rewrite Qn_plus.
    destruct l as [|l]; simpl in Hr, Hu.
    - injection Hr as ->. injection Hu as ->.
      assert (Y : - M * Qn (nsum rs) <= dot us rs).
      { clear -H2 L. assert (L' : length us = length rs) by lia. clear L. revert us L' H2. induction rs as [|x rs IH]; intros [|v us] L F; simpl in L; try discriminate.
        - cbn [dot]. change (nsum []) with 0%nat. rewrite Qn_0. lra.
        - inversion F; subst. assert (Y := IH us ltac:(lia) H2). cbn [dot].
          change (nsum (x :: rs)) with (x + nsum rs)%nat. rewrite Qn_plus. assert (Z := Qn_nonneg x).
          set (q := Qn x) in *. set (n := Qn (nsum rs)) in *. assert (0 <= q * (v + M)) by nra. nra. }
      set (d := dot us rs) in *. set (n := Qn (nsum rs)) in *. set (q := Qn r) in *. nra.
    - assert (W' : forall us0, length us0 = length rs -> Forall (fun v0 => - M <= v0) us0 -> - M * Qn (nsum rs) <= dot us0 rs).
      { intros us0 L0 F0. assert (E := W (- M :: us0) ltac:(simpl; lia) ltac:(constructor; [lra|assumption])).
        cbn [dot] in E. change (nsum (x :: rs)) with (x + nsum rs)%nat in E. rewrite Qn_plus in E.
        set (q := Qn x) in *. set (n := Qn (nsum rs)) in *. nra. }
      assert (Y := IH W' us l r u ltac:(lia) H2 Hr Hu). assert (Z := Qn_nonneg x).
      set (d := dot us rs) in *. set (n := Qn (nsum rs)) in *. set (q := Qn x) in *. set (q' := Qn r) in *.
      assert (0 <= q * (v + M)) by nra. nra. }
  assert (Y := G recipe U l r u ltac:(lia) HB Hr Eu).
  assert (N : 0 < Qn (nsum recipe)) by (apply Qn_pos, (nsum_pos recipe l); rewrite (nth_error_nth _ _ _ Hr); exact Hp).
  set (n := Qn (nsum recipe)) in *. nra.
Qed.

Lemma small_clone_market : forall M recipe m, values_small M recipe m -> values_small M recipe (clone_market m).
Proof.
  intros M recipe m [HA [U [HU HD]]]. split.
  - intros c v Hc Hv. unfold clone_market in Hc. apply in_map_iff in Hc. destruct Hc as [c0 [<- Hc]]. apply (HA c0 v Hc).
    unfold clone, new_category in Hv. cbn [cvalues] in Hv. eapply Permutation_in; [apply sort_desc_perm|exact Hv].
  - exists U. split; [|exact HD]. unfold clone_market. clear -HU. induction HU as [|c u m U [H1 H2] HU IH]; cbn [map]; constructor; [|exact IH].
    split; [exact H1|]. intros v Hv. apply H2. unfold clone, new_category in Hv. cbn [cvalues] in Hv.
    eapply Permutation_in; [apply sort_desc_perm|exact Hv].
Qed.

Lemma map2_seq : forall C (f : category -> nat -> C) m recipe, length recipe = length m ->
  map2 f m recipe = map (fun j => f (nth j m dcat) (nth j recipe 0%nat)) (seq 0 (length recipe)).
Proof.
  intros C f. induction m as [|c m IH]; intros [|r recipe] H; simpl in H; try discriminate; [reflexivity|].
  cbn [map2 length seq map nth]. f_equal. rewrite seq_map_shift. apply IH. lia.
Qed.

Lemma ps_gain_seq : forall m recipe t, length recipe = length m ->
  ps_gain m recipe t == Qsum (map (fun j => Qsum (block t (vals m j) (nth j recipe 0%nat))) (seq 0 (length recipe))).
Proof. intros. rewrite ps_gain_alt, map2_seq by assumption. reflexivity. Qed.

Lemma top_gain_seq : forall m recipe n, length recipe = length m ->
  top_gain m recipe n == Qsum (map (fun j => Qsum (firstn (n * nth j recipe 0%nat) (vals m j))) (seq 0 (length recipe))).
Proof. intros. rewrite top_gain_alt, map2_seq by assumption. reflexivity. Qed.

Lemma enough_nth : forall n m recipe, length recipe = length m ->
  enough n m recipe <-> forall j, (j < length recipe)%nat -> (n * nth j recipe 0 <= length (vals m j))%nat.
Proof.
  intros n m recipe Hl. unfold enough. split.
  - intros H j Hj. unfold vals. apply (H j); apply nth_error_nth'; lia.
  - intros H j c r Hc Hr. assert (Hj : (j < length recipe)%nat) by (apply nth_error_Some; congruence).
    specialize (H j Hj). unfold vals in H. rewrite (nth_error_nth _ _ _ Hc), (nth_error_nth _ _ _ Hr) in H. exact H.
Qed.

Lemma block_length : forall t v r, (S t * r <= length v)%nat -> length (block t v r) = r.
Proof. intros. unfold block. rewrite firstn_length_le; [reflexivity|]. rewrite skipn_length. lia. Qed.

Lemma block_firstn : forall t v r n x, (S t * r <= n)%nat -> In x (block t v r) -> In x (firstn n v).
Proof.
  intros t v r n x Hn H. unfold block in H. rewrite firstn_skipn_comm in H.
  assert (H' : In x (firstn (t * r + r) v)).
  { rewrite <- (firstn_skipn (t * r) (firstn (t * r + r) v)). apply in_or_app. right. assumption. }
  rewrite <- (firstn_skipn (t * r + r) (firstn n v)). apply in_or_app. left.
  rewrite firstn_firstn. replace (Nat.min (t * r + r) n) with (t * r + r)%nat by lia. assumption.
Qed.

Lemma block_skipn : forall t v r n x, (n <= t * r)%nat -> In x (block t v r) -> In x (skipn n v).
Proof.
  intros t v r n x Hn H. unfold block in H.
  assert (H' : In x (skipn (t * r) v)).
  { rewrite <- (firstn_skipn r (skipn (t * r) v)). apply in_or_app. left. assumption. }
  replace (t * r)%nat with ((t * r - n) + n)%nat in H' by lia. rewrite <- skipn_skipn in H'.
  rewrite <- (firstn_skipn (t * r - n) (skipn n v)). apply in_or_app. right. assumption.
Qed.

Lemma desc_skipn_le : forall v n d x, desc v -> (n < length v)%nat -> In x (skipn n v) -> x <= nth n v d.
Proof.
  intros v n d x Hd Hn Hin. apply In_nth with (d := d) in Hin. destruct Hin as [y [Hy <-]].
  rewrite skipn_length in Hy.
  assert (E : nth y (skipn n v) d = nth (n + y)%nat v d).
  { rewrite <- (firstn_skipn n v) at 2. rewrite app_nth2; rewrite firstn_length_le by lia; [f_equal; lia|lia]. }
  rewrite E. apply desc_nth; [assumption|lia|lia].
Qed.

(** ** Number of deals *)

Section Deals.
  Variables (M : Q) (m : market) (recipe : list nat).
  Hypothesis HM : 0 < M.
  Hypothesis Hl : length recipe = length m.
  Hypothesis Hpos : exists j, (j < length recipe)%nat /\ (0 < nth j recipe 0)%nat.
  Hypothesis Hs : sorted_market m.

  Lemma vals_desc : forall j, desc (vals m j).
  Proof.
    intros j. destruct (le_lt_dec (length m) j) as [H|H].
    - rewrite vals_out by assumption. constructor.
    - eapply sorted_market_nth; [exact Hs|]. apply nth_error_nth'. exact H.
  Qed.

  Lemma deals_upper : forall ns stop d cap k, outcome M m recipe ns stop -> values_at_least (- M) m ->
    supports (shrink m ns) recipe d -> stops_at cap k m recipe true -> cap_suffices cap m recipe -> (d <= k)%nat.
  Proof.
    intros ns stop d cap k Ho Hv Hd Hst Hcap.
    destruct (le_lt_dec d k) as [H|H]; [assumption|exfalso].
    destruct (deals_zero_stop _ _ _ _ _ _ HM Hl Hpos Ho Hd ltac:(lia)) as [main ->].
    assert (Hok := proj1 (outcome_inv M m recipe HM Hl Hpos _ _ Ho)).
    rewrite (supports_shrink m recipe ns d Hl Hok) in Hd.
    assert (Hen : enough d m recipe).
    { apply enough_nth; [assumption|]. intros j Hj. specialize (Hd j Hj). assert (X := proj2 Hok j). lia. }
    apply (later_unacceptable cap k m recipe true Hs Hcap Hst k ltac:(lia)).
    - eapply enough_le; [|exact Hen]. lia.
    - simpl. rewrite ps_gain_seq by assumption.
      rewrite <- (final_zero_wdot M m recipe HM Hl Hpos ns main Ho). unfold wdot.
      apply Qsum_map_le. intros j Hj. apply in_seq in Hj. specialize (Hd j ltac:(lia)).
      assert (Hbl : length (block k (vals m j) (nth j recipe 0%nat)) = nth j recipe 0%nat).
      { apply block_length. assert (X := proj2 Hok j). nia. }
      rewrite Qmult_comm. rewrite <- Hbl at 1. apply Qsum_lower. apply Forall_forall. intros x Hx.
      apply (left_rational M m recipe HM Hl Hpos ns (Some main) j); auto; [lia|].
      eapply block_firstn; [|exact Hx]. nia.
  Qed.

  Lemma sizes_lower : forall ns stop cap k, outcome M m recipe ns stop -> stops_at cap k m recipe true ->
    forall j, (j < length recipe)%nat -> (0 < nth j recipe 0)%nat -> ((k - 1) * nth j recipe 0 <= nth j ns 0)%nat.
  Proof.
    intros ns stop cap k [fuel Ho] [_ [Hen [Hac _]]].
    apply (abs_loop_ind M m recipe (fun a => forall j, (j < length recipe)%nat -> (0 < nth j recipe 0)%nat ->
      ((k - 1) * nth j recipe 0 <= nth j a 0)%nat)) in Ho; [tauto| |].
    - intros j Hj Hr. rewrite sizes0_nth. apply enough_nth with (j := j) in Hen; auto. nia.
    - intros a b IH [main [Hch [Hn [Hneg ->]]]] j Hj Hr.
      destruct (Nat.eq_dec main j) as [->|Hne]; [|rewrite nth_dec_other by assumption; apply IH; assumption].
      rewrite nth_dec_same.
      destruct (le_lt_dec ((k - 1) * nth j recipe 0%nat) (nth j a 0 - 1)%nat) as [H|H]; [assumption|exfalso].
      destruct k as [|k]; [simpl in H; lia|]. replace (S k - 1)%nat with k in * by lia.
      apply choice_spec in Hch. destruct Hch as [_ [_ Hmax]].
      assert (Hall : forall l, (l < length recipe)%nat -> (0 < nth l recipe 0)%nat -> (nth l a 0 <= k * nth l recipe 0)%nat).
      { intros l Hl' Hr'. specialize (Hmax l Hl' Hr'). nia. }
      specialize (Hac k ltac:(lia)). simpl in Hac. rewrite ps_gain_seq in Hac by assumption.
      apply (Qlt_not_le _ _ Hneg). eapply Qle_trans; [exact Hac|]. unfold psum, wdot.
      apply Qsum_map_le. intros l Hin. apply in_seq in Hin.
      destruct (nth l recipe 0%nat) as [|r] eqn:Er.
      { unfold block. simpl. rewrite Qn_0. lra. }
      assert (Hel : (S k * S r <= length (vals m l))%nat).
      { rewrite <- Er. apply enough_nth; [assumption|assumption|lia]. }
      assert (Hbl : length (block k (vals m l) (S r)) = S r) by (apply block_length; assumption).
      rewrite Qmult_comm. rewrite <- Hbl at 2. apply Qsum_upper. apply Forall_forall. intros x Hx.
      assert (Hnl : (nth l (dec j a) 0 <= k * S r)%nat).
      { assert (X := nth_dec_le j l a). rewrite <- Er. specialize (Hall l ltac:(lia) ltac:(lia)). lia. }
      unfold pr. apply desc_skipn_le; [apply vals_desc|nia|]. eapply block_skipn; [|exact Hx]. assumption.
  Qed.

  Lemma deals_lower : forall ns stop d cap k, outcome M m recipe ns stop ->
    (forall n, supports (shrink m ns) recipe n -> (n <= d)%nat) ->
    stops_at cap k m recipe true -> (k - 1 <= d)%nat.
  Proof.
    intros ns stop d cap k Ho Hmax Hst. apply Hmax.
    apply supports_shrink; [assumption|apply (outcome_inv M m recipe HM Hl Hpos _ _ Ho)|].
    intros j Hj. destruct (nth j recipe 0%nat) eqn:E; [lia|]. rewrite <- E.
    eapply sizes_lower; eauto. lia.
  Qed.

  (** ** Ratios of sizes *)

  Lemma ratio_inv : forall ns stop, outcome M m recipe ns stop ->
    forall l j, (l < length recipe)%nat -> (0 < nth l recipe 0)%nat -> (j < length recipe)%nat -> (0 < nth j recipe 0)%nat ->
      (nth l ns 0 < length (vals m l))%nat -> (nth j ns 0 * nth l recipe 0 <= (nth l ns 0 + 1) * nth j recipe 0)%nat.
  Proof.
    intros ns stop [fuel Ho].
    apply (abs_loop_ind M m recipe (fun a => forall l j, (l < length recipe)%nat -> (0 < nth l recipe 0)%nat ->
      (j < length recipe)%nat -> (0 < nth j recipe 0)%nat ->
      (nth l a 0 < length (vals m l))%nat -> (nth j a 0 * nth l recipe 0 <= (nth l a 0 + 1) * nth j recipe 0)%nat)) in Ho; [tauto| |].
    - intros l j _ _ _ _ H. rewrite sizes0_nth in H. lia.
    - intros a b IH [main [Hch [Hn [_ ->]]]] l j H1 H2 H3 H4 H5.
      apply choice_spec in Hch. destruct Hch as [_ [_ Hmax]].
      assert (X := nth_dec_le main j a).
      destruct (Nat.eq_dec main l) as [->|Hne].
      + rewrite nth_dec_same. specialize (Hmax j H3 H4). nia.
      + rewrite (nth_dec_other main l) in * by assumption. specialize (IH l j H1 H2 H3 H4 H5). nia.
  Qed.

  Lemma small_at_least : values_small M recipe m -> values_at_least (- M) m.
  Proof. intros [H _]. exact H. Qed.

  (** Untouched categories keep the sum negative. *)
  Lemma untouched_negative : forall ns l, values_small M recipe m -> (l < length recipe)%nat -> (0 < nth l recipe 0)%nat ->
    (length (vals m l) <= nth l ns 0)%nat -> psum M m recipe ns < 0.
  Proof.
    intros ns l [_ [U [HU HD]]] Hll Hr Hn.
    assert (LU : length m = length U) by (clear -HU; induction HU; simpl; auto).
    assert (HB : forall j, (j < length recipe)%nat -> - M <= nth j U 0 /\ forall v, In v (vals m j) -> v <= nth j U 0).
    { intros j Hj. destruct (nth_error m j) as [c|] eqn:Ec; [|apply nth_error_None in Ec; lia].
      destruct (nth_error U j) as [u|] eqn:Eu; [|apply nth_error_None in Eu; lia].
      assert (X := Forall2_nth_error _ _ _ HU j c u Ec Eu). rewrite (nth_error_nth _ _ _ Eu).
      unfold vals. rewrite (nth_error_nth _ _ _ Ec). exact X. }
    assert (Hle : psum M m recipe ns <= wdot (fun j => if Nat.eq_dec j l then - M else nth j U 0) recipe).
    { unfold psum. apply wdot_le. intros j Hj Hrj. destruct (HB j Hj) as [B1 B2]. destruct (Nat.eq_dec j l) as [->|Hne].
      - unfold pr. rewrite nth_overflow by assumption. lra.
      - unfold pr. destruct (le_lt_dec (length (vals m j)) (nth j ns 0%nat)) as [H|H].
        + rewrite nth_overflow by assumption. exact B1.
        + apply B2. apply nth_In. exact H. }
    rewrite (wdot_update (fun j => nth j U 0) _ recipe l) in Hle.
    - rewrite <- dot_wdot in Hle by lia. destruct (Nat.eq_dec l l); [|contradiction].
      assert (LL : (l < length U)%nat) by lia.
      assert (X := HD l (nth l recipe 0%nat) (nth l U 0) (nth_error_nth' _ _ Hll) Hr (nth_error_nth' _ _ LL)).
      set (q := Qn (nth l recipe 0%nat)) in *. lra.
    - assumption.
    - intros j Hj. destruct (Nat.eq_dec j l); [contradiction|reflexivity].
  Qed.

  Lemma touched : forall ns main l, values_small M recipe m -> outcome M m recipe ns (Some main) ->
    (l < length recipe)%nat -> (0 < nth l recipe 0)%nat -> l <> main -> (nth l ns 0 < length (vals m l))%nat.
  Proof.
    intros ns main l Hv Ho Hll Hr Hne.
    destruct (le_lt_dec (length (vals m l)) (nth l ns 0%nat)) as [H|H]; [exfalso|assumption].
    destruct (outcome_inv M m recipe HM Hl Hpos _ _ Ho) as [_ [_ [mn [_ [[X _]|[X [_ H0]]]]]]]; [discriminate|].
    inversion X; subst mn. apply (Qle_not_lt _ _ H0). apply (untouched_negative _ l); auto.
    rewrite nth_dec_other by auto. assumption.
  Qed.

  Lemma not_supports : forall n ns, ~ (forall j, (j < length recipe)%nat -> (n * nth j recipe 0 <= nth j ns 0)%nat) ->
    exists j, (j < length recipe)%nat /\ (nth j ns 0 < n * nth j recipe 0)%nat.
  Proof.
    intros n ns H.
    destruct (Exists_dec (fun j => nth j ns 0 < n * nth j recipe 0)%nat (seq 0 (length recipe))) as [X|X].
    - intros j. destruct (le_lt_dec (n * nth j recipe 0%nat) (nth j ns 0%nat)); [right; lia|left; lia].
    - apply Exists_exists in X. destruct X as [j [Hj X]]. apply in_seq in Hj. exists j. split; [lia|assumption].
    - exfalso. apply H. intros j Hj. destruct (le_lt_dec (n * nth j recipe 0%nat) (nth j ns 0%nat)); [assumption|].
      exfalso. apply X. apply Exists_exists. exists j. split; [apply in_seq; lia|lia].
  Qed.

  Lemma sizes_upper : forall ns main d, values_small M recipe m -> outcome M m recipe ns (Some main) ->
    (forall n, supports (shrink m ns) recipe n -> (n <= d)%nat) ->
    forall j, (j < length recipe)%nat -> (0 < nth j recipe 0)%nat -> (nth j ns 0 <= (d + 1) * nth j recipe 0)%nat.
  Proof.
    intros ns main d Hv Ho Hmax j Hj Hr.
    assert (Hout := outcome_inv M m recipe HM Hl Hpos _ _ Ho). destruct Hout as [Hok [_ [mn [Hch [[X _]|[X _]]]]]]; [discriminate|].
    inversion X; subst mn. clear X.
    destruct (not_supports (S d) ns) as [b [Hb Hbn]].
    { intros H. apply (supports_shrink m recipe ns (S d) Hl Hok) in H. apply Hmax in H. lia. }
    assert (Hrb : (0 < nth b recipe 0)%nat) by nia.
    destruct (Nat.eq_dec b main) as [->|Hne].
    - apply choice_spec in Hch. destruct Hch as [_ [_ Hch]]. specialize (Hch j Hj Hr). nia.
    - assert (T := touched ns main b Hv Ho Hb Hrb Hne).
      assert (R := ratio_inv ns _ Ho b j Hb Hrb Hj Hr T). nia.
  Qed.
End Deals.

(** C15 *)
Lemma optimal_k : forall cap m recipe deals rem, length recipe = length m ->
  optimal_trade cap m recipe true = Ok (deals, rem) ->
  stops_at cap (mt_num_of_deals deals) (clone_market m) recipe true
  /\ mt_gain_from_trade deals == top_gain (clone_market m) recipe (mt_num_of_deals deals).
Proof.
  intros cap m recipe deals rem Hl H.
  destruct (optimal_trade_spec cap m recipe true Hl) as [k [H1 Hst]]. rewrite H1 in H. inversion H; subst. clear H.
  rewrite <- sorted_deals_flat. unfold mt_num_of_deals. rewrite map_length, sorted_deals_length.
  split; [assumption|]. rewrite mt_gain_flat, sorted_deals_gain. reflexivity.
Qed.

Theorem ascending_deals : forall M fuel cap m recipe t deals rem, 0 < M -> cap_suffices cap m recipe ->
  ascending_auction_M M fuel m recipe = Ok t -> optimal_trade cap m recipe true = Ok (deals, rem) ->
  (mt_num_of_deals deals - 1 <= num_of_deals t)%nat
  /\ (values_at_least (- M) m -> (num_of_deals t <= mt_num_of_deals deals)%nat).
Proof.
  intros M fuel cap m recipe t deals rem HM Hcap H Ho. apply auction_outcome in H.
  destruct H as [Hl [Hpos [ns [stop [Hout [_ [Et [Hs Hmax]]]]]]]].
  assert (Hl0 : length recipe = length m) by (rewrite clone_length in Hl; assumption).
  destruct (optimal_k _ _ _ _ _ Hl0 Ho) as [Hst _]. split.
  - eapply (deals_lower M (clone_market m) recipe); eauto. apply clone_sorted.
  - intros Hv. eapply (deals_upper M (clone_market m) recipe); eauto; [apply clone_sorted|apply values_at_least_clone; assumption|apply cap_clone; assumption].
Qed.
