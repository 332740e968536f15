(** * Trade reduction in a two-sided market (C107) *)

From Coq Require Import String List Arith Lia QArith Lqa Permutation Sorted.
From Verif Require Import Base Model_Agents Model_Prices Model_Trade Model_Market Model_Ascending Model_TradeReduction
  Spec_Market Spec_Trade Spec_Ascending Spec_TradeReduction Spec_Demos Proof_Market Proof_Trade Proof_Prices Proof_Ascending
  Proof_Ascending2 Proof_Ascending3 Proof_Ascending4 Proof_Deals
  Proof_TR Proof_TR2 Proof_TR3 Proof_TR4 Proof_TR5.
Import ListNotations.
Open Scope Q_scope.

Lemma worth_acceptable : forall z g, worth_doing z g = acceptable z g.
Proof. reflexivity. Qed.

(** ** Procurement sets of recipes of ones *)

Lemma block_one : forall t (v : list Q) x, nth_error v t = Some x -> block t v 1 = [x].
Proof.
  intros t v x H. unfold block. rewrite Nat.mul_1_r. revert v H. induction t as [|t IH]; intros [|y v] H; simpl in *; try discriminate.
  - inversion H. reflexivity.
  - apply IH. assumption.
Qed.

Lemma gain_two : forall a b t x y, nth_error (cvalues a) t = Some x -> nth_error (cvalues b) t = Some y ->
  ps_gain [a; b] [1%nat; 1%nat] t == x + y.
Proof.
  intros a b t x y Hx Hy. rewrite ps_gain_alt. cbn [map2]. rewrite (block_one _ _ _ Hx), (block_one _ _ _ Hy). simpl. ring.
Qed.

Lemma enough_two : forall a b n, enough n [a; b] [1%nat; 1%nat] <-> (n <= csize a)%nat /\ (n <= csize b)%nat.
Proof.
  intros a b n. split.
  - intros H. split; [assert (X := H 0%nat a 1%nat eq_refl eq_refl)|assert (X := H 1%nat b 1%nat eq_refl eq_refl)]; lia.
  - intros [H1 H2] [|[|i]] c r Hc Hr; simpl in *; try (inversion Hc; inversion Hr; subst; lia).
    destruct i; discriminate.
Qed.

Lemma stops_pairs : forall cap a b k z, desc (cvalues a) -> desc (cvalues b) -> cap_suffices cap [a; b] [1%nat; 1%nat] ->
  (stops_at cap k [a; b] [1%nat; 1%nat] z <-> profitable_pairs z (cvalues a) (cvalues b) k).
Proof.
  intros cap a b k z Ha Hb Hcap.
  assert (Hs : sorted_market [a; b]) by (repeat constructor; assumption).
  assert (HF : forall k, stops_at cap k [a; b] [1%nat; 1%nat] z -> profitable_pairs z (cvalues a) (cvalues b) k).
  { intros k0 Hst. assert (HS := Hst). destruct Hst as (S1 & S2 & S3 & S4). apply enough_two in S2. destruct S2 as [S2 S2'].
    split; [exact S2|]. split; [exact S2'|]. intros t x y Hx Hy. rewrite worth_acceptable. split.
    - intros Ht. eapply acceptable_proper; [|apply S3; exact Ht]. apply gain_two; assumption.
    - intros Hw. destruct (le_lt_dec k0 t) as [L|L]; [exfalso|assumption].
      apply (later_unacceptable cap k0 _ _ z Hs Hcap HS t L).
      + apply enough_two. unfold csize. split; apply nth_error_Some; congruence.
      + eapply acceptable_proper; [|exact Hw]. symmetry. apply gain_two; assumption. }
  split; [apply HF|]. intros (P1 & P2 & P3).
  assert (L : (k <= cap)%nat).
  { destruct Hcap as (i & c & r & Hc & Hr & H0 & Hsz). destruct i as [|[|i]]; simpl in Hc, Hr.
    - inversion Hc; inversion Hr; subst. unfold csize in Hsz. lia.
    - inversion Hc; inversion Hr; subst. unfold csize in Hsz. lia.
    - destruct i; discriminate. }
  assert (G : forall t, enough (S t) [a; b] [1%nat; 1%nat] -> ((t < k)%nat <-> acceptable z (ps_gain [a; b] [1%nat; 1%nat] t))).
  { intros t He. apply enough_two in He. destruct He as [E1 E2]. unfold csize in *.
    destruct (nth_error (cvalues a) t) as [x|] eqn:Ex; [|apply nth_error_None in Ex; lia].
    destruct (nth_error (cvalues b) t) as [y|] eqn:Ey; [|apply nth_error_None in Ey; lia].
    rewrite (P3 t x y Ex Ey), worth_acceptable. assert (X := gain_two a b t x y Ex Ey).
    split; apply acceptable_proper; [symmetry|]; exact X. }
  split; [assumption|]. split; [apply enough_two; auto|]. split.
  - intros t Ht. apply G; [|assumption]. apply enough_two. unfold csize. lia.
  - destruct (Proof_Market.enough_dec (S k) [a; b] [1%nat; 1%nat]) as [E|E]; [|right; left; exact E].
    right. right. intros X. apply G in X; [lia|assumption].
Qed.

Lemma pairs_unique : forall z A B k k', profitable_pairs z A B k -> profitable_pairs z A B k' -> k = k'.
Proof.
  assert (H : forall z A B k k', profitable_pairs z A B k -> profitable_pairs z A B k' -> ~ (k < k')%nat).
  { intros z A B k k' (P1 & P2 & P3) (R1 & R2 & R3) L.
    destruct (nth_error A k) as [x|] eqn:Ex; [|apply nth_error_None in Ex; lia].
    destruct (nth_error B k) as [y|] eqn:Ey; [|apply nth_error_None in Ey; lia].
    assert (X := proj2 (P3 k x y Ex Ey) (proj1 (R3 k x y Ex Ey) L)). lia. }
  intros z A B k k' P R. assert (X := H _ _ _ _ _ P R). assert (Y := H _ _ _ _ _ R P). lia.
Qed.

(** ** The walk *)

Lemma psum_two : forall M a b i j,
  psum M [a; b] [1%nat; 1%nat] [i; j] == nth i (cvalues a) (- M) + nth j (cvalues b) (- M).
Proof. intros. unfold psum, wdot, pr, vals. cbn. unfold Qn. cbn. ring. Qed.

Lemma order_S : forall j, tr_order (S j) [1%nat; 1%nat] = 0%nat :: 1%nat :: tr_order j [1%nat; 1%nat].
Proof. reflexivity. Qed.

Lemma at_block_two : forall j, at_block j [1%nat; 1%nat] = [j; j].
Proof. intros. unfold at_block. cbn [map]. rewrite !Nat.mul_1_r. reflexivity. Qed.

Lemma walk_two : forall M a b z j x y, nth_error (cvalues a) j = Some x -> nth_error (cvalues b) j = Some y ->
  acceptable z (x + y) ->
  walk M [a; b] [1%nat; 1%nat] z (tr_order (S j) [1%nat; 1%nat]) (at_block (S j) [1%nat; 1%nat])
  = if accepts z (x + nth (S j) (cvalues b) (- M)) then Some (0%nat, [S j; S j]) else Some (1%nat, [j; S j]).
Proof.
  intros M a b z j x y Hx Hy Hacc. rewrite order_S, at_block_two. cbn [walk].
  replace (dec 0 [S j; S j]) with [j; S j] by (unfold dec; cbn; rewrite Nat.sub_0_r; reflexivity).
  assert (Ex : nth j (cvalues a) (- M) = x) by (apply nth_error_nth; assumption).
  assert (Ey : nth j (cvalues b) (- M) = y) by (apply nth_error_nth; assumption).
  rewrite (accepts_ext z _ _ (psum_two M a b j (S j))), Ex.
  destruct (accepts z (x + nth (S j) (cvalues b) (- M))); [reflexivity|].
  replace (dec 1 [j; S j]) with [j; j] by (unfold dec; cbn; rewrite Nat.sub_0_r; reflexivity).
  rewrite (accepts_ext z _ _ (psum_two M a b j j)), Ex, Ey.
  rewrite (proj2 (accepts_iff z (x + y)) Hacc). reflexivity.
Qed.

Lemma cat_eq_list : forall l a b, Forall2 cat_eq l [a; b] -> exists a' b', l = [a'; b']
  /\ cname a' = cname a /\ qeq (cvalues a') (cvalues a) /\ cname b' = cname b /\ qeq (cvalues b') (cvalues b).
Proof.
  intros l a b H. inversion H as [|x ? l1 ? [X1 X2] H1]; subst. inversion H1 as [|y ? l2 ? [Y1 Y2] H2]; subst. inversion H2; subst.
  exists x, y. auto.
Qed.

Lemma Forall2_len : forall (l l' : list Q), qeq l l' -> length l = length l'.
Proof. intros l l' H. induction H; simpl; congruence. Qed.

Lemma deals_two : forall cats P t ta tb, new_trade cats [1%nat; 1%nat] P = Ok t -> cats = [ta; tb] ->
  forall n, Nat.min (csize ta) (csize tb) = n -> num_of_deals t = n.
Proof.
  intros cats P t ta tb H -> n <-. destruct (deals_max _ _ _ _ H) as (_ & Hs & Hm).
  assert (X1 := Hs 0%nat ta 1%nat eq_refl eq_refl). assert (X2 := Hs 1%nat tb 1%nat eq_refl eq_refl).
  assert (Y : (Nat.min (csize ta) (csize tb) <= tdeals t)%nat).
  { apply Hm. intros [|[|i]] c r Hc Hr; simpl in Hc, Hr; try (inversion Hc; inversion Hr; subst; lia). destruct i; discriminate. }
  unfold num_of_deals. lia.
Qed.

Theorem tr_two_sided : forall M cap a b z k t, cap_suffices cap [a; b] [1%nat; 1%nat] -> values_at_least (- M) [a; b] ->
  profitable_pairs z (sort_desc (cvalues a)) (sort_desc (cvalues b)) k ->
  trade_reduction_M M cap [a; b] [1%nat; 1%nat] z = Ok t ->
  (k = 0%nat -> num_of_deals t = 0%nat /\ forall c, In c (tcats t) -> cvalues c = [])
  /\ (forall j, k = S j ->
      let A := sort_desc (cvalues a) in let B := sort_desc (cvalues b) in
      exists ta tb pa pb, tcats t = [ta; tb] /\ tprices t = Some [pa; pb]
      /\ cname ta = cname a /\ cname tb = cname b
      /\ Forall2 Qeq (cvalues tb) (firstn (S j) B)
      /\ pa == - pb
      /\ (worth_doing z (nth j A 0 + next_value M (S j) B) ->
            num_of_deals t = S j /\ Forall2 Qeq (cvalues ta) (firstn (S j) A) /\ pb == next_value M (S j) B)
      /\ (~ worth_doing z (nth j A 0 + next_value M (S j) B) ->
            num_of_deals t = j /\ Forall2 Qeq (cvalues ta) (firstn j A) /\ pa == nth j A 0)).
Proof.
  intros M cap a b z kz t Hcap Hv Hpp Ht.
  set (recipe := [1%nat; 1%nat]) in *. set (m := [a; b]) in *.
  assert (H1 : all_ones recipe) by (repeat constructor).
  assert (Hl : length recipe = length m) by reflexivity.
  assert (Hp : exists j, (j < length recipe)%nat /\ (0 < nth j recipe 0)%nat) by (exists 0%nat; unfold recipe; simpl; lia).
  destruct (tr_spec M cap m recipe z Hl Hp Hv) as [k [deals' [rem' [t' [Eo' [Ek [Hst [Et [Hnt Hres]]]]]]]]].
  assert (t' = t) by congruence. subst t'.
  set (a' := clone a). set (b' := clone b).
  assert (Em : clone_market m = [a'; b']) by reflexivity.
  assert (Ea : cvalues a' = sort_desc (cvalues a)) by reflexivity.
  assert (Eb : cvalues b' = sort_desc (cvalues b)) by reflexivity.
  set (m' := clone_market m) in *.
  assert (Hl' : length recipe = length m') by (unfold m'; rewrite clone_length; assumption).
  assert (Hs' : sorted_market m') by apply clone_sorted.
  assert (Hv' : values_at_least (- M) m') by (apply values_at_least_clone; assumption).
  assert (Hcap' : cap_suffices cap m' recipe) by (apply cap_clone; assumption).
  assert (Hz : stops_at cap kz m' recipe z).
  { rewrite Em in Hcap' |- *. apply stops_pairs; [rewrite Ea; apply sort_desc_desc|rewrite Eb; apply sort_desc_desc|assumption|].
    rewrite Ea, Eb. assumption. }
  assert (LZ : (kz <= k)%nat).
  { destruct (le_lt_dec kz k) as [L|L]; [assumption|exfalso].
    apply (later_unacceptable cap k m' recipe true Hs' Hcap' Hst k (le_n _)).
    - eapply enough_le; [|apply (proj1 (proj2 Hz))]. lia.
    - assert (A := proj1 (proj2 (proj2 Hz)) k L). destruct z; simpl in *; lra. }
  unfold tr_result in Hres. fold m' in Hres. destruct Hres as [[E0 Et0]|[E0 [u [Hu Hw]]]].
  { split.
    - intros _. split; [rewrite Et0; reflexivity|]. intros c Hc. rewrite Et0 in Hc. apply (empty_cats m). exact Hc.
    - intros j Ej. lia. }
  assert (Henu : enough u m' recipe).
  { destruct Hu as [[A ->]|[_ ->]]; [assumption|apply (proj1 (proj2 Hst))]. }
  assert (Hku : (k <= u)%nat) by (destruct Hu as [[_ ->]|[_ ->]]; lia).
  assert (W : walk M m' recipe z (tr_order u recipe) (at_block u recipe)
            = walk M m' recipe z (tr_order kz recipe) (at_block kz recipe)).
  { destruct (Nat.eq_dec u kz) as [->|Hne]; [reflexivity|].
    replace u with ((u - kz) + kz)%nat at 1 2 by lia. rewrite tr_order_split, walk_app.
    rewrite walk_reject; [rewrite decs_order; reflexivity|].
    intros ns' L Hn Ha. rewrite decs_order in Hn.
    assert (He1 : enough (S kz) m' recipe) by (eapply enough_le; [|exact Henu]; lia).
    assert (Q := later_unacceptable cap kz m' recipe z Hs' Hcap' Hz kz (le_n _) He1).
    apply Q. eapply acceptable_le; [|exact Ha].
    apply psum_le_gain; try assumption. intros j Hj Hr. specialize (Hn j).
    rewrite at_block_nth, (all_ones_nth recipe j H1 Hj) in Hn. rewrite (all_ones_nth recipe j H1 Hj). lia. }
  rewrite W in Hw. clear W. split.
  { intros ->. destruct Hw as [[_ Et0]|[i [ns [P [Ew _]]]]].
    - split; [rewrite Et0; reflexivity|]. intros c Hc. rewrite Et0 in Hc. apply (empty_cats m). exact Hc.
    - discriminate Ew. }
  intros j ->. cbv zeta.
  assert (Hpp' := Hpp). destruct Hpp' as (P1 & P2 & P3).
  set (A := sort_desc (cvalues a)) in *. set (B := sort_desc (cvalues b)) in *.
  destruct (nth_error A j) as [x|] eqn:Ex; [|apply nth_error_None in Ex; lia].
  destruct (nth_error B j) as [y|] eqn:Ey; [|apply nth_error_None in Ey; lia].
  assert (Hw0 : acceptable z (x + y)) by (apply (proj1 (P3 j x y Ex Ey)); lia).
  assert (W2 := walk_two M a' b' z j x y Ex Ey Hw0). rewrite <- Em in W2. fold recipe in W2.
  rewrite (nth_error_nth _ _ 0 Ex). unfold next_value. rewrite Eb in W2.
  destruct Hw as [[Ew _]|[i [ns [P [Ew [Hcat [_ [HP [HQ _]]]]]]]]].
  { rewrite W2 in Ew. destruct (accepts z _) in Ew; discriminate. }
  rewrite W2 in Ew. unfold shrink in Hcat. rewrite Em in Hcat. cbn [length seq map nth cname] in Hcat.
  apply cat_eq_list in Hcat. destruct Hcat as (ta & tb & Et1 & N1 & V1 & N2 & V2). cbn [cname cvalues] in *.
  unfold vals in V1, V2. cbn [nth] in V1, V2. rewrite Ea in V1. rewrite Eb in V2.
  assert (Wd : forall q, worth_doing z q <-> accepts z q = true) by (intros q; rewrite worth_acceptable; symmetry; apply accepts_iff).
  setoid_rewrite Wd.
  rewrite Em in HQ.
  destruct (accepts z (x + nth (S j) B (- M))) eqn:E.
  - inversion Ew; subst i ns; clear Ew. cbn [nth] in *.
    assert (ND := deals_two _ _ _ _ _ Hnt Et1).
    unfold final_prices, prices_of in HQ. cbn [length seq map set_nth] in HQ.
    inversion HQ as [|pa ? P' ? Q1 HQ1]; subst. inversion HQ1 as [|pb ? P'' ? Q2 HQ2]; subst. inversion HQ2; subst.
    assert (Q2' : pb == nth (S j) B (- M)).
    { rewrite Q2. unfold pr, vals. cbn [nth]. rewrite Eb. reflexivity. }
    assert (Q1' : pa == - pb).
    { rewrite Q1, Q2'. unfold bal, recipe, prices_of. cbn [length seq map dot nth]. unfold pr, vals. cbn [nth].
      rewrite Eb. unfold Qn. cbn [Z.of_nat Pos.of_succ_nat inject_Z]. field. }
    exists ta, tb, pa, pb. split; [exact Et1|]. split; [assumption|]. split; [exact N1|]. split; [exact N2|]. split; [exact V2|].
    split; [assumption|]. split; [intros _|intros X; congruence]. split; [|split; assumption].
    apply ND. unfold csize. rewrite (Forall2_len _ _ V1), (Forall2_len _ _ V2), !firstn_length. lia.
  - inversion Ew; subst i ns; clear Ew. cbn [nth] in *.
    assert (ND := deals_two _ _ _ _ _ Hnt Et1).
    unfold final_prices, prices_of in HQ. cbn [length seq map set_nth] in HQ.
    inversion HQ as [|pa ? P' ? Q1 HQ1]; subst. inversion HQ1 as [|pb ? P'' ? Q2 HQ2]; subst. inversion HQ2; subst.
    assert (Q1' : pa == x).
    { rewrite Q1. unfold pr, vals. cbn [nth]. rewrite Ea. fold A. rewrite (nth_error_nth _ _ (- M) Ex). reflexivity. }
    assert (Q2' : pa == - pb).
    { rewrite Q1', Q2. unfold bal, recipe, prices_of. cbn [length seq map dot nth]. unfold pr, vals. cbn [nth].
      rewrite Ea. fold A. rewrite (nth_error_nth _ _ (- M) Ex). unfold Qn. cbn [Z.of_nat Pos.of_succ_nat inject_Z]. field. }
    exists ta, tb, pa, pb. split; [exact Et1|]. split; [assumption|]. split; [exact N1|]. split; [exact N2|]. split; [exact V2|].
    split; [assumption|]. split; [intros X; congruence|intros _]. split; [|split; assumption].
    apply ND. unfold csize. rewrite (Forall2_len _ _ V1), (Forall2_len _ _ V2), !firstn_length. lia.
Qed.

Theorem pairs_exist_unique : forall z A B, desc A -> desc B ->
  exists k, profitable_pairs z A B k /\ forall k', profitable_pairs z A B k' -> k' = k.
Proof.
  intros z A B HA HB. set (m := [mkCat "a"%string A; mkCat "b"%string B]).
  destruct (optimal_trade_spec (length A) m [1%nat; 1%nat] z eq_refl) as (k & _ & Hst).
  rewrite (clone_id m) in Hst by (repeat constructor; assumption). exists k.
  assert (X : profitable_pairs z A B k).
  { refine (proj1 (stops_pairs (length A) (mkCat "a"%string A) (mkCat "b"%string B) k z HA HB _) Hst).
    exists 0%nat, (mkCat "a"%string A), 1%nat. unfold csize. cbn. repeat split; lia. }
  split; [exact X|]. intros k' H. apply (pairs_unique z A B); assumption.
Qed.
