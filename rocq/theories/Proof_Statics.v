(** * Better markets have better optimal trades (C96): single-recipe markets *)

From Coq Require Import String List Arith Lia QArith Lqa Permutation Sorted Bool.
From Verif Require Import Base Model_Agents Model_Trade Model_Prices Model_Market Model_RecipeTree
  Spec_Market Spec_Ascending Spec_Statics Proof_Market Proof_Strategy Proof_TA4.
Import ListNotations.
Open Scope Q_scope.

Lemma at_least_Forall2 : forall l l' x, Forall2 Qle l l' -> (at_least x l <= at_least x l')%nat.
Proof.
  intros l l' x H. unfold at_least. induction H as [|a b l l' Hab H IH]; [simpl; lia|]. simpl.
  destruct (Qle_bool_reflect x a); destruct (Qle_bool_reflect x b); simpl; try lia. exfalso. lra.
Qed.

Lemma improves_pw : forall c c', category_improves c c' -> pw (sort_desc (cvalues c)) (sort_desc (cvalues c')).
Proof.
  intros c c' (kept & extra & HP & HF). apply dom_pw; try apply sort_desc_desc. intros x.
  rewrite (at_least_perm x _ _ (sort_desc_perm (cvalues c))), (at_least_perm x _ _ (sort_desc_perm (cvalues c'))),
    (at_least_perm x _ _ HP), at_least_app.
  assert (X := at_least_Forall2 _ _ x HF). lia.
Qed.

Lemma raised_improves : forall c c', category_raised c c' -> category_improves c c'.
Proof. intros c c' (kept & HP & HF). exists kept, []. rewrite app_nil_r. auto. Qed.

Lemma raised_market_improves : forall m m', raised m m' -> improves m m'.
Proof. intros m m' H. induction H; constructor; [apply raised_improves|]; assumption. Qed.

Lemma Forall2_len : forall A B (R : A -> B -> Prop) l l', Forall2 R l l' -> length l = length l'.
Proof. induction 1; simpl; auto. Qed.

Lemma pw_refl : forall l, pw l l.
Proof. split; [lia|intros; lra]. Qed.

Lemma pw_firstn : forall l l' n, pw l l' -> pw (firstn n l) (firstn n l').
Proof.
  induction l as [|a l IH]; intros l' n H.
  - rewrite firstn_nil. split; [simpl; lia|simpl; intros; lia].
  - destruct l' as [|a' l']; [destruct H as [H _]; simpl in H; lia|]. apply pw_cons in H. destruct H as [Ha H].
    destruct n; [split; simpl; [lia|intros; lia]|]. simpl. destruct (IH l' n H) as [X Y].
    split; [simpl; lia|]. intros [|k] Hk; simpl in *; [assumption|apply Y; lia].
Qed.

Lemma pw_skipn : forall n l l', pw l l' -> pw (skipn n l) (skipn n l').
Proof.
  induction n; intros l l' H; [assumption|]. destruct l as [|a l]; [split; simpl; [lia|intros; lia]|].
  destruct l' as [|a' l']; [destruct H as [H _]; simpl in H; lia|]. simpl. apply IHn. eapply pw_cons; eassumption.
Qed.

Lemma pw_sum : forall l l', pw l l' -> length l = length l' -> Qsum l <= Qsum l'.
Proof.
  induction l as [|a l IH]; intros [|a' l'] H L; try discriminate L; [simpl; lra|].
  apply pw_cons in H. destruct H as [Ha H]. injection L as L. rewrite !Qsum_cons. assert (X := IH _ H L). lra.
Qed.

Lemma block_pw : forall t r l l', pw l l' -> (S t * r <= length l)%nat -> Qsum (block t l r) <= Qsum (block t l' r).
Proof.
  intros t r l l' H HL. unfold block. apply pw_sum; [apply pw_firstn, pw_skipn; assumption|].
  destruct H as [H _]. rewrite !firstn_length, !skipn_length. simpl in HL. lia.
Qed.

(** ** Markets whose sorted categories dominate each other *)

Definition mpw (m m' : market) : Prop := Forall2 (fun c c' => pw (cvalues c) (cvalues c')) m m'.

Lemma improves_mpw : forall m m', improves m m' -> mpw (clone_market m) (clone_market m').
Proof.
  intros m m' H. induction H as [|c c' m m' Hc H IH]; [constructor|]. simpl. constructor; [|assumption].
  apply improves_pw in Hc. exact Hc.
Qed.

Lemma Forall2_nth_error : forall A B (R : A -> B -> Prop) l l' i b, Forall2 R l l' -> nth_error l' i = Some b ->
  exists a, nth_error l i = Some a /\ R a b.
Proof.
  intros A B R l l' i b H. revert i. induction H as [|a b' l l' Hab H IH]; intros [|i] E; simpl in *; try discriminate.
  - injection E as <-. eauto.
  - apply IH. assumption.
Qed.

Lemma mpw_enough : forall k m m' recipe, mpw m m' -> enough k m recipe -> enough k m' recipe.
Proof.
  intros k m m' recipe H He i c' r Hc Hr. destruct (Forall2_nth_error _ _ _ _ _ _ _ H Hc) as (c & E & [L _]).
  assert (X := He i c r E Hr). unfold csize in *. lia.
Qed.

Lemma enough_cons : forall n c m r recipe, enough n (c :: m) (r :: recipe) -> (n * r <= csize c)%nat /\ enough n m recipe.
Proof. intros n c m r recipe H. split; [exact (H 0%nat c r eq_refl eq_refl)|]. intros i c0 r0 H1 H2. exact (H (S i) c0 r0 H1 H2). Qed.

Lemma mpw_gain : forall t m m' recipe, mpw m m' -> enough (S t) m recipe -> ps_gain m recipe t <= ps_gain m' recipe t.
Proof.
  intros t m m' recipe H. rewrite !ps_gain_alt. revert recipe.
  induction H as [|c c' m m' Hc H IH]; intros [|r recipe] He; cbn [map2]; try (simpl; lra).
  apply enough_cons in He. destruct He as [H1 H2]. assert (X := IH recipe H2).
  rewrite !Qsum_cons. assert (Y := block_pw t r _ _ Hc H1). lra.
Qed.

Lemma mpw_top : forall n m m' recipe, mpw m m' -> enough n m recipe -> top_gain m recipe n <= top_gain m' recipe n.
Proof.
  intros n m m' recipe H He. induction n; [unfold top_gain; simpl; lra|].
  rewrite !top_gain_S. assert (X := mpw_gain n m m' recipe H He).
  assert (Y := IHn (enough_le n (S n) m recipe ltac:(lia) He)). lra.
Qed.

Lemma acceptable_le : forall z a b, a <= b -> acceptable z a -> acceptable z b.
Proof. intros [|] a b H1 H2; simpl in *; lra. Qed.

Lemma mpw_stop : forall cap k k' m m' recipe z, mpw m m' -> stops_at cap k m recipe z -> stops_at cap k' m' recipe z ->
  (k <= k')%nat.
Proof.
  intros cap k k' m m' recipe z H (A1 & A2 & A3 & _) (B1 & B2 & B3 & B4).
  destruct (le_lt_dec k k') as [L|L]; [assumption|]. exfalso. destruct B4 as [->|[B4|B4]]; [lia| |].
  - apply B4. apply (mpw_enough (S k') m m' recipe H). eapply enough_le; [|exact A2]. lia.
  - apply B4. eapply acceptable_le; [|apply (A3 k' L)]. apply mpw_gain; [assumption|]. eapply enough_le; [|exact A2]. lia.
Qed.

Lemma optimal_trade_shape : forall cap m recipe z D R, optimal_trade cap m recipe z = Ok (D, R) ->
  exists k, stops_at cap k (clone_market m) recipe z /\ length D = k
         /\ mt_gain_from_trade D == top_gain (clone_market m) recipe k.
Proof.
  intros cap m recipe z D R H.
  destruct (Nat.eq_dec (length recipe) (length m)) as [Hl|Hl].
  2:{ unfold optimal_trade in H. destruct (Nat.eqb_spec (length recipe) (length m)); [contradiction|discriminate]. }
  destruct (optimal_trade_spec cap m recipe z Hl) as [k [H1 Hst]]. rewrite H1 in H. inversion H; subst. clear H.
  exists k. split; [assumption|]. rewrite <- sorted_deals_flat. split; [rewrite map_length; apply sorted_deals_length|].
  rewrite mt_gain_flat. apply sorted_deals_gain.
Qed.

Theorem optimal_improves : forall cap m m' recipe z D R D' R', improves m m' ->
  optimal_trade cap m recipe z = Ok (D, R) -> optimal_trade cap m' recipe z = Ok (D', R') ->
  (length D <= length D')%nat /\ mt_gain_from_trade D <= mt_gain_from_trade D'.
Proof.
  intros cap m m' recipe z D R D' R' HI H H'. apply improves_mpw in HI.
  destruct (optimal_trade_shape _ _ _ _ _ _ H) as (k & S1 & L1 & G1).
  destruct (optimal_trade_shape _ _ _ _ _ _ H') as (k' & S2 & L2 & G2).
  assert (K := mpw_stop _ _ _ _ _ _ _ HI S1 S2). split; [lia|]. rewrite G1, G2.
  assert (X := mpw_top k _ _ recipe HI (proj1 (proj2 S1))).
  assert (Y := proj1 (top_gain_before k' _ recipe z (proj1 (proj2 (proj2 S2))) k K)). lra.
Qed.

(** ** Raising values *)

Lemma firstn_raise : forall n l l', pw l l' -> length l = length l' ->
  Qsum (firstn n l') - Qsum (firstn n l) <= Qsum l' - Qsum l.
Proof.
  intros n l l' H L. assert (A := Qsum_app (firstn n l) (skipn n l)). assert (B := Qsum_app (firstn n l') (skipn n l')).
  rewrite firstn_skipn in A, B. assert (C := pw_sum _ _ (pw_skipn n _ _ H) ltac:(rewrite !skipn_length; lia)). lra.
Qed.

Definition mpw_eq (m m' : market) : Prop :=
  Forall2 (fun c c' => pw (cvalues c) (cvalues c') /\ length (cvalues c) = length (cvalues c')) m m'.

Lemma mpw_eq_mpw : forall m m', mpw_eq m m' -> mpw m m'.
Proof. intros m m' H. induction H as [|c c' m m' [H1 H2] H IH]; constructor; assumption. Qed.

Lemma raised_mpw : forall m m', raised m m' -> mpw_eq (clone_market m) (clone_market m').
Proof.
  intros m m' H. induction H as [|c c' m m' Hc H IH]; [constructor|]. simpl. constructor; [|assumption].
  split; [apply improves_pw, raised_improves in Hc || (apply improves_pw; apply raised_improves); assumption|].
  simpl. rewrite !sort_desc_length. destruct Hc as (kept & HP & HF).
  rewrite (Permutation_length HP). eapply Forall2_len; eassumption.
Qed.

Lemma mpw_top_raise : forall n m m' recipe, mpw_eq m m' ->
  top_gain m' recipe n - top_gain m recipe n <= total_value m' - total_value m.
Proof.
  intros n m m' recipe H. rewrite !top_gain_alt. unfold total_value. revert recipe.
  induction H as [|c c' m m' [H1 H2] H IH]; intros recipe.
  - destruct recipe; simpl; lra.
  - destruct recipe as [|r recipe].
    + assert (X := IH (@nil nat)). destruct m, m'; simpl map2 in X |- *; cbn [map]; rewrite !Qsum_cons; assert (Y := pw_sum _ _ H1 H2); simpl in X |- *; lra.
    + cbn [map2 map]. rewrite !Qsum_cons. assert (X := IH recipe). assert (Y := firstn_raise (n * r) _ _ H1 H2). lra.
Qed.

Lemma total_value_clone : forall m, total_value (clone_market m) == total_value m.
Proof.
  induction m as [|c m IH]; [reflexivity|]. unfold total_value in *. simpl clone_market. cbn [map]. rewrite !Qsum_cons, IH.
  simpl. rewrite (Qsum_perm _ _ (sort_desc_perm (cvalues c))). reflexivity.
Qed.

Lemma stop_top_max : forall cap k k' m recipe z, sorted_market m -> stops_at cap k m recipe z ->
  (k <= k')%nat -> (k' <= cap)%nat -> enough k' m recipe -> top_gain m recipe k' <= top_gain m recipe k.
Proof.
  intros cap k k' m recipe z Hs (A1 & A2 & A3 & A4) K C He.
  destruct A4 as [->|[A4|A4]].
  - replace k' with cap by lia. lra.
  - assert (k' = k). { destruct (Nat.eq_dec k k') as [|N]; [auto|]. exfalso. apply A4. eapply enough_le; [|exact He]. lia. }
    subst. lra.
  - replace k' with (k + (k' - k))%nat in * by lia. revert He. generalize (k' - k)%nat. clear K C k'.
    induction n; intros He; [rewrite Nat.add_0_r; lra|]. rewrite Nat.add_succ_r in *. rewrite top_gain_S.
    assert (X := IHn ltac:(eapply enough_le; [|exact He]; lia)).
    assert (Y := ps_gain_mono m recipe k (k + n) Hs ltac:(lia) He).
    destruct z; simpl in A4; lra.
Qed.

Lemma mpw_eq_enough : forall k m m' recipe, mpw_eq m m' -> enough k m' recipe -> enough k m recipe.
Proof.
  intros k m m' recipe H He i c r Hc Hr.
  assert (E : exists c', nth_error m' i = Some c' /\ length (cvalues c) = length (cvalues c')).
  { clear He Hr. revert i Hc. induction H as [|a b m m' [_ L] H IH]; intros [|i] Hc; simpl in *; try discriminate.
    - injection Hc as <-. eauto.
    - apply IH. assumption. }
  destruct E as (c' & E & L). assert (X := He i c' r E Hr). unfold csize in *. lia.
Qed.

Theorem optimal_raised : forall cap m m' recipe z D R D' R', raised m m' ->
  optimal_trade cap m recipe z = Ok (D, R) -> optimal_trade cap m' recipe z = Ok (D', R') ->
  mt_gain_from_trade D' <= mt_gain_from_trade D + (total_value m' - total_value m).
Proof.
  intros cap m m' recipe z D R D' R' HI H H'. apply raised_mpw in HI.
  destruct (optimal_trade_shape _ _ _ _ _ _ H) as (k & S1 & L1 & G1).
  destruct (optimal_trade_shape _ _ _ _ _ _ H') as (k' & S2 & L2 & G2).
  assert (K := mpw_stop _ _ _ _ _ _ _ (mpw_eq_mpw _ _ HI) S1 S2). rewrite G1, G2.
  assert (X := mpw_top_raise k' _ _ recipe HI). rewrite !total_value_clone in X.
  assert (E : enough k' (clone_market m) recipe) by (eapply mpw_eq_enough; [exact HI|apply S2]).
  assert (Y := stop_top_max cap k k' _ recipe z (clone_sorted m) S1 K (proj1 S2) E). lra.
Qed.
