(** * Agents left out: generic part (C82) *)

From Coq Require Import String List Arith Lia QArith Lqa Permutation Sorted.
From Verif Require Import Base Model_Agents Model_Trade Model_Prices Model_Market Model_Ascending
  Spec_Market Spec_Trade Spec_Ascending Spec_TradeReduction Spec_Stable Proof_Market Proof_Ascending Proof_Ascending4 Proof_Ascending5 Proof_Deals Proof_TR5.
Import ListNotations.
Open Scope Q_scope.

Lemma same_values_red : forall l l', same_values l l' <-> Permutation (map Qred l) (map Qred l').
Proof.
  intros l l'. split.
  - intros [p [H1 H2]]. eapply perm_trans; [apply Permutation_map; exact H1|].
    assert (E : map Qred p = map Qred l').
    { clear H1. induction H2; [reflexivity|]. simpl. rewrite IHForall2. f_equal. apply Qred_complete. assumption. }
    rewrite E. apply Permutation_refl.
  - intros H. apply Permutation_sym, Permutation_map_inv in H. destruct H as [p [E P]].
    exists p. split; [exact P|]. clear P. revert l' E. induction p as [|x p IH]; intros [|y l'] E; simpl in E; try discriminate; constructor.
    + injection E as E1 E2. rewrite <- (Qred_correct x), <- (Qred_correct y), E1. reflexivity.
    + apply IH. injection E as E1 E2. assumption.
Qed.

Lemma same_values_cancel : forall c e g v, same_values (c ++ e) v -> same_values (c ++ g) v -> same_values e g.
Proof.
  intros c e g v H1 H2. apply same_values_red in H1, H2. apply same_values_red. rewrite map_app in H1, H2.
  eapply Permutation_app_inv_l. eapply perm_trans; [exact H1|]. apply Permutation_sym. exact H2.
Qed.

Lemma same_values_In : forall l l' x, same_values l l' -> In x l -> exists y, In y l' /\ x == y.
Proof.
  intros l l' x [p [H1 H2]] Hx. apply (Permutation_in _ H1) in Hx. exact (qeq_In _ _ _ H2 Hx).
Qed.

Lemma same_values_length : forall l l', same_values l l' -> length l = length l'.
Proof. intros l l' [p [H1 H2]]. rewrite (Permutation_length H1). exact (qeq_length _ _ H2). Qed.

Lemma desc_join : forall a b, desc a -> desc b -> (forall x y, In x a -> In y b -> y <= x) -> desc (a ++ b).
Proof.
  induction a as [|x a IH]; intros b Ha Hb H; [assumption|]. simpl. unfold desc in *.
  apply StronglySorted_inv in Ha. destruct Ha as [Ha Hx]. constructor.
  - apply IH; [assumption|assumption|]. intros; apply H; [right|]; assumption.
  - rewrite Forall_forall in *. intros y Hy. apply in_app_or in Hy. destruct Hy as [Hy|Hy]; [apply Hx; assumption|].
    apply H; [left; reflexivity|assumption].
Qed.

(** When the best agents were kept, the agents left out are the rest of the sorted list. *)
Lemma rest_sorted : forall c gone e v0, desc c -> same_values (c ++ gone) v0 -> (forall x y, In x c -> In y gone -> y <= x) ->
  same_values (c ++ e) v0 -> qeq (sort_desc e) (skipn (length c) (sort_desc v0)).
Proof.
  intros c gone e v0 Hd Hg Hsep He.
  assert (X := same_values_cancel _ _ _ _ He Hg).
  assert (D : desc (c ++ sort_desc e)).
  { apply desc_join; [assumption|apply sort_desc_desc|]. intros x y Hx Hy.
    assert (Hy' : In y e) by (eapply Permutation_in; [apply sort_desc_perm|exact Hy]).
    destruct (same_values_In _ _ _ X Hy') as [y' [Hy1 E]]. rewrite E. apply Hsep; assumption. }
  assert (Y : qeq (c ++ sort_desc e) (sort_desc v0)).
  { assert (S1 : same_values (c ++ sort_desc e) (sort_desc v0)).
    { apply same_values_red. apply same_values_red in He. eapply perm_trans; [|eapply perm_trans; [exact He|]].
      - apply Permutation_map. apply Permutation_app_head. apply sort_desc_perm.
      - apply Permutation_map. apply Permutation_sym, sort_desc_perm. }
    destruct S1 as [p [P1 P2]]. apply (desc_qeq _ _ p); [assumption|apply sort_desc_desc|assumption|assumption]. }
  assert (Z := qeq_skipn (length c) _ _ Y). rewrite skipn_app, skipn_all, Nat.sub_diag in Z. exact Z.
Qed.

Definition best_kept (m : market) (cats : list category) : Prop :=
  length cats = length m /\ forall i c0 c, nth_error m i = Some c0 -> nth_error cats i = Some c ->
    desc (cvalues c) /\ exists gone, same_values (cvalues c ++ gone) (cvalues c0) /\ (forall x y, In x (cvalues c) -> In y gone -> y <= x).

Lemma out_sorted : forall m cats out j, best_kept m cats -> left_out m cats out -> (j < length m)%nat ->
  qeq (vals (clone_market out) j) (skipn (csize (nth j cats dcat)) (vals (clone_market m) j)).
Proof.
  intros m cats out j [Hl Hk] [_ [Hlo Ho]] Hj.
  destruct (nth_error m j) as [c0|] eqn:E0; [|apply nth_error_None in E0; lia].
  destruct (nth_error cats j) as [c|] eqn:Ec; [|apply nth_error_None in Ec; lia].
  destruct (nth_error out j) as [e|] eqn:Ee; [|apply nth_error_None in Ee; lia].
  destruct (Hk _ _ _ E0 Ec) as [Hd [gone [Hg Hsep]]]. specialize (Ho _ _ _ _ E0 Ec Ee).
  rewrite (nth_error_nth _ _ dcat Ec). unfold vals.
  rewrite (nth_error_nth _ _ dcat (clone_nth' _ _ _ Ee)), (nth_error_nth _ _ dcat (clone_nth' _ _ _ E0)).
  apply rest_sorted with (gone := gone); assumption.
Qed.

Lemma out_bound : forall m recipe cats out D, length recipe = length m -> best_kept m cats -> left_out m cats out ->
  feasible out recipe D ->
  (forall j, (j < length recipe)%nat ->
     (length D * nth j recipe 0 <= length (vals (clone_market m) j) - csize (nth j cats dcat))%nat)
  /\ total_gain D <= Qsum (map (fun j => Qsum (firstn (length D * nth j recipe 0%nat)
        (skipn (csize (nth j cats dcat)) (vals (clone_market m) j)))) (seq 0 (length recipe))).
Proof.
  intros m recipe cats out D Hl Hb Ho HD.
  assert (Hlo : length recipe = length (clone_market out)) by (rewrite clone_length; destruct Ho as [_ [E _]]; lia).
  apply feasible_clone in HD. split.
  - intros j Hj. assert (X := proj1 (enough_nth _ _ _ Hlo) (feasible_enough _ _ _ Hlo HD) j Hj).
    rewrite (qeq_length _ _ (out_sorted _ _ _ j Hb Ho ltac:(lia))), skipn_length in X. assumption.
  - eapply Qle_trans; [apply (feasible_bound (clone_market out) recipe D Hlo (clone_sorted out) HD)|].
    rewrite top_gain_seq by assumption. apply Qsum_map_le. intros j Hj. apply in_seq in Hj.
    rewrite (qeq_sum _ _ (qeq_firstn _ _ _ (out_sorted _ _ _ j Hb Ho ltac:(lia)))). apply Qle_refl.
Qed.

(** First way: prices of total at most 0 that no agent left out exceeds. *)
Lemma stable_prices : forall m recipe cats (p : nat -> Q), length recipe = length m -> best_kept m cats ->
  wdot p recipe <= 0 ->
  (forall j y, (j < length m)%nat -> (0 < nth j recipe 0)%nat -> In y (skipn (csize (nth j cats dcat)) (vals (clone_market m) j)) -> y <= p j) ->
  nothing_left m recipe cats.
Proof.
  intros m recipe cats p Hl Hb Hp Hy out D Ho HD.
  destruct (out_bound m recipe cats out D Hl Hb Ho HD) as [Hn Hg]. eapply Qle_trans; [exact Hg|].
  apply Qle_trans with (Qn (length D) * wdot p recipe).
  - unfold wdot. rewrite <- Qsum_map_scale. apply Qsum_map_le. intros j Hj. apply in_seq in Hj.
    destruct (Nat.eq_dec (nth j recipe 0%nat) 0) as [E|E].
    + rewrite E, Nat.mul_0_r. simpl firstn. simpl Qsum. rewrite Qn_0. lra.
    + set (l := skipn (csize (nth j cats dcat)) (vals (clone_market m) j)) in *.
      assert (L : length (firstn (length D * nth j recipe 0%nat) l) = (length D * nth j recipe 0)%nat).
      { apply firstn_length_le. unfold l. rewrite skipn_length. apply Hn. lia. }
      assert (U : Qsum (firstn (length D * nth j recipe 0%nat) l) <= Qn (length (firstn (length D * nth j recipe 0%nat) l)) * p j).
      { apply Qsum_upper. apply Forall_forall. intros y Hyl. apply Hy; [lia|lia|].
        assert (X : In y (firstn (length D * nth j recipe 0%nat) l ++ skipn (length D * nth j recipe 0%nat) l)) by (apply in_or_app; left; assumption).
        rewrite firstn_skipn in X. exact X. }
      rewrite L, Qn_mult in U. lra.
  - assert (X := Qn_nonneg (length D)). set (q := Qn (length D)) in *. clearbody q.
    assert (0 <= q * (- wdot p recipe)) by (apply Qmult_le_0_compat; lra). lra.
Qed.

(** Second way: whole blocks of an optimal trade were kept. *)
Lemma stable_optimal : forall cap k m recipe cats, length recipe = length m -> cap_suffices cap m recipe ->
  stops_at cap k (clone_market m) recipe true -> best_kept m cats ->
  (forall j, (j < length m)%nat -> csize (nth j cats dcat) = (k * nth j recipe 0)%nat) ->
  nothing_left m recipe cats.
Proof.
  intros cap k m recipe cats Hl Hc Hst Hb Hk out D Ho HD.
  destruct (out_bound m recipe cats out D Hl Hb Ho HD) as [Hn Hg]. eapply Qle_trans; [exact Hg|].
  assert (Hl' : length recipe = length (clone_market m)) by (rewrite clone_length; assumption).
  assert (En : enough (k + length D) (clone_market m) recipe).
  { apply enough_nth; [assumption|]. intros j Hj. specialize (Hn j Hj). rewrite Hk in Hn by lia.
    assert (X := proj1 (enough_nth _ _ _ Hl') (proj1 (proj2 Hst)) j Hj). nia. }
  assert (X := top_gain_max cap k (clone_market m) recipe true (clone_sorted m) (cap_clone _ _ _ Hc) Hst _ En).
  rewrite !top_gain_seq in X by assumption.
  rewrite (Qsum_map_ext _ (fun j => Qsum (firstn ((k + length D) * nth j recipe 0%nat) (vals (clone_market m) j)))
     (fun j => Qsum (firstn (k * nth j recipe 0%nat) (vals (clone_market m) j)) + Qsum (firstn (length D * nth j recipe 0%nat)
        (skipn (csize (nth j cats dcat)) (vals (clone_market m) j))))) in X.
  - rewrite Qsum_map_plus in X. lra.
  - intros j Hj. apply in_seq in Hj. rewrite Hk by lia.
    rewrite (Qsum_firstn_split (k * nth j recipe 0%nat) ((k + length D) * nth j recipe 0%nat)) by nia.
    replace ((k + length D) * nth j recipe 0 - k * nth j recipe 0)%nat with (length D * nth j recipe 0)%nat by nia. reflexivity.
Qed.

Lemma kept_size : forall m cats j, best_kept m cats -> (j < length m)%nat ->
  (csize (nth j cats dcat) <= length (vals (clone_market m) j))%nat.
Proof.
  intros m cats j [Hl Hk] Hj.
  destruct (nth_error m j) as [c0|] eqn:E0; [|apply nth_error_None in E0; lia].
  destruct (nth_error cats j) as [c|] eqn:Ec; [|apply nth_error_None in Ec; lia].
  destruct (Hk _ _ _ E0 Ec) as [_ [gone [Hg _]]]. apply same_values_length in Hg. rewrite app_length in Hg.
  rewrite (nth_error_nth _ _ dcat Ec). unfold vals. rewrite (nth_error_nth _ _ dcat (clone_nth' _ _ _ E0)). cbn [cvalues].
  assert (X := Permutation_length (sort_desc_perm (cvalues c0))). cbn [clone cvalues new_category]. unfold csize. lia.
Qed.

(** Third way: there are not enough agents for a deal. *)
Lemma stable_few : forall m recipe cats j, length recipe = length m -> best_kept m cats -> (j < length m)%nat ->
  (length (vals (clone_market m) j) < csize (nth j cats dcat) + nth j recipe 0)%nat -> nothing_left m recipe cats.
Proof.
  intros m recipe cats j Hl Hb Hj Hlt out D Ho HD.
  destruct (out_bound m recipe cats out D Hl Hb Ho HD) as [Hn _]. specialize (Hn j ltac:(lia)).
  destruct D as [|d D]; [unfold total_gain; simpl; lra|]. simpl length in Hn. rewrite Nat.mul_succ_l in Hn. assert (Hs : (csize (nth j cats dcat) <= length (vals (clone_market m) j))%nat) by (apply kept_size; assumption). lia.
Qed.

(** The agents left out, by price. *)
Lemma no_envy_of : forall m cats prices, best_kept m cats ->
  (forall j p y, nth_error prices j = Some p -> (j < length m)%nat -> In y (skipn (csize (nth j cats dcat)) (vals (clone_market m) j)) -> y <= p) ->
  no_envy m cats prices.
Proof.
  intros m cats prices Hb H out i e p v Ho He Hp Hv.
  assert (Hi : (i < length m)%nat). { rewrite <- (proj1 (proj2 Ho)). apply nth_error_Some. congruence. }
  assert (Q := out_sorted m cats out i Hb Ho Hi).
  assert (Hv' : In v (vals (clone_market out) i)).
  { unfold vals. rewrite (nth_error_nth _ _ dcat (clone_nth' _ _ _ He)). cbn [cvalues].
    eapply Permutation_in; [apply Permutation_sym, sort_desc_perm|exact Hv]. }
  destruct (qeq_In _ _ _ Q Hv') as [y [Hy E]]. rewrite E. eapply H; eassumption.
Qed.

Lemma left_out_exists : forall m cats, best_kept m cats -> exists out, left_out m cats out.
Proof.
  induction m as [|c0 m IH]; intros cats [Hl Hk].
  - exists []. split; [assumption|]. split; [reflexivity|]. intros [|i] c1 c e H; discriminate.
  - destruct cats as [|c cats]; [discriminate|].
    destruct (IH cats) as [out [_ [L2 H2]]].
    { split; [simpl in Hl; lia|]. intros i a b Ha Hb. apply (Hk (S i) a b); assumption. }
    destruct (Hk 0%nat c0 c eq_refl eq_refl) as [_ [gone [G _]]].
    exists (mkCat (cname c0) gone :: out). split; [assumption|]. split; [simpl; lia|].
    intros [|i] a b e Ha Hb He; simpl in *; [|eapply H2; eassumption].
    inversion Ha; inversion Hb; inversion He; subst. exact G.
Qed.
