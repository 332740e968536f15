(** * The values of the agents who are left do not matter (C115): the ascending auction *)

From Coq Require Import String List Arith Lia QArith Lqa Permutation Sorted.
From Verif Require Import Base Model_Agents Model_Prices Model_Trade Model_Market Model_Ascending Model_TradeReduction
  Spec_Market Spec_Trade Spec_Ascending Spec_TradeReduction Spec_Reorder Spec_Outsiders Spec_Winners Proof_Market Proof_Ascending
  Proof_Ascending2 Proof_Ascending3 Proof_Statics Proof_TA10 Proof_Better Proof_Outsiders.
From Verif Require Proof_Reorder2.
Import ListNotations.
Open Scope Q_scope.

Lemma abs_loop_down : forall M m recipe fuel y ns stop, abs_loop M fuel m recipe y = Ok (ns, stop) -> forall j, (nth j ns 0 <= nth j y 0)%nat.
Proof.
  intros M m recipe fuel y ns stop H j. apply (abs_loop_ind M m recipe (fun z => (nth j z 0 <= nth j y 0)%nat)) in H; [apply H|lia|].
  intros a b L (main & _ & _ & _ & ->). assert (X := nth_dec_le main j a). lia.
Qed.

Lemma nth_Qeq : forall l l' x d, Forall2 Qeq l l' -> nth x l d == nth x l' d.
Proof. intros l l' x d H. revert x. induction H as [|a b l l' E F IH]; intros [|x]; simpl; try reflexivity; [assumption|apply IH]. Qed.

Section Walk.
  Variables (M : Q) (m m' : market) (recipe ns : list nat) (stop : option nat).
  Hypothesis HM : 0 < M.
  Hypothesis Hl : length recipe = length m.
  Hypothesis Hl' : length m' = length m.
  Hypothesis Hpos : exists j, (j < length recipe)%nat /\ (0 < nth j recipe 0)%nat.
  Hypothesis HO : outcome M m recipe ns stop.
  Variable A' : nat -> list Q.
  Hypothesis LA' : forall j, (j < length m)%nat -> length (A' j) = nth j ns 0%nat.
  Hypothesis HA' : forall j, (j < length m)%nat -> Forall (fun v => fp M m recipe ns stop j <= v) (A' j).
  Hypothesis HE : forall j, (j < length m)%nat -> Forall2 Qeq (vals m' j) (A' j ++ skipn (nth j ns 0%nat) (vals m j)).

  Lemma left_behind : forall j x, (j < length m)%nat -> (nth j ns 0 <= x)%nat -> nth x (vals m' j) (- M) == nth x (vals m j) (- M).
  Proof.
    intros j x Hj Hx. rewrite (nth_Qeq _ _ x (- M) (HE j Hj)). rewrite app_nth2 by (rewrite LA' by assumption; assumption). rewrite LA' by assumption.
    rewrite <- (firstn_skipn (nth j ns 0%nat) (vals m j)) at 2. destruct (outcome_inv M m recipe HM Hl Hpos ns stop HO) as ([_ Hok] & _).
    assert (E : length (firstn (nth j ns 0%nat) (vals m j)) = nth j ns 0%nat) by (rewrite firstn_length; specialize (Hok j); lia).
    rewrite app_nth2 by lia. rewrite E. reflexivity.
  Qed.

  Lemma psum_same : forall y, (forall j, (nth j ns 0 <= nth j y 0)%nat) -> psum M m' recipe y == psum M m recipe y.
  Proof. intros y H. apply psum_ext. intros j Hj _. unfold pr. apply left_behind; [lia|apply H]. Qed.

  Lemma same_steps : forall fuel fuel' y ns' stop', (forall j, (nth j ns 0 <= nth j y 0)%nat) ->
    abs_loop M fuel m recipe y = Ok (ns, stop) -> abs_loop M fuel' m' recipe y = Ok (ns', stop') -> ns' = ns /\ stop' = stop.
  Proof.
    induction fuel as [|fuel IH]; intros [|fuel'] y ns' stop' HY H H'; try discriminate. cbn [abs_loop] in H, H'.
    apply bind_Ok in H. destruct H as [i [Hch H]]. rewrite Hch in H'. cbn [bind] in H'. destruct (choice_spec _ _ _ Hch) as (Hi & Hr & _).
    destruct (Nat.eqb_spec (nth i y 0%nat) 0) as [Z|Z]; [inversion H; inversion H'; subst; auto|].
    destruct (Qle_bool_reflect 0 (psum M m recipe (dec i y))) as [S1|S1].
    - assert (Ey : y = ns) by congruence. assert (Es : stop = Some i) by congruence.
      enough (X : 0 <= psum M m' recipe (dec i y)).
      { apply Qle_bool_iff in X. rewrite X in H'. split; congruence. }
      assert (D : psum M m' recipe (dec i y) == psum M m' recipe y + Qn (nth i recipe 0%nat) * (pr M m' (dec i y) i - pr M m' y i)).
      { apply wdot_update; [assumption|]. intros j Hj. unfold pr. rewrite nth_dec_other by congruence. reflexivity. }
      assert (E1 := psum_same y HY). assert (E2 : pr M m' y i == pr M m y i) by (apply left_behind; [lia|apply HY]).
      assert (E3 := bal_eq M m recipe Hl y i Hr).
      assert (E4 : bal M m recipe y i <= pr M m' (dec i y) i).
      { unfold pr. rewrite nth_dec_same. rewrite (nth_Qeq _ _ _ (- M) (HE i ltac:(lia))).
        rewrite app_nth1 by (rewrite LA', <- Ey by lia; lia). assert (X := HA' i ltac:(lia)). rewrite Es, fp_main in X by lia. rewrite Forall_forall in X.
        rewrite Ey. apply X. apply nth_In. rewrite LA', <- Ey by lia. lia. }
      assert (Qp : 0 < Qn (nth i recipe 0%nat)) by (apply Qn_pos; assumption). nra.
    - assert (DN := abs_loop_down _ _ _ _ _ _ _ H).
      rewrite (Qle_bool_ext 0 _ _ (psum_same (dec i y) DN)) in H'. destruct (Qle_bool_reflect 0 (psum M m recipe (dec i y))) as [S2|S2]; [lra|].
      apply (IH fuel' (dec i y)); assumption.
  Qed.

  Lemma same_final : forall j, (j < length m)%nat -> fp M m' recipe ns stop j == fp M m recipe ns stop j.
  Proof.
    intros j Hj. destruct (outcome_inv M m recipe HM Hl Hpos ns stop HO) as (_ & _ & main & Hch0 & Hst).
    destruct (choice_spec _ _ _ Hch0) as (Hm1 & Hm2 & _).
    assert (AT : forall k, (k < length m)%nat -> pr M m' ns k == pr M m ns k) by (intros k Hk; apply left_behind; [assumption|lia]).
    destruct Hst as [[E _]|[E _]].
    - assert (N : stop <> Some j) by congruence. rewrite !fp_other by (assumption || lia). apply AT; assumption.
    - destruct (Nat.eq_dec main j) as [<-|N].
      + rewrite E. rewrite !fp_main by lia. assert (X1 := bal_eq M m recipe Hl ns main Hm2). assert (X2 := bal_eq M m' recipe ltac:(lia) ns main Hm2).
        assert (E1 := psum_same ns (fun k => le_n _)). assert (E2 := AT main Hj). apply Qn_pos in Hm2.
        assert (X3 : Qn (nth main recipe 0%nat) * (bal M m' recipe ns main - bal M m recipe ns main) == 0) by (rewrite E1, E2 in X2; lra).
        apply Qmult_integral in X3. destruct X3 as [X3|X3]; lra.
      + assert (N2 : stop <> Some j) by congruence. rewrite !fp_other by (assumption || lia). apply AT; assumption.
  Qed.
End Walk.

Lemma supports_sizes : forall cc cc' recipe n, map csize cc' = map csize cc -> supports cc recipe n -> supports cc' recipe n.
Proof.
  intros cc cc' recipe n E H i c r E1 E2. assert (D := map_nth_error csize i cc' E1). rewrite E in D.
  destruct (nth_error cc i) as [c2|] eqn:E3.
  - rewrite (map_nth_error csize i cc E3) in D. injection D as D. rewrite <- D. apply (H i c2 r E3 E2).
  - apply nth_error_None in E3. rewrite (proj2 (nth_error_None (map csize cc) i)) in D by (rewrite map_length; assumption). discriminate.
Qed.

(** Lists of values up to the order and the representation of the rational numbers. *)
Lemma red_Qeq : forall l l', Forall2 Qeq l l' <-> map Qred l = map Qred l'.
Proof.
  split.
  - intros H. induction H as [|a b l l' E F IH]; [reflexivity|]. cbn [map]. f_equal; [apply Qred_complete; assumption|assumption].
  - revert l'. induction l as [|a l IH]; intros [|b l'] H; try discriminate; constructor; injection H as E1 E2; [|auto].
    rewrite <- (Qred_correct a), <- (Qred_correct b), E1. reflexivity.
Qed.

Lemma same_values_red : forall l l', same_values l l' <-> Permutation (map Qred l) (map Qred l').
Proof.
  intros l l'. split.
  - intros (l0 & P & E). apply red_Qeq in E. rewrite <- E. apply Permutation_map. assumption.
  - intros H. destruct (Permutation_map_inv Qred l (Permutation_sym H)) as (l0 & E & P).
    exists l0. split; [assumption|]. apply red_Qeq. symmetry. assumption.
Qed.

Lemma same_values_perm : forall l l', Permutation l l' -> same_values l l'.
Proof. intros l l' H. apply same_values_red, Permutation_map. assumption. Qed.

Lemma same_values_sym : forall l l', same_values l l' -> same_values l' l.
Proof. intros l l' H. apply same_values_red. apply same_values_red in H. apply Permutation_sym. assumption. Qed.

Lemma same_values_trans : forall l1 l2 l3, same_values l1 l2 -> same_values l2 l3 -> same_values l1 l3.
Proof. intros l1 l2 l3 H1 H2. apply same_values_red. apply same_values_red in H1. apply same_values_red in H2. eapply Permutation_trans; eassumption. Qed.

Lemma same_values_app : forall a a' b b', same_values a a' -> same_values b b' -> same_values (a ++ b) (a' ++ b').
Proof. intros a a' b b' H1 H2. apply same_values_red. rewrite !map_app. apply Permutation_app; apply same_values_red; assumption. Qed.

Lemma same_values_cancel : forall a a' b b', same_values a a' -> same_values (a ++ b) (a' ++ b') -> same_values b b'.
Proof.
  intros a a' b b' H1 H2. apply same_values_red. apply same_values_red in H1. apply same_values_red in H2. rewrite !map_app in H2.
  apply (Permutation_app_inv_l (map Qred a)). eapply Permutation_trans; [exact H2|]. apply Permutation_app_tail, Permutation_sym. assumption.
Qed.

Lemma same_values_desc : forall l l', desc l -> desc l' -> same_values l l' -> Forall2 Qeq l l'.
Proof.
  intros l l' H H' S. apply same_values_red in S.
  assert (R : forall x, desc x -> desc (map Qred x)).
  { intros x D. induction x as [|a x IH]; [constructor|]. apply desc_inv in D. destruct D as [D F]. cbn [map]. constructor; [apply IH; assumption|].
    rewrite Forall_forall in *. intros v Hv. apply in_map_iff in Hv. destruct Hv as (w & <- & Hw). rewrite !Qred_correct. apply F. assumption. }
  assert (X := desc_perm_eq _ _ (R l H) (R l' H') S). apply red_Qeq. apply red_Qeq in X. rewrite !map_map in X.
  rewrite (map_ext _ Qred) in X by (intros a; apply Qred_complete, Qred_correct). rewrite (map_ext (fun x => Qred (Qred x)) Qred) in X by (intros a; apply Qred_complete, Qred_correct).
  exact X.
Qed.

Lemma firstn_all_app : forall (a b : list Q) k, length a = k -> firstn k (a ++ b) = a.
Proof. intros a b k <-. rewrite firstn_app, Nat.sub_diag, firstn_O, app_nil_r. apply firstn_all. Qed.

Lemma firstn_F2 : forall k l l', Forall2 Qeq l l' -> Forall2 Qeq (firstn k l) (firstn k l').
Proof. intros k l l' H. revert k. induction H as [|a b l l' E F IH]; intros [|k]; simpl; constructor; auto. Qed.

Lemma F2_sym : forall l l', Forall2 Qeq l l' -> Forall2 Qeq l' l.
Proof. intros l l' H. induction H; constructor; [symmetry; assumption|assumption]. Qed.

Theorem ascending_winners : forall M rounds rounds' m m' recipe new t t' P P', 0 < M ->
  ascending_auction_M M rounds m recipe = Ok t -> ascending_auction_M M rounds' m' recipe = Ok t' ->
  tprices t = Some P -> tprices t' = Some P' -> changes_left P m (tcats t) new m' ->
  Forall2 Qeq P P' /\ num_of_deals t' = num_of_deals t /\ forall j, (j < length m)%nat -> same_values (new j) (cvalues (nth j (tcats t') (mkCat "" []))).
Proof.
  intros M rounds rounds' m m' recipe new t t' P P' HM H H' HP HP' [LM HD].
  destruct (auction_outcome _ _ _ _ _ H) as (Hl & Hpos & ns & stop & HO & HL & Et & SU & SM).
  destruct (auction_outcome _ _ _ _ _ H') as (Hl' & _ & ns' & stop' & HO' & HL' & Et' & SU' & SM').
  set (c := clone_market m) in *. set (c' := clone_market m') in *.
  assert (LC : length c = length m) by (unfold c; apply clone_length).
  assert (LC' : length c' = length c) by (unfold c'; rewrite clone_length, LC; assumption).
  assert (EP : P = final_prices M c recipe ns stop) by (rewrite Et in HP; cbn in HP; congruence).
  assert (EP' : P' = final_prices M c' recipe ns' stop') by (rewrite Et' in HP'; cbn in HP'; congruence).
  assert (PF : forall j, nth j P 0 = fp M c recipe ns stop j) by (intros j; rewrite EP; reflexivity).
  destruct (outcome_inv M c recipe HM Hl Hpos ns stop HO) as ([Hlen Hok] & _).
  assert (TL : forall j, (j < length m)%nat -> nth j (tcats t) dcat = mkCat (cname (nth j c dcat)) (firstn (nth j ns 0%nat) (vals c j))).
  { intros j Hj. rewrite Et. cbn [tcats]. unfold shrink. rewrite nth_map_seq by lia. reflexivity. }
  assert (LN : forall j, (j < length m)%nat -> length (new j) = nth j ns 0%nat).
  { intros j Hj. destruct (HD j Hj) as (_ & X & _). change (mkCat "" []) with dcat in X. rewrite X, TL by assumption. unfold csize. cbn [cvalues]. rewrite firstn_length. specialize (Hok j). lia. }
  set (A' := fun j => sort_desc (new j)).
  assert (LA : forall j, (j < length c)%nat -> length (A' j) = nth j ns 0%nat) by (intros j Hj; unfold A'; rewrite sort_desc_length; apply LN; lia).
  assert (GA : forall j, (j < length c)%nat -> Forall (fun v => fp M c recipe ns stop j <= v) (A' j)).
  { intros j Hj. destruct (HD j ltac:(lia)) as (_ & _ & X & _). rewrite PF in X. eapply Permutation_Forall; [apply Permutation_sym, sort_desc_perm|exact X]. }
  assert (HE : forall j, (j < length c)%nat -> Forall2 Qeq (vals c' j) (A' j ++ skipn (nth j ns 0%nat) (vals c j))).
  { intros j Hj. destruct (HD j ltac:(lia)) as (_ & _ & _ & others & P1 & P2). change (mkCat "" []) with dcat in P1, P2. rewrite TL in P1 by lia. cbn [cvalues] in P1.
    assert (DS : desc (vals c j)) by apply Proof_Outsiders.vals_clone_desc.
    assert (PO : same_values (skipn (nth j ns 0%nat) (vals c j)) others).
    { apply (same_values_cancel (firstn (nth j ns 0%nat) (vals c j)) (firstn (nth j ns 0%nat) (vals c j))); [apply same_values_perm, Permutation_refl|]. rewrite firstn_skipn.
      eapply same_values_trans; [apply same_values_perm, Proof_Better.vals_clone|exact P1]. }
    apply same_values_desc; [apply Proof_Outsiders.vals_clone_desc| |].
    - apply desc_app; [apply sort_desc_desc|rewrite <- (firstn_skipn (nth j ns 0%nat) (vals c j)) in DS; apply desc_app_inv in DS; apply DS|].
      intros x y Hx Hy. assert (X := GA j Hj). rewrite Forall_forall in X. specialize (X x Hx).
      assert (Y := fp_lower M c recipe HM Hl Hpos ns stop j HO Hj).
      enough (y <= pr M c ns j) by lra. unfold pr. destruct (In_nth _ _ 0 Hy) as (k & K1 & K2).
      assert (K3 := K1). rewrite skipn_length in K3. rewrite <- K2, (nth_indep (vals c j) (- M) 0) by lia.
      rewrite <- (firstn_skipn (nth j ns 0%nat) (vals c j)) at 2. rewrite app_nth2 by (rewrite firstn_length; lia).
      replace (nth j ns 0 - length (firstn (nth j ns 0%nat) (vals c j)))%nat with 0%nat by (rewrite firstn_length; lia).
      rewrite <- (firstn_skipn (nth j ns 0%nat) (vals c j)) in DS. apply desc_app_inv in DS. destruct DS as (_ & DS & _).
      destruct (skipn (nth j ns 0%nat) (vals c j)) as [|h l]; [destruct Hy|]. destruct k as [|k]; cbn [nth]; [lra|].
      apply desc_inv in DS. destruct DS as [_ F]. rewrite Forall_forall in F. cbn in K1. apply F. apply nth_In. lia.
    - eapply same_values_trans; [apply same_values_perm, Proof_Better.vals_clone|]. eapply same_values_trans; [exact P2|].
      apply same_values_app; [apply same_values_perm, Permutation_sym, sort_desc_perm|apply same_values_sym; exact PO]. }
  assert (SW := same_steps M c c' recipe ns stop HM Hl LC' Hpos HO A' LA GA HE).
  assert (SF := same_final M c c' recipe ns stop HM Hl LC' Hpos HO A' LA HE).
  assert (S0 : sizes0 c' = sizes0 c).
  { unfold sizes0. apply (nth_ext _ _ 0%nat 0%nat); [rewrite !map_length; assumption|]. intros j Hj. rewrite map_length in Hj.
    assert (X := sizes0_nth c j). assert (X' := sizes0_nth c' j). unfold sizes0 in X, X'. rewrite X, X'.
    rewrite (Forall2_length _ _ _ _ _ (HE j ltac:(lia))), app_length, LA, skipn_length by lia. specialize (Hok j). lia. }
  rewrite S0 in HL'.
  destruct (SW _ _ _ _ _ (abs_loop_down _ _ _ _ _ _ _ HL) HL HL') as [-> ->].
  assert (ES : map csize (tcats t') = map csize (tcats t)).
  { rewrite Et, Et'. cbn [tcats]. unfold shrink. rewrite LC', !map_map. apply map_ext_in. intros j Hj. apply in_seq in Hj. unfold csize. cbn [cvalues].
    rewrite !firstn_length, (Forall2_length _ _ _ _ _ (HE j ltac:(lia))), app_length, LA, skipn_length by lia. specialize (Hok j). lia. }
  split; [|split].
  - rewrite EP, EP'. apply Proof_Reorder2.qeq_from_nth; [rewrite !final_length; congruence|]. intros j Hj. rewrite final_length in Hj.
    symmetry. apply (SF j Hj).
  - assert (T1 : tcats t = shrink c ns) by (rewrite Et; reflexivity). assert (T2 : tcats t' = shrink c' ns) by (rewrite Et'; reflexivity).
    rewrite T1, T2 in ES. assert (Y1 := SM' _ (supports_sizes _ _ _ _ ES SU)). assert (Y2 := SM _ (supports_sizes _ _ _ _ (eq_sym ES) SU')). lia.
  - intros j Hj. rewrite Et'. cbn [tcats]. unfold shrink. rewrite nth_map_seq by lia. unfold same_values. cbn [cvalues].
    exists (A' j). split; [apply Permutation_sym, sort_desc_perm|]. apply F2_sym.
    assert (X := firstn_F2 (nth j ns 0%nat) _ _ (HE j ltac:(lia))). rewrite firstn_all_app in X by (apply LA; lia). exact X.
Qed.
