(** * Agents whose values are below the prices (C114): the ascending auction and trade reduction *)

From Coq Require Import String List Arith Lia QArith Lqa Permutation Sorted.
From Verif Require Import Base Model_Agents Model_Prices Model_Trade Model_Market Model_Ascending Model_TradeReduction
  Spec_Market Spec_Trade Spec_Ascending Spec_TradeReduction Spec_Reorder Spec_Outsiders Proof_Market Proof_Ascending
  Proof_Ascending2 Proof_Ascending3 Proof_Statics Proof_TA10 Proof_Better.
From Verif Require Proof_Reorder2.
Import ListNotations.
Open Scope Q_scope.

Lemma desc_split : forall p l, desc l -> l = filter (fun v => Qle_bool p v) l ++ filter (fun v => negb (Qle_bool p v)) l.
Proof.
  intros p l. induction l as [|a l IH]; intros H; [reflexivity|]. apply desc_inv in H. destruct H as [H HF]. cbn [filter].
  destruct (Qle_bool_reflect p a) as [A|A]; cbn [negb].
  - cbn [app]. f_equal. apply IH. assumption.
  - assert (E : filter (fun v => Qle_bool p v) l = []).
    { clear IH H. induction HF as [|x l Hx HF IH]; [reflexivity|]. cbn [filter]. destruct (Qle_bool_reflect p x); [lra|assumption]. }
    rewrite E. cbn [app]. f_equal. specialize (IH H). rewrite E in IH. exact IH.
Qed.

Lemma filter_perm : forall A (g : A -> bool) l l', Permutation l l' -> Permutation (filter g l) (filter g l').
Proof.
  intros A g l l' H. induction H as [|x l l' H IH|x y l|l1 l2 l3 H1 IH1 H2 IH2]; cbn [filter].
  - constructor.
  - destruct (g x); [constructor; assumption|assumption].
  - destruct (g x), (g y); try apply Permutation_refl. apply perm_swap.
  - eapply Permutation_trans; eassumption.
Qed.

Lemma below_split : forall p V V' common low low', desc V -> desc V' -> Permutation V (common ++ low) -> Permutation V' (common ++ low') ->
  Forall (fun v => v < p) low -> Forall (fun v => v < p) low' ->
  exists A A' B B', V = A ++ B /\ V' = A' ++ B' /\ Forall2 Qeq A A' /\ Forall (fun v => p <= v) A /\ Forall (fun v => v < p) B /\ Forall (fun v => v < p) B'.
Proof.
  intros p V V' common low low' HS HS' HP HP' HL HL'.
  exists (filter (fun v => Qle_bool p v) V), (filter (fun v => Qle_bool p v) V'), (filter (fun v => negb (Qle_bool p v)) V), (filter (fun v => negb (Qle_bool p v)) V').
  split; [apply desc_split; assumption|]. split; [apply desc_split; assumption|].
  assert (E : forall l, Forall (fun v => v < p) l -> filter (fun v => Qle_bool p v) l = []).
  { intros l H. induction H as [|x l Hx HF IH]; [reflexivity|]. cbn [filter]. destruct (Qle_bool_reflect p x); [lra|assumption]. }
  assert (DF : forall l, desc l -> desc (filter (fun v => Qle_bool p v) l)).
  { intros l H. assert (X := desc_split p l H). rewrite X in H. apply desc_app_inv in H. apply H. }
  assert (LT : forall l, Forall (fun v => v < p) (filter (fun v => negb (Qle_bool p v)) l)).
  { intros l. apply Forall_forall. intros x Hx. apply filter_In in Hx. destruct Hx as [_ Hx]. destruct (Qle_bool_reflect p x); [discriminate|lra]. }
  split; [|split; [|split; apply LT]].
  - apply desc_perm_eq; [apply DF; assumption|apply DF; assumption|].
    apply (filter_perm _ (fun v => Qle_bool p v)) in HP. apply (filter_perm _ (fun v => Qle_bool p v)) in HP'.
    rewrite filter_app, (E low), app_nil_r in HP by assumption. rewrite filter_app, (E low'), app_nil_r in HP' by assumption.
    eapply Permutation_trans; [exact HP|apply Permutation_sym; exact HP'].
  - apply Forall_forall. intros x Hx. apply filter_In in Hx. destruct Hx as [_ Hx]. apply Qle_bool_iff in Hx. assumption.
Qed.

(** ** The walk of the ascending auction *)

Section Walk.
  Variables (M : Q) (m m' : market) (recipe ns : list nat) (stop : option nat).
  Hypothesis HM : 0 < M.
  Hypothesis Hl : length recipe = length m.
  Hypothesis Hl' : length m' = length m.
  Hypothesis Hpos : exists j, (j < length recipe)%nat /\ (0 < nth j recipe 0)%nat.
  Hypothesis HS : sorted_market m.
  Hypothesis HV : values_at_least (- M) m.
  Hypothesis HV' : values_at_least (- M) m'.
  Hypothesis HO : outcome M m recipe ns stop.
  Let f := fp M m recipe ns stop.
  Variables A A' B B' : nat -> list Q.
  Hypothesis HA : forall j, (j < length m)%nat -> vals m j = A j ++ B j.
  Hypothesis HA' : forall j, (j < length m)%nat -> vals m' j = A' j ++ B' j.
  Hypothesis HE : forall j, (j < length m)%nat -> Forall2 Qeq (A j) (A' j).
  Hypothesis HB : forall j, (j < length m)%nat -> Forall (fun v => v < f j) (B j).
  Hypothesis HB' : forall j, (j < length m)%nat -> Forall (fun v => v < f j) (B' j).

  Let a (j : nat) := length (A j).

  Lemma sorted_at : forall j, desc (vals m j).
  Proof.
    intros j. destruct (lt_dec j (length m)) as [L|L]; [|rewrite vals_out by lia; constructor].
    eapply sorted_market_nth; [exact HS|]. apply nth_error_nth'. assumption.
  Qed.

  Lemma a_same : forall j, (j < length m)%nat -> length (A' j) = a j.
  Proof. intros j Hj. unfold a. symmetry. eapply Forall2_length. apply (HE j Hj). Qed.

  Lemma pr_low : forall mm x j, values_at_least (- M) mm -> - M <= nth x (vals mm j) (- M).
  Proof.
    intros mm x j H. destruct (le_lt_dec (length (vals mm j)) x) as [L|L]; [rewrite nth_overflow by assumption; lra|].
    destruct (lt_dec j (length mm)) as [J|J]; [|rewrite vals_out in L by lia; simpl in L; lia].
    apply (H (nth j mm dcat)); [apply nth_In; assumption|]. apply nth_In. exact L.
  Qed.

  Lemma f_low : forall j, (j < length m)%nat -> pr M m ns j <= f j.
  Proof. intros j Hj. apply fp_lower; assumption. Qed.

  Lemma f_ge : forall j, (j < length m)%nat -> - M <= f j.
  Proof. intros j Hj. assert (X := f_low j Hj). assert (Y := pr_low m (nth j ns 0%nat) j HV). unfold pr in X. lra. Qed.

  Lemma top_same : forall j x, (j < length m)%nat -> (x < a j)%nat -> nth x (vals m' j) (- M) == nth x (vals m j) (- M).
  Proof.
    intros j x Hj Hx. rewrite HA, HA' by assumption. rewrite !app_nth1 by (rewrite ?a_same by assumption; assumption).
    assert (H := HE j Hj). unfold a in Hx. revert x Hx. induction H as [|u v l l' E F IH]; intros [|x] Hx; simpl in *; try lia; [lra|apply IH; lia].
  Qed.

  Lemma rest_low : forall j x, (j < length m)%nat -> (a j <= x < length (vals m' j))%nat -> nth x (vals m' j) (- M) < f j.
  Proof.
    intros j x Hj Hx. assert (X := HB' j Hj). rewrite Forall_forall in X. apply X. rewrite HA' in * by assumption.
    rewrite app_length in Hx. rewrite a_same in Hx by assumption. rewrite app_nth2 by (rewrite a_same by assumption; lia). apply nth_In. rewrite a_same by assumption. lia.
  Qed.

  Lemma rest_low0 : forall j x, (j < length m)%nat -> (a j <= x < length (vals m j))%nat -> nth x (vals m j) (- M) < f j.
  Proof.
    intros j x Hj Hx. assert (X := HB j Hj). rewrite Forall_forall in X. apply X. rewrite HA in * by assumption.
    rewrite app_length in Hx. unfold a in Hx. rewrite app_nth2 by lia. apply nth_In. lia.
  Qed.

  Lemma a_len : forall j, (j < length m)%nat -> (a j <= length (vals m j))%nat /\ (a j <= length (vals m' j))%nat.
  Proof. intros j Hj. rewrite HA, HA' by assumption. rewrite !app_length, a_same by assumption. unfold a. lia. Qed.

  Lemma ns_le_a : forall j, (j < length m)%nat -> (nth j ns 0 <= a j)%nat.
  Proof.
    intros j Hj. destruct (le_lt_dec (nth j ns 0%nat) (a j)) as [L|L]; [assumption|exfalso].
    destruct (outcome_inv M m recipe HM Hl Hpos ns stop HO) as ([_ Hok] & _).
    assert (X := rest_low0 j (a j) Hj). specialize (Hok j).
    assert (Y : f j <= nth (a j) (vals m j) (- M)).
    { apply (left_rational M m recipe HM Hl Hpos ns stop j); try assumption.
      rewrite <- (firstn_skipn (nth j ns 0%nat) (vals m j)) at 1. rewrite app_nth1 by (rewrite firstn_length_le; lia).
      apply nth_In. rewrite firstn_length_le; lia. }
    specialize (X ltac:(lia)). lra.
  Qed.

  (** A category that is not raised at the end and of which nobody left. *)
  Lemma full_same : forall j, (j < length m)%nat -> stop <> Some j -> nth j ns 0%nat = length (vals m j) -> length (vals m' j) = length (vals m j).
  Proof.
    intros j Hj NS E. assert (F : f j == - M).
    { unfold f. rewrite fp_other by assumption. unfold pr. rewrite E, nth_overflow by lia. reflexivity. }
    destruct (a_len j Hj) as [L1 L2]. assert (L3 := ns_le_a j Hj). destruct (le_lt_dec (length (vals m' j)) (a j)) as [L|L]; [lia|exfalso].
    assert (X := rest_low j (a j) Hj ltac:(lia)). assert (Y := pr_low m' (a j) j HV'). lra.
  Qed.

  Lemma at_ns : forall j, (j < length m)%nat -> stop <> Some j -> pr M m' ns j == pr M m ns j.
  Proof.
    intros j Hj NS. destruct (outcome_inv M m recipe HM Hl Hpos ns stop HO) as ([_ Hok] & _). specialize (Hok j). unfold pr.
    destruct (Nat.eq_dec (nth j ns 0%nat) (length (vals m j))) as [E|E].
    - assert (X := full_same j Hj NS E). rewrite !nth_overflow by lia. reflexivity.
    - apply top_same; [assumption|]. destruct (le_lt_dec (a j) (nth j ns 0%nat)) as [L|L]; [exfalso|assumption].
      assert (X := rest_low0 j (nth j ns 0%nat) Hj ltac:(lia)). unfold f in X. rewrite fp_other in X by assumption. unfold pr in X. lra.
  Qed.

  Lemma unused_full : forall j, (j < length m)%nat -> nth j recipe 0%nat = 0%nat -> nth j ns 0%nat = length (vals m j).
  Proof.
    intros j Hj Z. destruct HO as [fuel H]. apply (abs_loop_ind M m recipe (fun x => nth j x 0%nat = length (vals m j))) in H; [apply H|apply sizes0_nth|].
    intros x y E (main & Hch & _ & _ & ->). destruct (choice_spec _ _ _ Hch) as (A1 & A2 & _). rewrite nth_dec_other; [assumption|]. intros ->. lia.
  Qed.

  Lemma still_negative : forall z, (forall j, (j < length m)%nat -> (nth j ns 0 <= nth j z 0)%nat) -> psum M m' recipe z < 0.
  Proof.
    intros z Hz. destruct (outcome_inv M m recipe HM Hl Hpos ns stop HO) as ([_ Hok] & Hneg & main & Hch & Hst).
    destruct (choice_spec _ _ _ Hch) as (Hm1 & Hm2 & _).
    assert (K : forall j, (j < length m)%nat -> pr M m' z j <= pr M m ns j \/ pr M m' z j < f j).
    { intros j Hj. specialize (Hz j Hj). unfold pr. destruct (le_lt_dec (length (vals m' j)) (nth j z 0%nat)) as [L|L].
      - left. rewrite nth_overflow by assumption. apply pr_low. assumption.
      - destruct (le_lt_dec (a j) (nth j z 0%nat)) as [L1|L1]; [right; apply rest_low; [assumption|lia]|left].
        rewrite top_same by assumption. apply desc_nth; [apply sorted_at|assumption|]. assert (X := a_len j Hj). lia. }
    destruct Hst as [[ES Hz0]|[ES [Hp1 Hp2]]].
    - eapply Qle_lt_trans; [|exact Hneg]. apply wdot_le. intros j Hj Hr. destruct (K j ltac:(lia)) as [X|X]; [assumption|].
      unfold f in X. rewrite fp_other in X by (try congruence; lia). lra.
    - assert (HO2 := HO). rewrite ES in HO2. rewrite <- (final_zero_wdot M m recipe HM Hl Hpos ns main HO2). rewrite <- ES.
      apply (wdot_lt _ _ _ main); [split; assumption| |].
      + intros j [Hj Hr]. assert (X := f_low j ltac:(lia)). unfold f in X. destruct (K j ltac:(lia)) as [Y|Y]; [lra|]. unfold f in Y. lra.
      + assert (X : pr M m ns main < f main).
        { unfold f. rewrite ES, fp_main by lia. apply (bal_bounds M m recipe Hl ns main Hm1 Hm2 Hneg Hp2). }
        unfold f in X. destruct (K main ltac:(lia)) as [Y|Y]; [lra|exact Y].
  Qed.

  Lemma same_walk : forall fuel y ns' stop', length y = length m -> (forall j, (j < length m)%nat -> (nth j ns 0 <= nth j y 0 <= length (vals m' j))%nat) ->
    abs_loop M fuel m' recipe y = Ok (ns', stop') -> ns' = ns /\ stop' = stop.
  Proof.
    induction fuel as [|fuel IH]; intros y ns' stop' Ly Hy H; [discriminate|]. cbn [abs_loop] in H. apply bind_Ok in H. destruct H as [i [Hch H]].
    destruct (choice_spec _ _ _ Hch) as (Hi & Hr & _).
    destruct (le_lt_dec (nth i y 0%nat) (nth i ns 0%nat)) as [L|L].
    - assert (Ei : nth i y 0%nat = nth i ns 0%nat) by (destruct (Hy i ltac:(lia)); lia).
      assert (LA := left_ahead_outcome _ _ _ _ _ HO).
      destruct (outcome_inv M m recipe HM Hl Hpos ns stop HO) as ([Hlen Hok] & Hneg & main & Hch0 & Hst).
      destruct (choice_spec _ _ _ Hch0) as (Hm1 & Hm2 & _).
      assert (NM : forall k, stop = Some k -> k = main) by (intros k E; destruct Hst as [[X _]|[X _]]; congruence).
      assert (EY : forall k, (k < length m)%nat -> nth k y 0%nat = nth k ns 0%nat).
      { intros k Hk. destruct (Nat.eq_dec (nth k y 0%nat) (nth k ns 0%nat)) as [E|E]; [assumption|exfalso]. destruct (Hy k Hk) as [K1 K2].
        assert (NE : k <> i) by (intros ->; congruence).
        destruct (Nat.eq_dec (nth k recipe 0%nat) 0) as [Z|Z].
        - assert (U := unused_full k Hk Z). assert (X := full_same k Hk). assert (W : stop <> Some k) by (intros E2; apply NM in E2; subst k; lia). specialize (X W U). lia.
        - assert (AI := choice_ahead recipe y i Hch k ltac:(lia) ltac:(lia) NE).
          destruct (Nat.eq_dec k main) as [->|NK].
          + assert (AM := choice_ahead recipe ns main Hch0 i Hi Hr (fun X => NE (eq_sym X))). rewrite Ei in AI. unfold ahead in AI, AM. nia.
          + destruct (Nat.eq_dec (nth k ns 0%nat) (length (vals m k))) as [U|U].
            * assert (W : stop <> Some k) by (intros E2; apply NM in E2; congruence). assert (X := full_same k Hk W U). lia.
            * specialize (Hok k). assert (UK : used_by recipe k) by (split; lia). assert (LK : (nth k ns 0 < length (vals m k))%nat) by lia.
              assert (AK := LA k UK LK i (conj Hi Hr) (fun X => NE (eq_sym X))).
              rewrite Ei in AI. unfold ahead in AI, AK. nia. }
      assert (EQ : y = ns).
      { apply (nth_ext y ns 0%nat 0%nat); [congruence|]. intros k Hk. apply EY. lia. }
      rewrite EQ in *. rewrite Hch in Hch0. injection Hch0 as <-. destruct Hst as [[ES Hz]|[ES [Hp1 Hp2]]].
      + rewrite Hz in H. cbn in H. inversion H. split; congruence.
      + destruct (Nat.eqb_spec (nth i ns 0%nat) 0) as [E|_]; [lia|].
        assert (X : psum M m' recipe (dec i ns) == psum M m recipe (dec i ns)).
        { apply psum_ext. intros j Hj Hrj. destruct (Nat.eq_dec i j) as [<-|N].
          - unfold pr. rewrite nth_dec_same. apply top_same; [lia|]. assert (W := ns_le_a i ltac:(lia)). lia.
          - unfold pr. rewrite nth_dec_other by assumption. apply at_ns; [lia|congruence]. }
        rewrite (Qle_bool_ext 0 _ _ X) in H. apply Qle_bool_iff in Hp2. rewrite Hp2 in H. inversion H. split; congruence.
    - destruct (Nat.eqb_spec (nth i y 0%nat) 0) as [E|_]; [lia|].
      assert (GE : forall j, (j < length m)%nat -> (nth j ns 0 <= nth j (dec i y) 0 <= length (vals m' j))%nat).
      { intros j Hj. destruct (Hy j Hj). destruct (Nat.eq_dec i j) as [<-|N]; [rewrite nth_dec_same; lia|rewrite nth_dec_other by assumption; lia]. }
      assert (NG := still_negative (dec i y) (fun j Hj => proj1 (GE j Hj))).
      destruct (Qle_bool_reflect 0 (psum M m' recipe (dec i y))) as [X|X]; [lra|].
      apply (IH (dec i y)); [unfold dec; rewrite set_nth_length; assumption|assumption|assumption].
  Qed.

  Lemma same_prices : forall j, (j < length m)%nat -> fp M m' recipe ns stop j == fp M m recipe ns stop j.
  Proof.
    intros j Hj. destruct (outcome_inv M m recipe HM Hl Hpos ns stop HO) as (_ & _ & main & Hch0 & Hst).
    destruct (choice_spec _ _ _ Hch0) as (Hm1 & Hm2 & _).
    destruct Hst as [[E _]|[E _]].
    - assert (N : stop <> Some j) by congruence. rewrite !fp_other by (assumption || lia). apply at_ns; assumption.
    - destruct (Nat.eq_dec main j) as [<-|N].
      + rewrite E. rewrite !fp_main by lia. assert (X1 := bal_eq M m recipe Hl ns main Hm2). assert (X2 := bal_eq M m' recipe ltac:(lia) ns main Hm2).
        apply Qn_pos in Hm2.
        assert (D : psum M m' recipe ns == psum M m recipe ns + Qn (nth main recipe 0%nat) * (pr M m' ns main - pr M m ns main)).
        { apply wdot_update; [assumption|]. intros k Hk. destruct (lt_dec k (length m)) as [L|L].
          - apply at_ns; [assumption|]. congruence.
          - unfold pr. rewrite !vals_out by lia. destruct (nth k ns 0%nat); reflexivity. }
        rewrite D in X2. assert (X3 : Qn (nth main recipe 0%nat) * (bal M m' recipe ns main - bal M m recipe ns main) == 0) by lra.
        apply Qmult_integral in X3. destruct X3 as [X3|X3]; lra.
      + assert (N2 : stop <> Some j) by congruence. rewrite !fp_other by (assumption || lia). apply at_ns; assumption.
  Qed.
End Walk.

Lemma vals_clone_desc : forall m j, desc (vals (clone_market m) j).
Proof.
  intros m j. destruct (lt_dec j (length (clone_market m))) as [L|L]; [|rewrite vals_out by lia; constructor].
  eapply sorted_market_nth; [apply Proof_Market.clone_sorted|]. apply nth_error_nth'. assumption.
Qed.

Lemma clone_cname : forall m j, cname (nth j (clone_market m) dcat) = cname (nth j m dcat).
Proof.
  intros m j. unfold clone_market. destruct (lt_dec j (length m)) as [L|L]; [|rewrite !nth_overflow by (rewrite ?map_length; lia); reflexivity].
  rewrite (nth_indep _ dcat (clone dcat)) by (rewrite map_length; assumption). rewrite map_nth. reflexivity.
Qed.

Lemma clone_split : forall P m m', differ_below P m m' -> forall j, (j < length m)%nat ->
  exists q, vals (clone_market m) j = fst (fst q) ++ fst (snd q) /\ vals (clone_market m') j = snd (fst q) ++ snd (snd q)
    /\ Forall2 Qeq (fst (fst q)) (snd (fst q)) /\ Forall (fun v => nth j P 0 <= v) (fst (fst q))
    /\ Forall (fun v => v < nth j P 0) (fst (snd q)) /\ Forall (fun v => v < nth j P 0) (snd (snd q)).
Proof.
  intros P m m' [L H] j Hj. destruct (H j Hj) as (_ & common & low & low' & H1 & H2 & H3 & H4).
  destruct (below_split (nth j P 0) (vals (clone_market m) j) (vals (clone_market m') j) common low low') as (A & A' & B & B' & K);
    [apply vals_clone_desc|apply vals_clone_desc|eapply Permutation_trans; [apply Proof_Better.vals_clone|exact H1]|
     eapply Permutation_trans; [apply Proof_Better.vals_clone|exact H2]|assumption|assumption|].
  exists ((A, A'), (B, B')). exact K.
Qed.

Lemma pick : forall (X : Type) (d : X) (R : nat -> X -> Prop) n, (forall j, (j < n)%nat -> exists x, R j x) -> exists F, forall j, (j < n)%nat -> R j (F j).
Proof.
  intros X d R n. induction n as [|n IH]; intros H; [exists (fun _ => d); intros j Hj; lia|].
  destruct IH as [F HF]; [intros j Hj; apply H; lia|]. destruct (H n (Nat.lt_succ_diag_r n)) as [x Hx].
  exists (fun j => if Nat.eq_dec j n then x else F j). intros j Hj. destruct (Nat.eq_dec j n) as [->|N]; [assumption|apply HF; lia].
Qed.

Lemma firstn_Qeq : forall k a a' b b', Forall2 Qeq a a' -> (k <= length a)%nat -> Forall2 Qeq (firstn k (a ++ b)) (firstn k (a' ++ b')).
Proof.
  intros k a a' b b' H. revert k. induction H as [|x y a a' E F IH]; intros [|k] L; simpl in *; try constructor; try lia; [assumption|apply IH; lia].
Qed.

Lemma same_lengths : forall c c' : list category, Forall2 same_agents c c' -> map csize c' = map csize c.
Proof.
  intros c c' H. induction H as [|x y l l' [_ E] HF IH]; [reflexivity|]. cbn [map]. rewrite IH. f_equal. unfold csize. symmetry.
  apply (Forall2_length _ _ _ _ _ E).
Qed.

Lemma Forall2_seq : forall (A B : Type) (R : A -> B -> Prop) (f : nat -> A) (g : nat -> B) n,
  (forall j, (j < n)%nat -> R (f j) (g j)) -> Forall2 R (map f (seq 0 n)) (map g (seq 0 n)).
Proof.
  intros A B R f g n H. assert (K : forall l, (forall j, In j l -> R (f j) (g j)) -> Forall2 R (map f l) (map g l)).
  { induction l as [|x l IH]; intros HL; constructor; [apply HL; left; reflexivity|apply IH; intros j Hj; apply HL; right; assumption]. }
  apply K. intros j Hj. apply in_seq in Hj. apply H. lia.
Qed.

Theorem ascending_outsiders : forall M rounds rounds' m m' recipe t t' P P', 0 < M -> values_at_least (- M) m -> values_at_least (- M) m' ->
  ascending_auction_M M rounds m recipe = Ok t -> ascending_auction_M M rounds' m' recipe = Ok t' ->
  tprices t = Some P -> tprices t' = Some P' -> differ_below P m m' ->
  Forall2 Qeq P P' /\ Forall2 same_agents (tcats t) (tcats t') /\ num_of_deals t' = num_of_deals t.
Proof.
  intros M rounds rounds' m m' recipe t t' P P' HM HV HV' H H' HP HP' HD.
  destruct (auction_outcome _ _ _ _ _ H) as (Hl & Hpos & ns & stop & HO & _ & Et & SU & SM).
  destruct (auction_outcome _ _ _ _ _ H') as (Hl' & _ & ns' & stop' & HO' & HL' & Et' & SU' & SM').
  destruct (pick _ (([], []), ([], [])) _ (length m) (clone_split P m m' HD)) as [F HF].
  set (c := clone_market m) in *. set (c' := clone_market m') in *.
  assert (LC : length c = length m) by (unfold c; apply clone_length).
  assert (LC' : length c' = length c) by (unfold c'; rewrite clone_length, LC; apply HD).
  assert (EP : P = final_prices M c recipe ns stop) by (rewrite Et in HP; cbn in HP; congruence).
  assert (EP' : P' = final_prices M c' recipe ns' stop') by (rewrite Et' in HP'; cbn in HP'; congruence).
  assert (HVC := values_at_least_clone _ _ HV). assert (HVC' := values_at_least_clone _ _ HV'). fold c in HVC. fold c' in HVC'.
  assert (PF : forall j, nth j P 0 = fp M c recipe ns stop j) by (intros j; rewrite EP; reflexivity).
  assert (W : forall j, (j < length c)%nat -> vals c j = fst (fst (F j)) ++ fst (snd (F j)) /\ vals c' j = snd (fst (F j)) ++ snd (snd (F j))
    /\ Forall2 Qeq (fst (fst (F j))) (snd (fst (F j))) /\ Forall (fun v => fp M c recipe ns stop j <= v) (fst (fst (F j)))
    /\ Forall (fun v => v < fp M c recipe ns stop j) (fst (snd (F j))) /\ Forall (fun v => v < fp M c recipe ns stop j) (snd (snd (F j)))).
  { intros j Hj. rewrite <- PF. apply HF. lia. }
  assert (HSc : sorted_market c) by apply Proof_Market.clone_sorted.
  assert (SW := same_walk M c c' recipe ns stop HM Hl LC' Hpos HSc HVC HVC' HO (fun j => fst (fst (F j))) (fun j => snd (fst (F j)))
    (fun j => fst (snd (F j))) (fun j => snd (snd (F j))) (fun j Hj => proj1 (W j Hj)) (fun j Hj => proj1 (proj2 (W j Hj)))
    (fun j Hj => proj1 (proj2 (proj2 (W j Hj)))) (fun j Hj => proj1 (proj2 (proj2 (proj2 (proj2 (W j Hj)))))) (fun j Hj => proj2 (proj2 (proj2 (proj2 (proj2 (W j Hj))))))).
  assert (NA := ns_le_a M c c' recipe ns stop HM Hl LC' Hpos HSc HVC HO (fun j => fst (fst (F j))) (fun j => fst (snd (F j)))
    (fun j Hj => proj1 (W j Hj)) (fun j Hj => proj1 (proj2 (proj2 (proj2 (proj2 (W j Hj))))))).
  assert (SP := same_prices M c c' recipe ns stop HM Hl LC' Hpos HSc HVC HVC' HO (fun j => fst (fst (F j))) (fun j => snd (fst (F j)))
    (fun j => fst (snd (F j))) (fun j => snd (snd (F j))) (fun j Hj => proj1 (W j Hj)) (fun j Hj => proj1 (proj2 (W j Hj)))
    (fun j Hj => proj1 (proj2 (proj2 (W j Hj)))) (fun j Hj => proj1 (proj2 (proj2 (proj2 (proj2 (W j Hj)))))) (fun j Hj => proj2 (proj2 (proj2 (proj2 (proj2 (W j Hj))))))).
  assert (E : ns' = ns /\ stop' = stop).
  { apply (SW rounds' (sizes0 c')); [unfold sizes0; rewrite map_length; assumption| |assumption].
    intros j Hj. rewrite sizes0_nth. split; [|lia]. specialize (NA j Hj). destruct (W j Hj) as (_ & W2 & W3 & _). rewrite W2, app_length, <- (Forall2_length _ _ _ _ _ W3). lia. }
  destruct E as [-> ->].
  assert (SA : Forall2 same_agents (tcats t) (tcats t')).
  { rewrite Et, Et'. cbn [tcats]. unfold shrink. rewrite LC'. apply Forall2_seq. intros j Hj. split; cbn [cname cvalues].
    - unfold c, c'. rewrite !clone_cname. apply (proj2 HD j ltac:(lia)).
    - destruct (W j Hj) as (W1 & W2 & W3 & _). rewrite W1, W2. apply firstn_Qeq; [assumption|]. apply (NA j Hj). }
  split; [|split; [assumption|]].
  - rewrite EP, EP'. apply Proof_Reorder2.qeq_from_nth; [rewrite !final_length; congruence|]. intros j Hj. rewrite final_length in Hj.
    symmetry. apply (SP j Hj).
  - assert (X : forall cc cc' n, Forall2 same_agents cc cc' -> supports cc recipe n <-> supports cc' recipe n).
    { intros cc cc' n HG. assert (E : forall i c1 c2, nth_error cc i = Some c1 -> nth_error cc' i = Some c2 -> csize c2 = csize c1).
      { intros i c1 c2 E1 E2. assert (E := same_lengths _ _ HG). assert (D := map_nth_error csize i cc E1). rewrite <- E in D.
        rewrite (map_nth_error csize i cc' E2) in D. congruence. }
      assert (LG := Forall2_length _ _ _ _ _ HG). split; intros S1 i c1 r E1 E2.
      - destruct (nth_error cc i) as [c2|] eqn:E3; [|apply nth_error_None in E3; assert (nth_error cc' i <> None) by congruence; apply nth_error_Some in H0; lia].
        rewrite (E i c2 c1 E3 E1). apply (S1 i c2 r E3 E2).
      - destruct (nth_error cc' i) as [c2|] eqn:E3; [|apply nth_error_None in E3; assert (nth_error cc i <> None) by congruence; apply nth_error_Some in H0; lia].
        rewrite <- (E i c1 c2 E1 E3). apply (S1 i c2 r E3 E2). }
    assert (T1 : tcats t = shrink c ns) by (rewrite Et; reflexivity). assert (T2 : tcats t' = shrink c' ns) by (rewrite Et'; reflexivity).
    rewrite T1, T2 in SA. assert (Y1 := SM' _ (proj1 (X _ _ _ SA) SU)). assert (Y2 := SM _ (proj2 (X _ _ _ SA) SU')). lia.
Qed.
