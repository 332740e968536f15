(** * McAfee's trade reduction with the price heuristic: coalitions in two-sided markets (C80) *)
From Coq Require Import String List Arith Lia QArith Lqa Qabs Permutation Sorted Bool.
From Verif Require Import Base Model_Agents Model_Trade Model_Prices Model_Market Model_TradeReduction Model_McAfee
  Spec_Market Spec_Trade Spec_Ascending Spec_TradeReduction Spec_McAfee Spec_Group
  Proof_McAfee Proof_McAfee2 Proof_McAfee3 Proof_McAfee4 Proof_Gsp1 Proof_Gsp5.
From Verif Require Proof_Gsp2.
Import ListNotations.
Open Scope Q_scope.

Lemma two_candidate : forall M m k b, length m = 2%nat -> (b < 2)%nat ->
  candidate_price M m k * 2 == Qabs (nth k (srt m b) (- M)) + Qabs (nth k (srt m (1 - b)) (- M)).
Proof.
  intros M m k b L Hb. destruct m as [|c0 [|c1 [|c2 m]]]; simpl in L; try lia.
  unfold candidate_price, srt, ranked. cbn [map nth length Qsum fold_right].
  assert (E : Qn 2 == 2) by reflexivity. rewrite E.
  destruct b as [|[|b]]; [| |lia]; cbn [Nat.sub nth]; field.
Qed.

Lemma two_rowsum : forall m t b, length m = 2%nat -> (b < 2)%nat ->
  rowsum m t == nth t (srt m b) 0 + nth t (srt m (1 - b)) 0.
Proof.
  intros m t b L Hb. unfold rowsum. rewrite L. cbn [seq map Qsum fold_right].
  destruct b as [|[|b]]; [| |lia]; cbn [Nat.sub]; ring.
Qed.

Lemma ranking_onto : forall l rank s, ranking l rank -> (s < length l)%nat -> exists j, (j < length l)%nat /\ rank j = s.
Proof.
  intros l rank s (H1 & H2 & _) Hs. assert (P := map_seq_perm (length l) rank H1 H2).
  assert (I : In s (map rank (seq 0 (length l)))) by (eapply Permutation_in; [apply Permutation_sym, P|apply in_seq; lia]).
  apply in_map_iff in I. destruct I as [j [E I]]. apply in_seq in I. exists j. split; [lia|assumption].
Qed.

Section Heuristic.
  Variables (M : Q) (m m' : market) (t t' : trade) (rank rank' : nat -> nat -> nat) (k d k' d' : nat) (P P' : nat -> Q) (b : nat).
  Hypothesis HS : same_agents m m'.
  Hypothesis HR : rankings m rank.
  Hypothesis HR' : rankings m' rank'.
  Hypothesis O : outcome M m true t k d P.
  Hypothesis O' : outcome M m' true t' k' d' P'.
  Hypothesis ALL : forall i j, misreports m m' i j ->
    utility t i (rank i j) (agent_value m i j) < utility t' i (rank' i j) (agent_value m i j).
  Hypothesis L2 : length m = 2%nat.
  Hypothesis Hb : (b < 2)%nat.
  Hypothesis HM : 0 < M.
  Hypothesis buyers : forall x, In x (nth b (map cvalues m) []) -> 0 <= x /\ 2 * x < M.
  Hypothesis sellers : forall x, In x (nth (1 - b) (map cvalues m) []) -> x < 0.
  Hypothesis Hk : (0 < k')%nat.
  Hypothesis Hd : d' = k'.

  Let s := (1 - b)%nat.
  Let c' := candidate_price M m' k'.

  Lemma L2' : length m' = 2%nat. Proof. rewrite <- (Lm _ _ HS). assumption. Qed.
  Lemma Hbm : (b < length m)%nat. Proof. lia. Qed.
  Lemma Hsm : (s < length m)%nat. Proof. unfold s. lia. Qed.

  Lemma srt_in : forall mm i n, (n < length (srt mm i))%nat -> In (nth n (srt mm i) 0) (nth i (map cvalues mm) []).
  Proof.
    intros mm i n H. eapply Permutation_in; [apply sort_desc_perm|]. apply nth_In. assumption.
  Qed.

  Lemma c_nonneg : 0 <= c'. Proof. unfold c'. rewrite <- candidate_spec. apply candidate_nonneg. Qed.

  Lemma len_k : forall i, (i < length m)%nat -> (k' <= length (srt m i))%nat.
  Proof. intros i Hi. rewrite (Ls _ _ HS). apply (o_len _ _ _ _ _ _ _ O'). rewrite <- (Lm _ _ HS). assumption. Qed.

  Lemma at_least_P : forall i, (i < length m)%nat -> P' i <= nth (k' - 1) (srt m i) 0.
  Proof. intros i Hi. apply (true_at_least _ _ _ _ _ _ _ _ _ _ _ _ _ _ HS HR HR' O O' ALL); assumption. Qed.

  Lemma seller_neg : nth (k' - 1) (srt m' s) 0 < 0.
  Proof.
    destruct (Qlt_le_dec (nth (k' - 1) (srt m' s) 0) 0) as [X|X]; [assumption|exfalso].
    destruct (o_acc _ _ _ _ _ _ _ O' Hk Hd) as [_ A]. specialize (A s ltac:(rewrite <- (Lm _ _ HS); apply Hsm)). cbv zeta in A.
    destruct (Qlt_bool_reflect (nth (k' - 1) (srt m' s) 0) 0) as [Y|Y]; [lra|].
    assert (B := at_least_P s Hsm). assert (C := c_nonneg). fold c' in A.
    assert (L := len_k s Hsm). assert (D := sellers _ (srt_in m s (k' - 1) ltac:(lia))). lra.
  Qed.

  Lemma buyer_pos : 0 < nth (k' - 1) (srt m' b) 0.
  Proof.
    assert (A := o_row _ _ _ _ _ _ _ O' (k' - 1)%nat ltac:(lia)). rewrite (two_rowsum m' _ b L2' Hb) in A. assert (B := seller_neg).
    fold s in A. lra.
  Qed.

  Lemma price_b : P' b == c'.
  Proof.
    destruct (o_acc _ _ _ _ _ _ _ O' Hk Hd) as [_ A]. specialize (A b ltac:(rewrite <- (Lm _ _ HS); apply Hbm)). cbv zeta in A.
    destruct (Qlt_bool_reflect (nth (k' - 1) (srt m' b) 0) 0) as [Y|Y]; [assert (B := buyer_pos); lra|exact A].
  Qed.

  Lemma price_s : P' s == - c'.
  Proof.
    destruct (o_acc _ _ _ _ _ _ _ O' Hk Hd) as [_ A]. specialize (A s ltac:(rewrite <- (Lm _ _ HS); apply Hsm)). cbv zeta in A.
    destruct (Qlt_bool_reflect (nth (k' - 1) (srt m' s) 0) 0) as [Y|Y]; [exact A|assert (B := seller_neg); lra].
  Qed.

  Lemma c_small : c' * 2 < M.
  Proof.
    assert (A := at_least_P b Hbm). assert (B := price_b). assert (L := len_k b Hbm).
    destruct (buyers _ (srt_in m b (k' - 1) ltac:(lia))). lra.
  Qed.

  Lemma not_exhausted : forall i, (i < length m)%nat -> (k' < length (srt m i))%nat.
  Proof.
    assert (A := c_small). unfold c' in A. rewrite (two_candidate M m' k' b L2' Hb) in A.
    assert (N1 := Qabs_nonneg (nth k' (srt m' b) (- M))). assert (N2 := Qabs_nonneg (nth k' (srt m' (1 - b)) (- M))).
    assert (AM : Qabs (- M) == M) by (rewrite Qabs_opp; apply Qabs_pos; lra).
    assert (G : forall i, i = b \/ i = (1 - b)%nat -> (k' < length (srt m i))%nat).
    { intros i Hi. destruct (le_lt_dec (length (srt m i)) k') as [X|X]; [exfalso|assumption].
      rewrite (Ls _ _ HS) in X. destruct Hi as [->| ->].
      - rewrite (nth_overflow (srt m' b)) in A by assumption. rewrite AM in A. lra.
      - rewrite (nth_overflow (srt m' (1 - b))) in A by assumption. rewrite AM in A. lra. }
    intros i Hi. apply G. lia.
  Qed.

  (** The agents at place [k'] of the lying run are truthful. *)
  Lemma next_truthful : forall i, (i < length m)%nat -> exists x, In x (nth i (map cvalues m) []) /\ nth k' (srt m' i) 0 == x.
  Proof.
    intros i Hi. assert (N := not_exhausted i Hi).
    destruct (ranking_onto (nth i (map cvalues m') []) (rank' i) k') as [j [Hj E]].
    { apply HR'. rewrite <- (Lm _ _ HS). assumption. } { rewrite <- (LV _ _ HS), <- Ls1. assumption. }
    assert (Ha : is_agent m i j) by (split; [assumption|rewrite (LV _ _ HS); assumption]).
    assert (X := outside _ _ _ _ _ _ _ _ _ _ _ _ _ _ HS HR HR' O O' ALL i j Ha ltac:(lia)). rewrite E in X.
    exists (agent_value m i j). split; [|exact X]. unfold agent_value. apply nth_In. apply Ha.
  Qed.

  Lemma next_between : nth k' (srt m' b) 0 < c' /\ nth k' (srt m' s) 0 < - c'.
  Proof.
    assert (Nb := not_exhausted b Hbm). assert (Ns := not_exhausted s Hsm). rewrite (Ls _ _ HS) in Nb, Ns.
    destruct (next_truthful b Hbm) as [xb [Ib Eb]]. destruct (next_truthful s Hsm) as [xs [Is Es]].
    apply buyers in Ib. apply sellers in Is.
    assert (A : c' * 2 == nth k' (srt m' b) 0 - nth k' (srt m' s) 0).
    { unfold c'. rewrite (two_candidate M m' k' b L2' Hb). fold s.
      rewrite (nth_indep (srt m' b) (- M) 0) by assumption. rewrite (nth_indep (srt m' s) (- M) 0) by assumption.
      rewrite (proj1 (abs_signs _)) by lra. rewrite (proj2 (abs_signs (nth k' (srt m' s) 0))) by lra. ring. }
    assert (B : rowsum m' k' < 0).
    { apply (o_end _ _ _ _ _ _ _ O'). intros i Hi. rewrite <- (Ls _ _ HS). apply not_exhausted. rewrite (Lm _ _ HS). assumption. }
    rewrite (two_rowsum m' _ b L2' Hb) in B. fold s in B. split; lra.
  Qed.

  Lemma next_below : forall i, (i < length m)%nat -> nth k' (srt m' i) 0 < P' i.
  Proof.
    intros i Hi. destruct next_between as [A B]. assert (pb := price_b). assert (ps := price_s).
    assert (E : i = b \/ i = s) by (unfold s; lia). destruct E as [->| ->]; lra.
  Qed.

  Lemma next_same : forall i, (i < length m)%nat -> nth k' (srt m i) 0 == nth k' (srt m' i) 0.
  Proof.
    intros i Hi. assert (N := not_exhausted i Hi).
    assert (X := true_at_most _ _ _ _ _ _ _ _ _ _ _ _ _ _ HS HR HR' O O' ALL i k' Hi ltac:(lia)).
    destruct (pigeon (nth i (map cvalues m') []) (nth i (map cvalues m) []) (rank' i) (rank i) (S k')) as [j [Hj [J1 J2]]].
    { apply HR'. rewrite <- (Lm _ _ HS). assumption. } { apply HR. assumption. } { symmetry. apply (LV _ _ HS). } { rewrite <- (LV _ _ HS), <- Ls1. lia. }
    cbn [Nat.sub] in J1, J2. rewrite Nat.sub_0_r in J1, J2.
    assert (Ha : is_agent m i j) by (split; [assumption|rewrite (LV _ _ HS); assumption]).
    destruct (rk _ _ HR i j Ha) as [E L].
    assert (D := desc_nth (srt m i) 0 k' (rank i j) (srt_desc m i) ltac:(lia) ltac:(lia)).
    destruct (Nat.eq_dec (rank' i j) k') as [F|F].
    - assert (Y := outside _ _ _ _ _ _ _ _ _ _ _ _ _ _ HS HR HR' O O' ALL i j Ha ltac:(lia)). rewrite F in Y. lra.
    - assert (Y := inside _ _ _ _ _ _ _ _ _ _ _ _ _ _ HS HR HR' O O' ALL i j Ha ltac:(lia)). assert (Z := next_below i Hi). lra.
  Qed.

  Lemma same_deals : k = k'.
  Proof.
    assert (A : (k' <= k)%nat).
    { apply (more_deals _ _ _ _ _ _ _ _ _ _ _ _ HS O O'); [assumption|].
      rewrite (two_rowsum m _ b L2 Hb). fold s. assert (X := at_least_P b Hbm). assert (Y := at_least_P s Hsm).
      assert (pb := price_b). assert (ps := price_s). lra. }
    destruct (Nat.eq_dec k k') as [E|E]; [assumption|exfalso].
    assert (B := o_row _ _ _ _ _ _ _ O k' ltac:(lia)). rewrite (two_rowsum m _ b L2 Hb) in B. fold s in B.
    rewrite (next_same b Hbm), (next_same s Hsm) in B. destruct next_between. lra.
  Qed.

  Lemma same_candidate : candidate_price M m k == c'.
  Proof.
    assert (A := two_candidate M m k b L2 Hb). rewrite same_deals in A |- *.
    assert (A' := two_candidate M m' k' b L2' Hb). fold s in A, A'.
    assert (Nb := not_exhausted b Hbm). assert (Ns := not_exhausted s Hsm).
    rewrite (nth_indep (srt m b) (- M) 0), (nth_indep (srt m s) (- M) 0) in A by assumption. rewrite (Ls _ _ HS) in Nb, Ns.
    rewrite (nth_indep (srt m' b) (- M) 0), (nth_indep (srt m' s) (- M) 0) in A' by assumption.
    rewrite (next_same b Hbm), (next_same s Hsm) in A. unfold c'. lra.
  Qed.

  Lemma true_signs : c' <= nth (k - 1) (srt m b) 0 /\ - c' <= nth (k - 1) (srt m s) 0 /\ nth (k - 1) (srt m s) 0 < 0.
  Proof.
    rewrite same_deals. assert (X := at_least_P b Hbm). assert (Y := at_least_P s Hsm). assert (pb := price_b). assert (ps := price_s).
    assert (L := len_k s Hsm). assert (D := sellers _ (srt_in m s (k' - 1) ltac:(lia))). split; [lra|]. split; [lra|]. exact D.
  Qed.

  Lemma also_accepted : d = k.
  Proof.
    apply (o_acc' _ _ _ _ _ _ _ O); [rewrite same_deals; assumption|reflexivity|]. intros i Hi. cbv zeta. rewrite same_candidate.
    destruct true_signs as [A [B C]]. assert (N := c_nonneg). assert (E : i = b \/ i = s) by (unfold s; lia).
    destruct E as [->| ->]; split; lra.
  Qed.

  Lemma same_prices : forall i, (i < length m)%nat -> P i == P' i.
  Proof.
    intros i Hi. destruct (o_acc _ _ _ _ _ _ _ O ltac:(rewrite same_deals; assumption) also_accepted) as [_ A].
    specialize (A i Hi). cbv zeta in A. assert (C := same_candidate). destruct true_signs as [B1 [B2 B3]]. assert (N := c_nonneg).
    assert (pb := price_b). assert (ps := price_s). assert (E : i = b \/ i = s) by (unfold s; lia). destruct E as [->| ->].
    - destruct (Qlt_bool_reflect (nth (k - 1) (srt m b) 0) 0); lra.
    - destruct (Qlt_bool_reflect (nth (k - 1) (srt m s) 0) 0); lra.
  Qed.

  Lemma accepted_case : forall i j, misreports m m' i j -> False.
  Proof.
    intros i j Hm. assert (Ha : is_agent m i j) by apply Hm. assert (Hi : (i < length m)%nat) by apply Ha.
    assert (Hi' : (i < length m')%nat) by (rewrite <- (Lm _ _ HS); assumption).
    destruct (liars _ _ _ _ _ _ _ _ _ _ _ _ _ _ HS HR O O' ALL i j Hm) as [A B]. assert (X := ALL i j Hm).
    rewrite (o_util _ _ _ _ _ _ _ O i _ _ Hi), (o_util _ _ _ _ _ _ _ O' i _ _ Hi') in X.
    destruct (rk _ _ HR i j Ha) as [E L].
    assert (R : (rank i j < k')%nat).
    { destruct (lt_dec (rank i j) k') as [Y|Y]; [assumption|exfalso].
      assert (D := desc_nth (srt m i) 0 k' (rank i j) (srt_desc m i) ltac:(lia) ltac:(lia)).
      assert (F := next_same i Hi). assert (G := next_below i Hi). lra. }
    assert (S := same_prices i Hi). rewrite also_accepted, same_deals in X.
    destruct (Nat.ltb_spec (rank i j) k'); [|lia]. destruct (Nat.ltb_spec (rank' i j) d'); [|lia]. lra.
  Qed.
End Heuristic.

Theorem mcafee_group_two : forall M cap m m' recipe h t t' rank rank' b, 0 < M -> length m = 2%nat -> (b < 2)%nat ->
  (forall x, In x (nth b (map cvalues m) []) -> 0 <= x /\ 2 * x < M) ->
  (forall x, In x (nth (1 - b) (map cvalues m) []) -> x < 0) ->
  same_agents m m' -> rankings m rank -> rankings m' rank' ->
  cap_suffices cap m recipe -> cap_suffices cap m' recipe ->
  mcafee_M M cap m recipe h = Ok t -> mcafee_M M cap m' recipe h = Ok t' ->
  (exists i j, misreports m m' i j) ->
  exists i j, misreports m m' i j
    /\ utility t' i (rank' i j) (agent_value m i j) <= utility t i (rank i j) (agent_value m i j).
Proof.
  intros M cap m m' recipe h t t' rank rank' b HM L2 Hb Bu Se HS HR HR' C C' H H' [i [j Hm]].
  destruct h; [|eapply mcafee_group_plain; eauto].
  destruct (run_outcome _ _ _ _ _ _ C H) as [k [d [P O]]]. destruct (run_outcome _ _ _ _ _ _ C' H') as [k' [d' [P' O']]].
  destruct (search m m' (fun i j => utility t i (rank i j) (agent_value m i j)) (fun i j => utility t' i (rank' i j) (agent_value m i j))) as [X|X];
    [exact X|exfalso].
  assert (L := liars _ _ _ _ _ _ _ _ _ _ _ _ _ _ HS HR O O' X i j Hm).
  assert (A := o_d _ _ _ _ _ _ _ O').
  destruct (Nat.eq_dec d' k') as [E|E].
  - apply (accepted_case M m m' t t' rank rank' k d k' d' P P' b HS HR HR' O O' X L2 Hb HM Bu Se ltac:(lia) E i j Hm).
  - apply (rejected_case _ _ _ _ _ _ _ _ _ _ _ _ _ _ HS HR HR' O O' X) with (i := i) (j := j); [lia|assumption].
Qed.
