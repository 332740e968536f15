(** * Two neighbouring categories change places in trade reduction (C109) *)

From Coq Require Import String List Arith Lia QArith Lqa Qabs Permutation Sorted Bool.
From Verif Require Import Base Model_Agents Model_Prices Model_Trade Model_Market Model_Ascending Model_TradeReduction Model_McAfee
  Spec_Market Spec_Trade Spec_Ascending Spec_TradeReduction Spec_McAfee Spec_Demos Spec_Reorder Proof_Market Proof_Trade Proof_Prices Proof_Ascending
  Proof_Ascending2 Proof_Ascending3 Proof_Ascending4 Proof_Deals Proof_Statics
  Proof_TR Proof_TR2 Proof_TR3 Proof_TR4 Proof_TR5 Proof_TR6 Proof_TR8 Proof_McAfee Proof_McAfee2 Proof_Many Proof_Reorder Proof_Reorder2.
Import ListNotations.
Open Scope Q_scope.

(** ** The order that exchanges the neighbours *)

Definition swap_order (q n : nat) : list nat := seq 0 q ++ S q :: q :: seq (S (S q)) n.

Lemma swap_is_order : forall q n, is_order (q + S (S n)) (swap_order q n).
Proof.
  intros q n. unfold is_order, swap_order. rewrite seq_app. apply Permutation_app_head. cbn [seq]. simpl Nat.add. apply perm_swap.
Qed.

Lemma swap_reorder : forall A (d : A) pre X Y post,
  reorder d (swap_order (length pre) (length post)) (pre ++ X :: Y :: post) = pre ++ Y :: X :: post.
Proof.
  intros A d pre X Y post. unfold reorder, swap_order. rewrite map_app. cbn [map]. f_equal; [|f_equal; [|f_equal]].
  - transitivity (map (fun x => x) pre); [|apply map_id]. rewrite (map_seq_nth A A d (fun x => x) pre). apply map_ext_in. intros i Hi. apply in_seq in Hi.
    apply app_nth1. lia.
  - rewrite app_nth2 by lia. replace (S (length pre) - length pre)%nat with 1%nat by lia. reflexivity.
  - rewrite app_nth2 by lia. rewrite Nat.sub_diag. reflexivity.
  - transitivity (map (fun x => x) post); [|apply map_id]. rewrite (map_seq_nth A A d (fun x => x) post). rewrite map_seq_from. apply map_ext. intros i.
    rewrite app_nth2 by lia. replace (S (S (length pre)) + i - length pre)%nat with (S (S i)) by lia. reflexivity.
Qed.

Lemma ones_reorder : forall o recipe, is_order (length recipe) o -> all_ones recipe -> reorder 0%nat o recipe = recipe.
Proof.
  intros o recipe Ho H1. assert (Lo := order_length _ _ Ho). apply list_nat_ext; [rewrite reorder_length; assumption|]. intros c.
  destruct (lt_dec c (length recipe)) as [L|L].
  - rewrite reorder_nth by lia. rewrite !(all_ones_nth recipe _ H1); [reflexivity|assumption|]. apply order_lt; assumption.
  - rewrite !nth_overflow by (rewrite ?reorder_length; lia). reflexivity.
Qed.

(** ** The totals *)

Lemma total_low : forall M pre rest j i, (i <= length pre)%nat ->
  total_after M (pre ++ rest) j i == total_after M pre j i + Qsum (map (fun c => ranked (- M) c (S j)) rest).
Proof.
  intros M pre rest j i Hi. unfold total_after. rewrite firstn_app, skipn_app. replace (i - length pre)%nat with 0%nat by lia.
  cbn [firstn skipn]. rewrite app_nil_r, map_app, Qsum_app. ring.
Qed.

Lemma total_high : forall M pre rest j e,
  total_after M (pre ++ rest) j (length pre + e) == Qsum (map (fun c => ranked (- M) c j) pre) + total_after M rest j e.
Proof.
  intros M pre rest j e. unfold total_after. rewrite firstn_app, skipn_app.
  replace (length pre + e - length pre)%nat with e by lia. rewrite firstn_all2, (skipn_all2 pre) by lia.
  rewrite map_app, Qsum_app. cbn [app]. ring.
Qed.

Lemma total_swap : forall M pre X Y post j i, i <> S (length pre) ->
  total_after M (pre ++ Y :: X :: post) j i == total_after M (pre ++ X :: Y :: post) j i.
Proof.
  intros M pre X Y post j i H. destruct (le_lt_dec i (length pre)) as [L|L].
  - rewrite !total_low by assumption. cbn [map Qsum fold_right]. ring.
  - replace i with (length pre + S (S (i - length pre - 2)))%nat by lia. rewrite !total_high. unfold total_after.
    cbn [firstn skipn map Qsum fold_right]. ring.
Qed.

(** ** The pivot *)

Definition is_pivot (M : Q) (m : list category) (z : bool) (j i : nat) : Prop :=
  worth_doing z (total_after M m j (S i)) /\ forall i', (1 <= i' <= i)%nat -> ~ worth_doing z (total_after M m j i').

Lemma pivot_least : forall M m z j i e, is_pivot M m z j i -> worth_doing z (total_after M m j (S e)) -> (i <= e)%nat.
Proof. intros M m z j i e [_ H] W. destruct (le_lt_dec i e) as [L|L]; [assumption|]. exfalso. apply (H (S e)); [lia|assumption]. Qed.

Lemma worth_proper : forall z a b, a == b -> worth_doing z a -> worth_doing z b.
Proof. intros [|] a b H; unfold worth_doing; rewrite H; auto. Qed.

Lemma ranked_step : forall M c j, (forall v, In v (cvalues c) -> - M <= v) -> ranked (- M) c (S j) <= ranked (- M) c j.
Proof.
  intros M c j H. unfold ranked. destruct (lt_dec (S j) (length (sort_desc (cvalues c)))) as [L|L].
  - apply desc_nth; [apply sort_desc_desc|lia|assumption].
  - rewrite (nth_overflow (sort_desc (cvalues c)) (- M) (n := S j)) by lia.
    destruct (nth_in_or_default j (sort_desc (cvalues c)) (- M)) as [X|X]; [|rewrite X; lra].
    apply H. eapply Permutation_in; [apply sort_desc_perm|exact X].
Qed.

Lemma at_q : forall M pre X Y post j,
  total_after M (pre ++ X :: Y :: post) j (length pre)
    == Qsum (map (fun c => ranked (- M) c j) pre) + (ranked (- M) X (S j) + (ranked (- M) Y (S j) + Qsum (map (fun c => ranked (- M) c (S j)) post)))
  /\ total_after M (pre ++ X :: Y :: post) j (S (length pre))
    == Qsum (map (fun c => ranked (- M) c j) pre) + (ranked (- M) X j + (ranked (- M) Y (S j) + Qsum (map (fun c => ranked (- M) c (S j)) post)))
  /\ total_after M (pre ++ X :: Y :: post) j (S (S (length pre)))
    == Qsum (map (fun c => ranked (- M) c j) pre) + (ranked (- M) X j + (ranked (- M) Y j + Qsum (map (fun c => ranked (- M) c (S j)) post))).
Proof.
  intros M pre X Y post j.
  assert (E0 : length pre = (length pre + 0)%nat) by lia. assert (E1 : S (length pre) = (length pre + 1)%nat) by lia.
  assert (E2 : S (S (length pre)) = (length pre + 2)%nat) by lia.
  split; [|split]; [rewrite E0 at 1|rewrite E1 at 1|rewrite E2 at 1]; rewrite total_high; unfold total_after;
    cbn [firstn skipn map Qsum fold_right]; unfold Qsum; ring.
Qed.

Lemma worth_le : forall z a b, a <= b -> worth_doing z a -> worth_doing z b.
Proof. intros [|] a b H; unfold worth_doing; intros; lra. Qed.

Lemma pivot_swap : forall M pre X Y post z j i i', values_at_least (- M) (pre ++ X :: Y :: post) ->
  is_pivot M (pre ++ X :: Y :: post) z j i -> is_pivot M (pre ++ Y :: X :: post) z j i' ->
  (i = i' /\ i <> length pre /\ i <> S (length pre))
  \/ ((i = length pre \/ i = S (length pre)) /\ (i' = length pre \/ i' = S (length pre))).
Proof.
  assert (A : forall M pre X Y post z j i i', values_at_least (- M) (pre ++ X :: Y :: post) ->
    is_pivot M (pre ++ X :: Y :: post) z j i -> is_pivot M (pre ++ Y :: X :: post) z j i' ->
    (i <> length pre -> (i' <= i)%nat) /\ (i = length pre -> (i' <= S i)%nat)).
  { intros M pre X Y post z j i i' Hv H H'. split; intros Hne; apply (pivot_least _ _ _ _ _ _ H').
    - apply (worth_proper z (total_after M (pre ++ X :: Y :: post) j (S i))); [symmetry; apply total_swap; lia|]. apply H.
    - apply (worth_proper z (total_after M (pre ++ X :: Y :: post) j (S (S i)))); [symmetry; apply total_swap; lia|].
      eapply worth_le; [|apply (proj1 H)]. subst i. destruct (at_q M pre X Y post j) as (_ & -> & ->).
      assert (R : ranked (- M) Y (S j) <= ranked (- M) Y j); [|lra].
      apply ranked_step. intros v Hv'. apply (Hv Y); [|assumption]. apply in_or_app. right. right. left. reflexivity. }
  intros M pre X Y post z j i i' Hv H H'.
  assert (Hv' : values_at_least (- M) (pre ++ Y :: X :: post)).
  { intros c v Hc. apply Hv. apply in_app_or in Hc. apply in_or_app. destruct Hc as [Hc|[Hc|[Hc|Hc]]]; [left; exact Hc| | |];
      right; [right; left; exact Hc|left; exact Hc|right; right; exact Hc]. }
  assert (A1 := A _ _ _ _ _ _ _ _ _ Hv H H'). assert (A2 := A _ _ _ _ _ _ _ _ _ Hv' H' H). clear A. lia.
Qed.

(** ** Nothing is worth doing beyond the last deal *)

Lemma total_zero : forall M cap m recipe z j, 0 < M -> all_ones recipe -> length recipe = length m -> m <> [] -> cap_suffices cap m recipe ->
  values_small M recipe m -> stops_at cap (S j) (clone_market m) recipe z -> total_after M m j 0 <= 0.
Proof.
  intros M cap m recipe z j HM H1 Hl Hne Hcap Hsm Hz. set (m' := clone_market m) in *.
  assert (Hs' : sorted_market m') by apply clone_sorted.
  assert (Hl' : length recipe = length m') by (unfold m'; rewrite clone_length; assumption).
  assert (Hcap' : cap_suffices cap m' recipe) by (apply cap_clone; assumption).
  rewrite <- (psum_total M m recipe j 0 H1 Hl) by lia. fold m'.
  assert (FN : forall c, (c < length m)%nat -> nth c (front j 0 (length m)) 0%nat = S j).
  { intros c Hc. rewrite front_nth by assumption. reflexivity. }
  assert (Hp : exists q, (q < length recipe)%nat /\ (0 < nth q recipe 0)%nat).
  { exists 0%nat. assert (0 < length recipe)%nat by (destruct m; [congruence|simpl in Hl; lia]). split; [assumption|].
    rewrite (all_ones_nth recipe 0 H1) by assumption. lia. }
  destruct (Forall_Exists_dec (fun l => (S j < length (vals m' l))%nat) (fun l => lt_dec _ _) (seq 0 (length m))) as [N|N].
  - rewrite Forall_forall in N.
    assert (He : enough (S (S j)) m' recipe).
    { apply enough_nth; [assumption|]. intros l Ll. rewrite (all_ones_nth recipe l H1) by lia.
      assert (X : (S j < length (vals m' l))%nat) by (apply N; apply in_seq; lia). lia. }
    assert (Q := stop_reason cap (S j) m' recipe z Hcap' Hz He). apply not_acceptable in Q.
    eapply Qle_trans; [|exact Q]. apply psum_le_gain; try assumption.
    + apply values_at_least_clone. apply Hsm.
    + intros l Ll _. rewrite (all_ones_nth recipe l H1) by lia. rewrite FN by lia. lia.
  - apply Exists_exists in N. destruct N as (l & Ll & Hs). apply in_seq in Ll. apply Qlt_le_weak.
    apply (untouched_negative M m' recipe Hl') with (l := l).
    + apply small_clone_market. assumption.
    + lia.
    + rewrite (all_ones_nth recipe l H1) by lia. lia.
    + rewrite FN by lia. lia.
Qed.

(** ** The theorem *)

Lemma split_two : forall (P : list Q) (pre post : list category) X Y, length P = length (pre ++ X :: Y :: post) ->
  exists P1 x y P2, P = P1 ++ x :: y :: P2 /\ length P1 = length pre /\ length P2 = length post.
Proof.
  intros P pre post X Y L. rewrite app_length in L. simpl in L. exists (firstn (length pre) P).
  assert (E := firstn_skipn (length pre) P).
  assert (L1 : length (firstn (length pre) P) = length pre) by (rewrite firstn_length; lia).
  destruct (skipn (length pre) P) as [|x [|y P2]] eqn:S2.
  - apply (f_equal (@length Q)) in E. rewrite app_length in E. simpl in E. lia.
  - apply (f_equal (@length Q)) in E. rewrite app_length in E. simpl in E. lia.
  - exists x, y, P2. split; [congruence|]. split; [assumption|].
    apply (f_equal (@length Q)) in E. rewrite app_length in E. simpl in E. lia.
Qed.

Lemma nth_two : forall A (d : A) P1 x y P2, nth (length P1) (P1 ++ x :: y :: P2) d = x /\ nth (S (length P1)) (P1 ++ x :: y :: P2) d = y
  /\ (forall c, (c < length P1)%nat -> nth c (P1 ++ x :: y :: P2) d = nth c P1 d)
  /\ (forall e, nth (S (S (length P1)) + e) (P1 ++ x :: y :: P2) d = nth e P2 d).
Proof.
  intros A d P1 x y P2. split; [rewrite app_nth2, Nat.sub_diag by lia; reflexivity|]. split.
  { rewrite app_nth2 by lia. replace (S (length P1) - length P1)%nat with 1%nat by lia. reflexivity. }
  split; [intros c Hc; apply app_nth1; assumption|]. intros e. rewrite app_nth2 by lia.
  replace (S (S (length P1)) + e - length P1)%nat with (S (S e)) by lia. reflexivity.
Qed.

Lemma qsum_proper_nth : forall A B, length A = length B -> (forall c, (c < length A)%nat -> nth c A 0 == nth c B 0) -> Qsum A == Qsum B.
Proof.
  induction A as [|a A IH]; intros [|b B] L H; simpl in L; try discriminate; [reflexivity|].
  cbn [Qsum fold_right]. fold (Qsum A). fold (Qsum B). rewrite (IH B); [|lia|intros c Hc; apply (H (S c)); simpl; lia].
  assert (E := H 0%nat ltac:(simpl; lia)). cbn [nth] in E. rewrite E. reflexivity.
Qed.

Lemma Qsum_one_off : forall A B i, length A = length B -> (forall c, c <> i -> nth c A 0 == nth c B 0) -> Qsum A == Qsum B ->
  nth i A 0 == nth i B 0.
Proof.
  induction A as [|a A IH]; intros [|b B] i L H T; simpl in L; try discriminate; [reflexivity|].
  cbn [Qsum fold_right] in T. fold (Qsum A) in T. fold (Qsum B) in T. destruct i as [|i].
  - cbn [nth]. assert (E : Qsum A == Qsum B); [|rewrite E in T; lra].
    apply qsum_proper_nth; [lia|]. intros c Hc. apply (H (S c)). discriminate.
  - cbn [nth]. assert (E : a == b) by (apply (H 0%nat); discriminate). apply IH; [lia| |rewrite E in T; lra].
    intros c Hc. apply (H (S c)). lia.
Qed.

(** The prices, seen from the pivot. *)
Definition priced (M : Q) (m : list category) (j i : nat) (P : list Q) : Prop :=
  length P = length m /\ Qsum P == 0
  /\ (forall c, (c < length m)%nat -> (c < i)%nat -> nth c P 0 == ranked (- M) (nth c m dcat) j)
  /\ (forall c, (c < length m)%nat -> (i < c)%nat -> nth c P 0 == ranked (- M) (nth c m dcat) (S j)).

Lemma nth_map_ranked : forall M j l c, (c < length l)%nat -> nth c (map (fun x => ranked (- M) x j) l) 0 = ranked (- M) (nth c l dcat) j.
Proof.
  intros M j l c H. rewrite (nth_indep _ 0 ((fun x => ranked (- M) x j) dcat)) by (rewrite map_length; assumption).
  rewrite (map_nth (fun x => ranked (- M) x j)). reflexivity.
Qed.

Lemma priced_mid : forall M pre X Y post j i P, (i = length pre \/ i = S (length pre)) -> priced M (pre ++ X :: Y :: post) j i P ->
  nth (length pre) P 0 + nth (S (length pre)) P 0
    == - (Qsum (map (fun c => ranked (- M) c j) pre) + Qsum (map (fun c => ranked (- M) c (S j)) post))
  /\ (i = length pre -> nth (S (length pre)) P 0 == ranked (- M) Y (S j))
  /\ (i = S (length pre) -> nth (length pre) P 0 == ranked (- M) X j)
  /\ (forall c, (c < length pre)%nat -> nth c P 0 == ranked (- M) (nth c pre dcat) j)
  /\ (forall e, (e < length post)%nat -> nth (S (S (length pre)) + e) P 0 == ranked (- M) (nth e post dcat) (S j)).
Proof.
  intros M pre X Y post j i P Hi (L & S0 & HL & HR).
  destruct (nth_two _ dcat pre X Y post) as (C1 & C2 & C3 & C4).
  assert (Lm : length (pre ++ X :: Y :: post) = S (S (length pre + length post))) by (rewrite app_length; simpl; lia).
  rewrite Lm in HL, HR.
  assert (A1 : forall c, (c < length pre)%nat -> nth c P 0 == ranked (- M) (nth c pre dcat) j).
  { intros c Hc. rewrite HL by lia. rewrite C3 by assumption. reflexivity. }
  assert (A2 : forall e, (e < length post)%nat -> nth (S (S (length pre)) + e) P 0 == ranked (- M) (nth e post dcat) (S j)).
  { intros e He. rewrite HR by lia. rewrite C4. reflexivity. }
  split; [|split; [|split; [|split; assumption]]].
  - destruct (split_two P pre post X Y L) as (P1 & x & y & P2 & -> & L1 & L2).
    destruct (nth_two _ 0 P1 x y P2) as (D1 & D2 & D3 & D4). rewrite L1 in D1, D2, D3, D4. rewrite D1, D2.
    rewrite Qsum_app in S0. cbn [Qsum fold_right] in S0. fold (Qsum P2) in S0.
    assert (E1 : Qsum P1 == Qsum (map (fun c => ranked (- M) c j) pre)).
    { apply qsum_proper_nth; [rewrite map_length; assumption|]. intros c Hc. rewrite nth_map_ranked by lia.
      rewrite <- A1 by lia. rewrite D3 by lia. reflexivity. }
    assert (E2 : Qsum P2 == Qsum (map (fun c => ranked (- M) c (S j)) post)).
    { apply qsum_proper_nth; [rewrite map_length; assumption|]. intros c Hc. rewrite nth_map_ranked by lia.
      rewrite <- A2 by lia. rewrite D4. reflexivity. }
    rewrite <- E1, <- E2. lra.
  - intros ->. rewrite HR by lia. rewrite C2. reflexivity.
  - intros ->. rewrite HL by lia. rewrite C1. reflexivity.
Qed.

Lemma price_swap : forall M pre X Y post z j i i' P P', values_at_least (- M) (pre ++ X :: Y :: post) ->
  total_after M (pre ++ X :: Y :: post) j 0 <= 0 -> (i < length (pre ++ X :: Y :: post))%nat ->
  is_pivot M (pre ++ X :: Y :: post) z j i -> is_pivot M (pre ++ Y :: X :: post) z j i' ->
  priced M (pre ++ X :: Y :: post) j i P -> priced M (pre ++ Y :: X :: post) j i' P' ->
  (forall c, c <> length pre -> c <> S (length pre) -> nth c P' 0 == nth c P 0)
  /\ nth (S (length pre)) P' 0 <= nth (length pre) P 0
  /\ nth (length pre) P' 0 + nth (S (length pre)) P' 0 == nth (length pre) P 0 + nth (S (length pre)) P 0.
Proof.
  intros M pre X Y post z j i i' P P' Hv H0 Hin Hp Hp' HP HP'.
  assert (Lm : length (pre ++ X :: Y :: post) = S (S (length pre + length post))) by (rewrite app_length; simpl; lia).
  assert (Lm' : length (pre ++ Y :: X :: post) = S (S (length pre + length post))) by (rewrite app_length; simpl; lia).
  destruct (pivot_swap _ _ _ _ _ _ _ _ _ Hv Hp Hp') as [(<- & N1 & N2)|(Hi & Hi')].
  - destruct HP as (L & S0 & HL & HR). destruct HP' as (L' & S0' & HL' & HR').
    rewrite Lm in HL, HR. rewrite Lm' in HL', HR'.
    destruct (nth_two _ dcat pre X Y post) as (C1 & C2 & C3 & C4). destruct (nth_two _ dcat pre Y X post) as (C1' & C2' & C3' & C4').
    destruct (split_two P pre post X Y L) as (P1 & x & y & P2 & -> & L1 & L2).
    destruct (nth_two _ 0 P1 x y P2) as (D1 & D2 & D3 & D4). rewrite L1 in D1, D2, D3, D4.
    destruct (nth_two _ 0 P1 y x P2) as (F1 & F2 & F3 & F4). rewrite L1 in F1, F2, F3, F4.
    assert (EQ : forall c, c <> i -> nth c P' 0 == nth c (P1 ++ y :: x :: P2) 0).
    { intros c Hc. destruct (le_lt_dec (S (S (length pre + length post))) c) as [Lc|Lc].
      { rewrite !nth_overflow; [reflexivity| |lia]. rewrite app_length. simpl. lia. }
      destruct (Nat.eq_dec c (length pre)) as [->|Nq].
      { rewrite F1, <- D2. destruct (lt_dec i (length pre)) as [B|B].
        - rewrite HR', HR by lia. rewrite C1', C2. reflexivity.
        - rewrite HL', HL by lia. rewrite C1', C2. reflexivity. }
      destruct (Nat.eq_dec c (S (length pre))) as [->|Nq'].
      { rewrite F2, <- D1. destruct (lt_dec i (length pre)) as [B|B].
        - rewrite HR', HR by lia. rewrite C1, C2'. reflexivity.
        - rewrite HL', HL by lia. rewrite C1, C2'. reflexivity. }
      assert (EC : nth c (pre ++ Y :: X :: post) dcat = nth c (pre ++ X :: Y :: post) dcat).
      { destruct (lt_dec c (length pre)) as [B|B]; [rewrite C3, C3' by assumption; reflexivity|].
        replace c with (S (S (length pre)) + (c - length pre - 2))%nat by lia. rewrite C4, C4'. reflexivity. }
      assert (EP : nth c (P1 ++ y :: x :: P2) 0 = nth c (P1 ++ x :: y :: P2) 0).
      { destruct (lt_dec c (length pre)) as [B|B]; [rewrite D3, F3 by assumption; reflexivity|].
        replace c with (S (S (length pre)) + (c - length pre - 2))%nat by lia. rewrite D4, F4. reflexivity. }
      rewrite EP. destruct (lt_dec c i) as [B|B]; [rewrite HL', HL by lia|rewrite HR', HR by lia]; rewrite EC; reflexivity. }
    assert (EI : nth i P' 0 == nth i (P1 ++ y :: x :: P2) 0).
    { apply Qsum_one_off; [rewrite L', Lm', app_length; simpl; lia|exact EQ|]. rewrite S0'. rewrite <- S0, !Qsum_app. cbn [Qsum fold_right]. ring. }
    assert (EA : forall c, nth c P' 0 == nth c (P1 ++ y :: x :: P2) 0).
    { intros c. destruct (Nat.eq_dec c i) as [->|Hc]; [exact EI|apply EQ; exact Hc]. }
    split; [|split].
    + intros c Nq Nq'. rewrite EA. destruct (lt_dec c (length pre)) as [B|B]; [rewrite D3, F3 by assumption; reflexivity|].
      replace c with (S (S (length pre)) + (c - length pre - 2))%nat by lia. rewrite D4, F4. reflexivity.
    + rewrite EA, F2, D1. lra.
    + rewrite !EA, F1, F2, D1, D2. ring.
  - destruct (priced_mid _ _ _ _ _ _ _ _ Hi HP) as (S1 & B1 & B2 & B3 & B4).
    destruct (priced_mid _ _ _ _ _ _ _ _ Hi' HP') as (S2 & B1' & B2' & B3' & B4').
    split; [|split].
    + intros c Nq Nq'. destruct (lt_dec c (length pre)) as [B|B]; [rewrite B3, B3' by assumption; reflexivity|].
      destruct (le_lt_dec (S (S (length pre + length post))) c) as [Lc|Lc].
      { destruct HP as (L & _). destruct HP' as (L' & _). rewrite !nth_overflow by lia. reflexivity. }
      replace c with (S (S (length pre)) + (c - length pre - 2))%nat by lia. rewrite B4, B4' by lia. reflexivity.
    + assert (XS : ranked (- M) X (S j) <= ranked (- M) X j).
      { apply ranked_step. intros v. apply (Hv X). apply in_or_app. right. left. reflexivity. }
      assert (YS : ranked (- M) Y (S j) <= ranked (- M) Y j).
      { apply ranked_step. intros v. apply (Hv Y). apply in_or_app. right. right. left. reflexivity. }
      destruct (at_q M pre X Y post j) as (T0 & T1 & T2). destruct (at_q M pre Y X post j) as (T0' & T1' & T2').
      destruct Hi as [Ei|Ei]; destruct Hi' as [Ei'|Ei'].
      * specialize (B1 Ei). specialize (B1' Ei').
        assert (Z0 : total_after M (pre ++ X :: Y :: post) j (length pre) <= 0).
        { destruct (length pre) as [|q] eqn:Eq; [exact H0|]. destruct Hp as [_ Hp]. apply (not_acceptable z).
          rewrite <- worth_acceptable_many. apply Hp. lia. }
        rewrite T0 in Z0. lra.
      * specialize (B1 Ei). specialize (B2' Ei'). lra.
      * specialize (B2 Ei). specialize (B1' Ei'). lra.
      * specialize (B2 Ei). specialize (B2' Ei'). destruct Hp as [Hp _]. rewrite Ei in Hp.
        assert (Z2 : 0 <= total_after M (pre ++ X :: Y :: post) j (S (S (length pre)))).
        { destruct z; unfold worth_doing in Hp; lra. }
        rewrite T2 in Z2. lra.
    + rewrite S1, S2. reflexivity.
Qed.

(** [tr_many], by position. *)
Lemma tr_many_nth : forall M cap m recipe z t dealsz remz j, cap_suffices cap m recipe -> values_at_least (- M) m ->
  all_ones recipe -> trade_reduction_M M cap m recipe z = Ok t -> optimal_trade cap m recipe z = Ok (dealsz, remz) -> length dealsz = S j ->
  exists i P, (i < length m)%nat /\ tprices t = Some P /\ is_pivot M m z j i /\ num_of_deals t = (if (i =? 0)%nat then S j else j)
    /\ priced M m j i P /\ length (tcats t) = length m
    /\ forall c, (c < length m)%nat -> cname (nth c (tcats t) dcat) = cname (nth c m dcat)
         /\ Forall2 Qeq (cvalues (nth c (tcats t) dcat)) (firstn (if (c <? i)%nat then j else S j) (sort_desc (cvalues (nth c m dcat)))).
Proof.
  intros M cap m recipe z t dealsz remz j Hcap Hv H1 Ht Eo Ej.
  destruct (tr_many _ _ _ _ _ _ _ _ Hcap Hv H1 Ht Eo) as (_ & X).
  destruct (X j Ej) as (i & P & Hi & HP & LP & W & N & Hd & Hs & Lt & HC).
  assert (HN : forall c, (c < length m)%nat -> nth_error m c = Some (nth c m dcat) /\ nth_error (tcats t) c = Some (nth c (tcats t) dcat)).
  { intros c Hc. split; apply nth_error_nth'; lia. }
  exists i, P. split; [assumption|]. split; [assumption|]. split; [split; assumption|]. split; [assumption|]. split; [|split; [assumption|]].
  - split; [assumption|]. split; [assumption|]. split; intros c Hc Hci; destruct (HN c Hc) as (Y1 & Y2); destruct (HC c _ _ Y1 Y2) as (_ & A & _ & B).
    + apply A. assumption.
    + apply B. assumption.
  - intros c Hc. destruct (HN c Hc) as (Y1 & Y2). destruct (HC c _ _ Y1 Y2) as (En & A & B & D). split; [assumption|].
    destruct (Nat.ltb_spec c i) as [L|L]; [apply A; assumption|]. destruct (Nat.eq_dec c i) as [E|E]; [apply B; assumption|apply D; lia].
Qed.

Lemma firstn_more : forall (a b : nat) l A B, (a <= b)%nat -> Forall2 Qeq A (firstn a l) -> Forall2 Qeq B (firstn b l) ->
  Forall2 Qeq A (firstn (length A) B).
Proof.
  intros a b l A B Hab HA HB.
  assert (E : length A = Nat.min a (length l)) by (rewrite (qeq_length _ _ HA), firstn_length; lia).
  assert (H := qeq_firstn (length A) _ _ HB). apply qeq_sym in H. eapply qeq_trans; [exact HA|].
  rewrite firstn_firstn in H. replace (firstn a l) with (firstn (Nat.min (length A) b) l); [exact H|].
  rewrite E. destruct (le_lt_dec a (length l)) as [L|L].
  - f_equal. lia.
  - rewrite !firstn_all2 by lia. reflexivity.
Qed.

Theorem tr_swap : forall M cap pre X Y post recipe z t t' deals rem, 0 < M ->
  let m := pre ++ X :: Y :: post in let m' := pre ++ Y :: X :: post in let q := length pre in
  cap_suffices cap m recipe -> values_small M recipe m -> all_ones recipe ->
  optimal_trade cap m recipe z = Ok (deals, rem) -> deals <> [] ->
  trade_reduction_M M cap m recipe z = Ok t -> trade_reduction_M M cap m' recipe z = Ok t' ->
  exists P P', tprices t = Some P /\ tprices t' = Some P'
  /\ (forall c, c <> q -> c <> S q -> nth c P' 0 == nth c P 0
        /\ cname (nth c (tcats t') dcat) = cname (nth c (tcats t) dcat)
        /\ Forall2 Qeq (cvalues (nth c (tcats t') dcat)) (cvalues (nth c (tcats t) dcat)))
  /\ nth (S q) P' 0 <= nth q P 0 /\ nth (S q) P 0 <= nth q P' 0
  /\ nth q P' 0 + nth (S q) P' 0 == nth q P 0 + nth (S q) P 0
  /\ (let before := cvalues (nth q (tcats t) dcat) in let after := cvalues (nth (S q) (tcats t') dcat) in
      Forall2 Qeq before (firstn (length before) after))
  /\ (let before := cvalues (nth (S q) (tcats t) dcat) in let after := cvalues (nth q (tcats t') dcat) in
      Forall2 Qeq after (firstn (length after) before))
  /\ ((0 < q)%nat -> num_of_deals t' = num_of_deals t).
Proof.
  intros M cap pre X Y post recipe z t t' deals rem HM m m' q Hcap Hsm H1 Eo Hne Ht Ht'.
  assert (Hl : length recipe = length m).
  { unfold optimal_trade in Eo. destruct (Nat.eqb_spec (length recipe) (length m)); [assumption|discriminate]. }
  assert (Lm : length m = S (S (length pre + length post))) by (unfold m; rewrite app_length; simpl; lia).
  assert (Lm' : length m' = S (S (length pre + length post))) by (unfold m'; rewrite app_length; simpl; lia).
  set (o := swap_order (length pre) (length post)).
  assert (Ho : is_order (length m) o).
  { rewrite Lm. replace (S (S (length pre + length post)))%nat with (length pre + S (S (length post)))%nat by lia. apply swap_is_order. }
  assert (Em : m' = reorder dcat o m) by (symmetry; apply swap_reorder).
  assert (Er : reorder 0%nat o recipe = recipe) by (apply ones_reorder; [rewrite Hl; assumption|assumption]).
  assert (Hcap' : cap_suffices cap m' recipe) by (rewrite Em, <- Er; apply cap_reorder; assumption).
  assert (Hv : values_at_least (- M) m) by apply Hsm.
  assert (Hv' : values_at_least (- M) m') by (rewrite Em; apply at_least_reorder; assumption).
  assert (Hl' : length recipe = length m') by congruence.
  destruct (optimal_trade_spec cap m' recipe z Hl') as (k' & Eo' & _).
  assert (OR := optimal_reorder cap o m recipe z deals rem). rewrite <- Em, Er in OR.
  specialize (OR _ _ Ho Eo Eo'). destruct OR as (LD & _ & _).
  destruct (length deals) as [|j] eqn:Ej; [destruct deals; [congruence|discriminate]|].
  destruct (optimal_trade_shape _ _ _ _ _ _ Eo) as (k & Hst & Lk & _). rewrite Ej in Lk. subst k.
  assert (HZ : total_after M m j 0 <= 0).
  { eapply total_zero; try eassumption. intros X0. rewrite X0 in Lm. discriminate. }
  assert (HZ' : total_after M m' j 0 <= 0) by (unfold m'; rewrite total_swap by discriminate; exact HZ).
  destruct (tr_many_nth _ _ _ _ _ _ _ _ j Hcap Hv H1 Ht Eo Ej) as (i & P & Hi & HP & Hpi & Hd & Hpr & Lt & HC).
  destruct (tr_many_nth _ _ _ _ _ _ _ _ j Hcap' Hv' H1 Ht' Eo' LD) as (i' & P' & Hi' & HP' & Hpi' & Hd' & Hpr' & Lt' & HC').
  destruct (price_swap M pre X Y post z j i i' P P' Hv HZ Hi Hpi Hpi' Hpr Hpr') as (A1 & A2 & A3).
  destruct (price_swap M pre Y X post z j i' i P' P Hv' HZ' Hi' Hpi' Hpi Hpr' Hpr) as (_ & B2 & _).
  destruct (nth_two _ dcat pre X Y post) as (C1 & C2 & C3 & C4). destruct (nth_two _ dcat pre Y X post) as (C1' & C2' & C3' & C4').
  fold m q in C1, C2, C3, C4. fold m' q in C1', C2', C3', C4'. fold q in A1, A2, A3, B2.
  assert (HPS := pivot_swap _ _ _ _ _ _ _ _ _ Hv Hpi Hpi'). fold q in HPS.
  assert (Lq : (S q < length m)%nat) by (unfold q; lia). assert (Lq' : (S q < length m')%nat) by (unfold q; lia).
  exists P, P'. split; [assumption|]. split; [assumption|]. split.
  { intros c N1 N2. split; [apply A1; assumption|].
    destruct (lt_dec c (length m)) as [L|L].
    - destruct (HC c L) as (E1 & V1). destruct (HC' c ltac:(lia)) as (E2 & V2).
      assert (EC : nth c m' dcat = nth c m dcat).
      { destruct (lt_dec c q) as [B|B]; [rewrite C3, C3' by assumption; reflexivity|].
        replace c with (S (S q) + (c - q - 2))%nat by lia. rewrite C4, C4'. reflexivity. }
      rewrite EC in E2, V2. split; [congruence|].
      assert (EI : (c <? i')%nat = (c <? i)%nat).
      { destruct HPS as [(-> & _)|HPS]; [reflexivity|]. destruct (Nat.ltb_spec c i'); destruct (Nat.ltb_spec c i); (reflexivity || lia). }
      rewrite EI in V2. eapply qeq_trans; [exact V2|]. apply qeq_sym. exact V1.
    - rewrite !nth_overflow by lia. split; [reflexivity|]. constructor. }
  split; [assumption|]. split; [assumption|]. split; [assumption|]. split; [|split].
  - cbv zeta. destruct (HC q ltac:(lia)) as (_ & V1). destruct (HC' (S q) Lq') as (_ & V2). rewrite C1 in V1. rewrite C2' in V2.
    eapply firstn_more; [|exact V1|exact V2]. destruct (Nat.ltb_spec q i); destruct (Nat.ltb_spec (S q) i'); lia.
  - cbv zeta. destruct (HC (S q) Lq) as (_ & V1). destruct (HC' q ltac:(lia)) as (_ & V2). rewrite C2 in V1. rewrite C1' in V2.
    eapply firstn_more; [|exact V2|exact V1]. destruct (Nat.ltb_spec (S q) i); destruct (Nat.ltb_spec q i'); lia.
  - intros Hq. rewrite Hd, Hd'. destruct (Nat.eqb_spec i 0); destruct (Nat.eqb_spec i' 0); (reflexivity || lia).
Qed.
