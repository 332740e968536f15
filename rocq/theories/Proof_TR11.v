(** * Trade reduction with a recipe of ones except for the last entry: the same walk as the ascending auction *)

From Coq Require Import String List Arith Lia QArith Lqa Permutation Sorted Bool.
From Verif Require Import Base Model_Agents Model_Trade Model_Prices Model_Market Model_Ascending Model_TradeReduction
  Spec_Market Spec_Trade Spec_Ascending Spec_TradeReduction Proof_Market Proof_Trade Proof_Prices Proof_Ascending
  Proof_Ascending2 Proof_Strategy Proof_Ascending3 Proof_Ascending4 Proof_Deals Proof_TR Proof_TR2 Proof_TR3 Proof_TR4 Proof_TR5 Proof_TR6 Proof_TR7.
Import ListNotations.
Open Scope Q_scope.

Definition positive (recipe : list nat) : Prop := forall j, (j < length recipe)%nat -> (0 < nth j recipe 0)%nat.

Lemma positive_relevant : forall recipe, positive recipe -> relevant_indices recipe = seq 0 (length recipe).
Proof.
  intros recipe H. unfold relevant_indices.
  assert (G : forall l, (forall i, In i l -> (i < length recipe)%nat) -> filter (fun i => Nat.ltb 0 (nth i recipe 0%nat)) l = l).
  { induction l as [|i l IH]; intros Hl; [reflexivity|]. simpl. assert (X := H i (Hl i (or_introl eq_refl))).
    destruct (Nat.ltb_spec 0 (nth i recipe 0%nat)); [|lia]. f_equal. apply IH. intros x Hx. apply Hl. right. assumption. }
  apply G. intros i Hi. apply in_seq in Hi. lia.
Qed.

Lemma Qn_div_lt : forall a b c d, (0 < b)%nat -> (0 < d)%nat -> (a * d < c * b)%nat -> Qn a / Qn b < Qn c / Qn d.
Proof.
  intros a b c d Hb Hd H. assert (B := Qn_pos _ Hb). assert (D := Qn_pos _ Hd). apply Qlt_shift_div_r; [exact B|].
  setoid_replace (Qn c / Qn d * Qn b) with (Qn c * Qn b / Qn d) by (field; lra). apply Qlt_shift_div_l; [exact D|].
  unfold Qn in *. rewrite <- !inject_Z_mult, <- Zlt_Qlt. lia.
Qed.

Lemma Qn_div_le : forall a b c d, (0 < b)%nat -> (0 < d)%nat -> (a * d <= c * b)%nat -> Qn a / Qn b <= Qn c / Qn d.
Proof.
  intros a b c d Hb Hd H. assert (B := Qn_pos _ Hb). assert (D := Qn_pos _ Hd). apply Qle_shift_div_r; [exact B|].
  setoid_replace (Qn c / Qn d * Qn b) with (Qn c * Qn b / Qn d) by (field; lra). apply Qle_shift_div_l; [exact D|].
  unfold Qn in *. rewrite <- !inject_Z_mult, <- Zle_Qle. lia.
Qed.

Lemma positive_choice : forall recipe ns i, positive recipe -> (i < length recipe)%nat ->
  (forall j, (j < i)%nat -> (nth j ns 0 * nth i recipe 0 < nth i ns 0 * nth j recipe 0)%nat) ->
  (forall j, (j < length recipe)%nat -> (nth j ns 0 * nth i recipe 0 <= nth i ns 0 * nth j recipe 0)%nat) ->
  choice recipe ns = Ok i.
Proof.
  intros recipe ns i H Hi Hlt Hle. unfold choice. rewrite positive_relevant by assumption.
  replace (seq 0 (length recipe)) with (seq 0 i ++ i :: seq (S i) (length recipe - S i)).
  - apply argmax_first.
    + intros y Hy. apply in_seq in Hy. apply Qn_div_lt; [apply H; lia|apply H; lia|apply Hlt; lia].
    + intros y Hy. apply in_seq in Hy. apply Qn_div_le; [apply H; lia|apply H; lia|apply Hle; lia].
  - change (i :: seq (S i) (length recipe - S i)) with (seq i (S (length recipe - S i))).
    rewrite <- seq_app. f_equal. lia.
Qed.

Lemma positive_choice_ok : forall recipe ns, positive recipe -> recipe <> [] -> exists i, choice recipe ns = Ok i.
Proof.
  intros recipe ns H Hne. unfold choice. rewrite positive_relevant by assumption.
  destruct recipe as [|r recipe]; [congruence|]. simpl. eauto.
Qed.

Lemma block_eq : forall s recipe ns, length ns = length recipe ->
  (forall j, (j < length recipe)%nat -> nth j ns 0%nat = (s * nth j recipe 0)%nat) -> ns = at_block s recipe.
Proof.
  intros s recipe ns L H. apply list_nat_ext; [unfold at_block; rewrite map_length; assumption|]. intros j.
  destruct (le_lt_dec (length recipe) j) as [G|G].
  - rewrite !nth_overflow; [reflexivity|unfold at_block; rewrite map_length; assumption|lia].
  - rewrite at_block_nth. apply H. exact G.
Qed.

Lemma nth_nsum : forall (ns : list nat) j, (nth j ns 0 <= nsum ns)%nat.
Proof. induction ns as [|a ns IH]; intros [|j]; simpl; try lia. specialize (IH j). lia. Qed.

(** From any sizes, the path comes to the last whole block. *)
Lemma path_reach_block : forall recipe s, positive recipe -> recipe <> [] -> forall fuel ns, length ns = length recipe ->
  (forall j, (j < length recipe)%nat -> (s * nth j recipe 0 <= nth j ns 0)%nat) -> (nsum ns <= fuel)%nat ->
  exists o1 f, path fuel recipe ns = o1 ++ path f recipe (at_block s recipe) /\ decs o1 ns = at_block s recipe
    /\ (nsum (at_block s recipe) <= f)%nat.
Proof.
  intros recipe s H1 Hne. induction fuel as [|fuel IH]; intros ns Hl Hs Hf.
  - assert (E : ns = at_block s recipe).
    { apply block_eq; [assumption|]. intros j Hj. specialize (Hs j Hj). assert (X := nth_nsum ns j). lia. }
    exists [], 0%nat. rewrite <- E. split; [reflexivity|]. split; [reflexivity|assumption].
  - destruct (list_eq_dec Nat.eq_dec ns (at_block s recipe)) as [E|E].
    { exists [], (S fuel). rewrite <- E. split; [reflexivity|]. split; [reflexivity|assumption]. }
    assert (X : exists j, (j < length recipe)%nat /\ (s * nth j recipe 0 < nth j ns 0)%nat).
    { destruct (existsb (fun j => s * nth j recipe 0 <? nth j ns 0)%nat (seq 0 (length recipe))) eqn:Ex.
      - apply existsb_exists in Ex. destruct Ex as [j [Hj Hlt]]. apply in_seq in Hj. apply Nat.ltb_lt in Hlt. exists j. split; [lia|assumption].
      - exfalso. apply E. apply block_eq; [assumption|]. intros j L. specialize (Hs j L).
        assert (Y : (s * nth j recipe 0 <? nth j ns 0)%nat = false).
        { destruct (s * nth j recipe 0 <? nth j ns 0)%nat eqn:Z; [|reflexivity]. rewrite <- Ex. symmetry. apply existsb_exists.
          exists j. split; [apply in_seq; lia|assumption]. }
        apply Nat.ltb_ge in Y. lia. }
    destruct X as [j [Hj Hlt]].
    destruct (positive_choice_ok recipe ns H1 Hne) as [main Hc].
    assert (C := choice_spec recipe ns main Hc). destruct C as [C1 [C2 C3]].
    specialize (C3 j Hj (H1 j Hj)).
    assert (Hm : (s * nth main recipe 0 < nth main ns 0)%nat).
    { assert (P := H1 j Hj). apply Nat.nle_gt. intros Z.
      assert (Y1 : (nth main ns 0 * nth j recipe 0 <= s * nth main recipe 0 * nth j recipe 0)%nat) by (apply Nat.mul_le_mono_r; exact Z).
      assert (Y2 : (s * nth j recipe 0 * nth main recipe 0 < nth j ns 0 * nth main recipe 0)%nat) by (apply Nat.mul_lt_mono_pos_r; assumption).
      lia. }
    cbn [path]. rewrite Hc. destruct (Nat.eqb_spec (nth main ns 0%nat) 0); [lia|].
    destruct (IH (dec main ns)) as [o1 [f [P1 [P2 P3]]]].
    + rewrite dec_length. assumption.
    + intros j' Hj'. destruct (Nat.eq_dec main j') as [<-|N]; [rewrite nth_dec_same; lia|rewrite nth_dec_other by assumption; apply Hs; assumption].
    + assert (D := dec_sum main ns ltac:(lia)). lia.
    + exists (main :: o1), f. rewrite P1. split; [reflexivity|]. split; assumption.
Qed.

Lemma nsum_two : forall l l', nsum (l ++ l') = (nsum l + nsum l')%nat.
Proof. unfold nsum. induction l as [|a l IH]; intros l'; cbn [app fold_right]; [reflexivity|]. rewrite IH. lia. Qed.

Lemma nsum_ones : forall s k, nsum (map (fun r => s * r)%nat (repeat 1%nat k)) = (s * k)%nat.
Proof. unfold nsum. intros s. induction k as [|k IH]; cbn [repeat map fold_right]; [lia|]. rewrite IH. lia. Qed.

(** ** The path inside the blocks *)
Section Last.
  Variables (n r : nat).
  Hypothesis Hr : (0 < r)%nat.
  Let recipe := (repeat 1%nat n ++ [r]).

  Lemma last_length : length recipe = S n.
  Proof. unfold recipe. rewrite app_length, repeat_length. cbn. lia. Qed.

  Lemma nth_one : forall j, (j < n)%nat -> nth j recipe 0%nat = 1%nat.
  Proof. intros j H. unfold recipe. rewrite app_nth1 by (rewrite repeat_length; exact H). rewrite (nth_indep _ 0%nat 1%nat) by (rewrite repeat_length; exact H). apply nth_repeat. Qed.

  Lemma nth_last : nth n recipe 0%nat = r.
  Proof. unfold recipe. rewrite app_nth2 by (rewrite repeat_length; lia). rewrite repeat_length, Nat.sub_diag. reflexivity. Qed.

  Lemma last_positive : positive recipe.
  Proof.
    intros j H. rewrite last_length in H. destruct (Nat.eq_dec j n) as [->|N]; [rewrite nth_last; exact Hr|rewrite nth_one; lia].
  Qed.

  (** The last category loses its agents one after the other. *)
  Lemma path_last : forall l e ns fuel, length ns = length recipe -> (forall j, (j < n)%nat -> nth j ns 0%nat = l) ->
    nth n ns 0%nat = (l * r + e)%nat -> (e <= r)%nat -> (e <= fuel)%nat ->
    path fuel recipe ns = repeat n e ++ path (fuel - e) recipe (at_block l recipe).
  Proof.
    intros l. induction e as [|e IH]; intros ns fuel L H1 H2 He Hf.
    - cbn [repeat app]. rewrite Nat.sub_0_r. f_equal. apply block_eq; [exact L|]. intros j Hj. rewrite last_length in Hj.
      destruct (Nat.eq_dec j n) as [->|N]; [rewrite nth_last, H2; lia|rewrite nth_one, H1; lia].
    - destruct fuel as [|fuel]; [lia|]. cbn [path].
      rewrite (positive_choice recipe ns n last_positive); [|rewrite last_length; lia| |].
      + destruct (Nat.eqb_spec (nth n ns 0%nat) 0); [lia|]. cbn [repeat app]. f_equal. rewrite (IH (dec n ns) fuel).
        * reflexivity.
        * rewrite dec_length. exact L.
        * intros j Hj. rewrite nth_dec_other by lia. apply H1. exact Hj.
        * rewrite nth_dec_same. lia.
        * lia.
        * lia.
      + intros j Hj. rewrite nth_last, nth_one, H1, H2 by lia. lia.
      + intros j Hj. rewrite last_length in Hj. destruct (Nat.eq_dec j n) as [->|N]; [lia|]. rewrite nth_last, nth_one, H1, H2 by lia. lia.
  Qed.

  (** The categories with entry 1 lose one agent each, in their order, then the last one its [r] agents. *)
  Lemma path_block_last : forall l k i ns fuel, (i + k = n)%nat -> length ns = length recipe ->
    (forall j, (j < i)%nat -> nth j ns 0%nat = l) -> (forall j, (i <= j < n)%nat -> nth j ns 0%nat = S l) ->
    nth n ns 0%nat = (S l * r)%nat -> (k + r <= fuel)%nat ->
    path fuel recipe ns = (seq i k ++ repeat n r) ++ path (fuel - (k + r)) recipe (at_block l recipe).
  Proof.
    intros l. induction k as [|k IH]; intros i ns fuel Hik L Hlo Hhi Hn Hf.
    - cbn [seq app Nat.add]. apply path_last; try assumption; try lia. intros j Hj. apply Hlo. lia.
    - destruct fuel as [|fuel]; [lia|]. cbn [path seq app].
      assert (Ei := Hhi i ltac:(lia)).
      rewrite (positive_choice recipe ns i last_positive); [|rewrite last_length; lia| |].
      + rewrite Ei. cbn [Nat.eqb]. rewrite (IH (S i) (dec i ns) fuel).
        * reflexivity.
        * lia.
        * rewrite dec_length. exact L.
        * intros j Hj. destruct (Nat.eq_dec i j) as [<-|N]; [rewrite nth_dec_same; lia|]. rewrite nth_dec_other by assumption. apply Hlo. lia.
        * intros j Hj. rewrite nth_dec_other by lia. apply Hhi. lia.
        * rewrite nth_dec_other by lia. exact Hn.
        * lia.
      + intros j Hj. rewrite Ei, (Hlo j Hj), !nth_one by lia. lia.
      + intros j Hj. rewrite last_length in Hj. rewrite Ei. destruct (Nat.eq_dec j n) as [->|N].
        * rewrite Hn, nth_last, nth_one by lia. lia.
        * rewrite !nth_one by lia. destruct (le_lt_dec i j); [rewrite Hhi by lia; lia|rewrite Hlo by assumption; lia].
  Qed.

  Lemma last_pivots : forall a k, pivot_categories_from a (repeat 1%nat k ++ [r]) = seq a k ++ repeat (a + k)%nat r.
  Proof.
    intros a k. revert a. induction k as [|k IH]; intros a; cbn [repeat app pivot_categories_from seq].
    - rewrite app_nil_r, Nat.add_0_r. reflexivity.
    - rewrite IH. f_equal. f_equal. f_equal. lia.
  Qed.

  Lemma nsum_last : forall s, nsum (at_block s recipe) = (s * (n + r))%nat.
  Proof.
    intros s. unfold at_block, recipe. rewrite map_app. rewrite nsum_two, nsum_ones. cbn. lia.
  Qed.

  Lemma path_blocks_last : forall s fuel, (nsum (at_block s recipe) <= fuel)%nat ->
    path fuel recipe (at_block s recipe) = tr_order s recipe.
  Proof.
    induction s as [|s IH]; intros fuel Hf.
    - destruct fuel as [|fuel]; [reflexivity|]. cbn [path].
      destruct (positive_choice_ok recipe (at_block 0 recipe) last_positive) as [i ->]; [unfold recipe; destruct n; discriminate|].
      rewrite at_block_nth. reflexivity.
    - rewrite nsum_last in Hf.
      rewrite (path_block_last s n 0).
      + change (tr_order (S s) recipe) with (pivot_categories recipe ++ tr_order s recipe).
        unfold pivot_categories, recipe. rewrite last_pivots. cbn [Nat.add]. f_equal.
        apply IH. rewrite nsum_last. nia.
      + lia.
      + unfold at_block. rewrite map_length. reflexivity.
      + intros j Hj. lia.
      + intros j Hj. rewrite at_block_nth, nth_one by lia. lia.
      + rewrite at_block_nth, nth_last. reflexivity.
      + nia.
  Qed.
End Last.
