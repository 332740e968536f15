(** * The two selection rules: the first largest category, and the walk down a path tree (for C71) *)

From Coq Require Import String List Arith Lia QArith Lqa Permutation Sorted Bool.
From Verif Require Import Base Model_Agents Model_Trade Model_Prices Model_Market Model_Ascending Model_RecipeTree
  Spec_Market Spec_Trade Spec_Ascending Spec_Path Proof_Market Proof_Trade Proof_Prices Proof_Ascending Proof_Ascending2 Proof_Path1.
Import ListNotations.
Open Scope Q_scope.

(** ** The single-recipe rule *)

Lemma argmax_from_first : forall (key : nat -> Q) n a c b best, key best == Qn n ->
  (forall j, In j a -> key j == Qn n) -> (forall j, In j (c :: b) -> key j == Qn (S n)) ->
  argmax_from key best (a ++ c :: b) = c.
Proof.
  intros key n a c b. induction a as [|x a IH]; intros best Hb Ha Hc.
  - cbn [app argmax_from]. destruct (Qlt_bool_reflect (key best) (key c)) as [H|H].
    + clear -Hc. assert (K := Hc c (or_introl eq_refl)).
      assert (Hb : forall j, In j b -> key j == Qn (S n)) by (intros j Hj; apply Hc; right; assumption). clear Hc.
      induction b as [|x b IH]; [reflexivity|]. cbn [argmax_from].
      destruct (Qlt_bool_reflect (key c) (key x)) as [H|H].
      * exfalso. rewrite K, (Hb x (or_introl eq_refl)) in H. lra.
      * apply IH. intros j Hj. apply Hb. right. assumption.
    + exfalso. apply H. rewrite Hb, (Hc c (or_introl eq_refl)). apply Qn_lt. lia.
  - cbn [app argmax_from]. destruct (Qlt_bool_reflect (key best) (key x)) as [H|H].
    + exfalso. rewrite Hb, (Ha x (or_introl eq_refl)) in H. lra.
    + apply IH; auto. intros j Hj. apply Ha. right. assumption.
Qed.

Lemma argmax_all : forall (key : nat -> Q) n c b, (forall j, In j (c :: b) -> key j == Qn n) -> argmax_from key c b = c.
Proof.
  intros key n c b. induction b as [|x b IH]; intros H; [reflexivity|]. cbn [argmax_from].
  destruct (Qlt_bool_reflect (key c) (key x)) as [L|L].
  - exfalso. rewrite (H c (or_introl eq_refl)), (H x (or_intror (or_introl eq_refl))) in L. lra.
  - apply IH. intros j [<-|Hj]; apply H; [left|right; right]; auto.
Qed.

Lemma argmax_cycle : forall (key : nat -> Q) n a c b,
  (forall j, In j a -> key j == Qn n) -> (forall j, In j (c :: b) -> key j == Qn (S n)) ->
  argmax key (a ++ c :: b) = Ok c.
Proof.
  intros key n [|x a] c b Ha Hc; cbn [app argmax]; f_equal.
  - apply (argmax_all key (S n)). assumption.
  - apply (argmax_from_first key n); auto; [apply Ha; left; reflexivity|intros j Hj; apply Ha; right; assumption].
Qed.

Definition sch (recipe ns : list nat) : nat := match choice recipe ns with Ok i => i | _ => 0%nat end.
Definition sE (recipe ns : list nat) : Prop := nth (sch recipe ns) ns 0%nat = 0%nat.

Definition binary (recipe : list nat) : Prop := forall j, (nth j recipe 0 <= 1)%nat.

Lemma relevant_one : forall recipe j, binary recipe -> In j (relevant_indices recipe) -> nth j recipe 0%nat = 1%nat.
Proof. intros recipe j B H. apply relevant_In in H. specialize (B j). lia. Qed.

Lemma relevant_nodup : forall recipe, NoDup (relevant_indices recipe).
Proof. intros. unfold relevant_indices. apply NoDup_filter. apply seq_NoDup. Qed.

Lemma choice_ok : forall recipe ns, relevant_indices recipe <> [] -> choice recipe ns = Ok (sch recipe ns).
Proof.
  intros recipe ns H. unfold sch, choice, argmax. destruct (relevant_indices recipe); [contradiction|reflexivity].
Qed.

Lemma single_rule : forall recipe, binary recipe -> relevant_indices recipe <> [] ->
  rule (relevant_indices recipe) (sch recipe) (sE recipe).
Proof.
  intros recipe B NE.
  assert (I : forall ns, In (sch recipe ns) (relevant_indices recipe)).
  { intros ns. exact (proj1 (argmax_spec _ _ _ (choice_ok recipe ns NE))). }
  assert (MX : forall ns j, In j (relevant_indices recipe) -> (nth j ns 0 <= nth (sch recipe ns) ns 0)%nat).
  { intros ns j Hj. destruct (choice_spec _ _ _ (choice_ok recipe ns NE)) as [_ [_ H]].
    assert (Ij := proj1 (relevant_In _ _) Hj). specialize (H j (proj1 Ij) (proj2 Ij)).
    rewrite (relevant_one _ _ B Hj), (relevant_one _ _ B (I ns)) in H. lia. }
  assert (K : forall ns n j, In j (relevant_indices recipe) -> nth j ns 0%nat = n -> ratio recipe ns j == Qn n).
  { intros ns n j Hj E. unfold ratio. rewrite E, (relevant_one _ _ B Hj), Qn_1. field. }
  split.
  - intros ns _. apply I.
  - unfold sE. intros. lia.
  - intros ns n HE [A _] HL. destruct (le_lt_dec (nth (sch recipe ns) ns 0%nat) n) as [L|L]; [|assumption].
    exfalso. apply HL. intros j Hj. specialize (A j Hj). specialize (MX ns j Hj). lia.
  - intros ns a c b n Hi Ha Hc. assert (C : sch recipe ns = c).
    { unfold sch, choice. rewrite Hi. rewrite (argmax_cycle (ratio recipe ns) n a c b); [reflexivity| |].
      - intros j Hj. apply K; [rewrite Hi; apply in_app_iff; left; assumption|apply Ha; assumption].
      - intros j Hj. apply K; [rewrite Hi; apply in_app_iff; right; assumption|apply Hc; assumption]. }
    split; [|assumption]. unfold sE. rewrite C, (Hc c (or_introl eq_refl)). lia.
  - intros ns H. unfold sE. apply H. apply I.
  - intros ns H. exists (sch recipe ns). split; [apply I|assumption].
Qed.

Lemma abs_walk : forall M m recipe fuel ns ns' stop, relevant_indices recipe <> [] ->
  abs_loop M fuel m recipe ns = Ok (ns', stop) -> walk (psum M m recipe) (sch recipe) (sE recipe) ns ns' stop.
Proof.
  intros M m recipe fuel. induction fuel as [|fuel IH]; intros ns ns' stop NE H; [discriminate|].
  cbn [abs_loop] in H. rewrite choice_ok in H by assumption. cbn [bind] in H.
  destruct (Nat.eqb_spec (nth (sch recipe ns) ns 0%nat) 0) as [Z|Z].
  - injection H; intros <- <-. constructor. exact Z.
  - destruct (Qle_bool_reflect 0 (psum M m recipe (dec (sch recipe ns) ns))) as [P|P].
    + injection H; intros <- <-. constructor; assumption.
    + constructor 3; [assumption|lra|]. apply IH; assumption.
Qed.

(** ** The rule of a path tree *)

Fixpoint path_tree (i : nat) (l : list nat) : rtree :=
  Node i (match l with [] => [] | j :: l' => [path_tree j l'] end).

Fixpoint tch (size : nat -> nat) (i : nat) (l : list nat) : nat :=
  match l with
  | [] => i
  | j :: l' => if (size j <? size i)%nat || (size j =? 0)%nat then i else tch size j l'
  end.

Lemma path_index : forall i l, tindex (path_tree i l) = i.
Proof. intros i [|j l]; reflexivity. Qed.

Lemma largest_path : forall cats l i,
  snd (largest_categories cats (path_tree i l)) = [tch (fun j => csize (cat_at cats j)) i l].
Proof.
  intros cats. induction l as [|j l IH]; intros i; cbn [path_tree tch largest_categories map nsum fold_right].
  - rewrite orb_true_r. reflexivity.
  - rewrite path_index, Nat.add_0_r.
    destruct ((csize (cat_at cats j) <? csize (cat_at cats i))%nat || (csize (cat_at cats j) =? 0)%nat); [reflexivity|].
    cbn [snd map concat]. rewrite IH. reflexivity.
Qed.

Lemma tch_In : forall size l i, In (tch size i l) (i :: l).
Proof.
  intros size. induction l as [|j l IH]; intros i; cbn [tch]; [left; reflexivity|].
  destruct (_ || _); [left; reflexivity|]. right. apply IH.
Qed.

Lemma tch_pos : forall size l i, (0 < size i)%nat -> (0 < size (tch size i l))%nat.
Proof.
  intros size. induction l as [|j l IH]; intros i H; cbn [tch]; [assumption|].
  destruct ((size j <? size i)%nat || (size j =? 0)%nat) eqn:E; [assumption|]. apply IH.
  apply orb_false_iff in E. destruct E as [_ E]. apply Nat.eqb_neq in E. lia.
Qed.

Lemma tch_up : forall size l i, (size i <= size (tch size i l))%nat.
Proof.
  intros size. induction l as [|j l IH]; intros i; cbn [tch]; [lia|].
  destruct ((size j <? size i)%nat || (size j =? 0)%nat) eqn:E; [lia|]. specialize (IH j).
  apply orb_false_iff in E. destruct E as [E _]. apply Nat.ltb_ge in E. lia.
Qed.

Lemma tch_min : forall size n l i, (0 < n)%nat -> (forall j, In j (i :: l) -> (n <= size j)%nat) ->
  (size (tch size i l) <= n)%nat -> forall j, In j (i :: l) -> size j = n.
Proof.
  intros size n. induction l as [|k l IH]; intros i Hn HA HC j Hj.
  - destruct Hj as [<-|[]]. cbn [tch] in HC. specialize (HA i (or_introl eq_refl)). lia.
  - cbn [tch] in HC. assert (Ai := HA i (or_introl eq_refl)). assert (Ak := HA k (or_intror (or_introl eq_refl))).
    destruct ((size k <? size i)%nat || (size k =? 0)%nat) eqn:E.
    + exfalso. apply orb_true_iff in E. destruct E as [E|E]; [apply Nat.ltb_lt in E|apply Nat.eqb_eq in E]; lia.
    + assert (U := tch_up size l k). apply orb_false_iff in E. destruct E as [E _]. apply Nat.ltb_ge in E.
      destruct Hj as [<-|Hj]; [lia|]. apply (IH k); auto. intros j' Hj'. apply HA. right. assumption.
Qed.

Lemma tch_cycle : forall size n b' i c a l, i :: l = b' ++ c :: a ->
  (forall j, In j b' -> size j = S n) -> size c = S n -> (forall j, In j a -> size j = n) -> tch size i l = c.
Proof.
  intros size n. induction b' as [|x b' IH]; intros i c a l Hi Hb Hc Ha; cbn [app] in Hi.
  - injection Hi; intros -> ->. destruct a as [|k a]; [reflexivity|]. cbn [tch].
    rewrite (Ha k (or_introl eq_refl)), Hc. replace (n <? S n)%nat with true by (symmetry; apply Nat.ltb_lt; lia). reflexivity.
  - injection Hi; intros E ->. destruct l as [|k l]; [destruct b'; discriminate|]. cbn [tch].
    assert (Sk : size k = S n).
    { destruct b' as [|y b']; cbn [app] in E; injection E; intros _ ->; [assumption|]. apply Hb. right. left. reflexivity. }
    rewrite Sk, (Hb x (or_introl eq_refl)), Nat.ltb_irrefl. cbn [orb Nat.eqb].
    eapply IH; eauto. intros j Hj. apply Hb. right. assumption.
Qed.

Definition tE (i : nat) (ns : list nat) : Prop := nth i ns 0%nat = 0%nat.

Lemma tree_rule : forall idx i l, rev idx = i :: l ->
  rule idx (fun ns => tch (fun j => nth j ns 0%nat) i l) (tE i).
Proof.
  intros idx i l Hr. assert (IN : forall j, In j idx <-> In j (i :: l)).
  { intros j. rewrite <- Hr. apply in_rev. }
  split; unfold tE.
  - intros ns _. apply IN. apply tch_In.
  - intros ns H. apply (tch_pos (fun j => nth j ns 0%nat) l i). lia.
  - intros ns n HE [A _] HL.
    destruct (le_lt_dec (nth (tch (fun j => nth j ns 0%nat) i l) ns 0%nat) n) as [L|L]; [|assumption].
    exfalso. destruct n as [|n].
    + assert (X := tch_pos (fun j => nth j ns 0%nat) l i). cbv beta in X. lia.
    + apply HL. intros j Hj. apply (tch_min (fun j => nth j ns 0%nat) (S n) l i); try lia.
      * intros k Hk. apply A. apply IN. assumption.
      * apply IN. assumption.
  - intros ns a c b n Hi Ha Hc. rewrite Hi, rev_app_distr in Hr. cbn [rev] in Hr. rewrite <- app_assoc in Hr. cbn [app] in Hr.
    split.
    + assert (X : In i (c :: b)).
      { destruct (rev b) as [|x y] eqn:Eb.
        - cbn [app] in Hr. injection Hr; intros _ <-. left. reflexivity.
        - cbn [app] in Hr. injection Hr; intros _ <-. right. apply in_rev. rewrite Eb. left. reflexivity. }
      rewrite (Hc i X). lia.
    + apply (tch_cycle (fun j => nth j ns 0%nat) n (rev b) i c (rev a) l).
      * symmetry. assumption.
      * intros j Hj. apply Hc. right. apply in_rev. assumption.
      * apply Hc. left. reflexivity.
      * intros j Hj. apply Ha. apply in_rev. assumption.
  - intros ns H. apply H. apply IN. left. reflexivity.
  - intros ns H. exists i. split; [apply IN; left; reflexivity|assumption].
Qed.

(** ** Price sums do not decrease when agents leave *)

Lemma pr_mono : forall M m ns ns' j, sorted_market m -> values_at_least (- M) m ->
  (nth j ns' 0 <= nth j ns 0)%nat -> pr M m ns j <= pr M m ns' j.
Proof.
  intros M m ns ns' j HS HV H. unfold pr.
  destruct (le_lt_dec (length (vals m j)) (nth j ns 0%nat)) as [L|L].
  - rewrite nth_overflow by assumption.
    destruct (le_lt_dec (length (vals m j)) (nth j ns' 0%nat)) as [L'|L']; [rewrite nth_overflow by assumption; lra|].
    assert (Hj : (j < length m)%nat).
    { destruct (lt_dec j (length m)) as [Y|Y]; [assumption|]. rewrite vals_out in L' by lia. simpl in L'. lia. }
    apply (HV (nth j m dcat)); [apply nth_In; assumption|]. unfold vals. apply nth_In. exact L'.
  - apply desc_nth; [|assumption|assumption].
    assert (Hj : (j < length m)%nat).
    { destruct (lt_dec j (length m)) as [Y|Y]; [assumption|]. rewrite vals_out in L by lia. simpl in L. lia. }
    eapply sorted_market_nth; [exact HS|]. apply nth_error_nth'. assumption.
Qed.

Lemma psum_mono : forall M m recipe ns ns', sorted_market m -> values_at_least (- M) m ->
  (forall j, In j (relevant_indices recipe) -> (nth j ns' 0 <= nth j ns 0)%nat) ->
  psum M m recipe ns <= psum M m recipe ns'.
Proof.
  intros M m recipe ns ns' HS HV H. unfold psum. apply wdot_le. intros j Hj Hr. apply pr_mono; auto.
  apply H. apply relevant_In. auto.
Qed.
