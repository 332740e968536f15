(** * The markets of stock/experiment_compare_iterations_autions.py *)

From Coq Require Import String List Arith NArith Lia ZArith QArith Qround Lqa Bool Permutation.
From Verif Require Import Base Model_Agents Model_Trade Model_Prices Model_Market Model_Experiment Model_CompareStock
  Spec_Market Spec_Trade Spec_Ascending Spec_StockData Spec_CompareStock Proof_Agents Proof_StockData Proof_Exp1 Proof_Exp2 Proof_Exp3.
Import ListNotations.
Open Scope Q_scope.

(** ** Doubling *)
Lemma copies_length : forall k l, length (copies k l) = (k * length l)%nat.
Proof. intros k l. unfold copies. induction k as [|k IH]; [reflexivity|]. cbn [repeat concat]. rewrite app_length, IH. lia. Qed.

Lemma copies_add : forall a b l, copies (a + b) l = (copies a l ++ copies b l)%list.
Proof. intros a b l. unfold copies. rewrite repeat_app, concat_app. reflexivity. Qed.

Lemma copies_1 : forall l, copies 1 l = l.
Proof. intros l. unfold copies. cbn. apply app_nil_r. Qed.

Lemma copies_double : forall k l, copies k (l ++ l) = copies (2 * k) l.
Proof.
  intros k l. induction k as [|k IH]; [reflexivity|]. replace (S k) with (1 + k)%nat by lia. rewrite (copies_add 1 k), copies_1, IH.
  replace (2 * (1 + k))%nat with (1 + 1 + 2 * k)%nat by lia. rewrite !copies_add, copies_1. reflexivity.
Qed.

Lemma copies_perm : forall k l l', Permutation l l' -> Permutation (copies k l) (copies k l').
Proof. intros k l l' H. unfold copies. induction k as [|k IH]; [constructor|]. cbn [repeat concat]. apply Permutation_app; assumption. Qed.

Lemma copies_copies : forall a b l, copies a (copies b l) = copies (a * b) l.
Proof.
  intros a b l. induction a as [|a IH]; [reflexivity|]. replace (S a) with (1 + a)%nat by lia. rewrite (copies_add 1 a), copies_1, IH.
  rewrite Nat.mul_add_distr_r, copies_add, Nat.mul_1_l. reflexivity.
Qed.

Lemma double_ok : forall fuel need l, (need <= 2 ^ fuel * length l)%nat -> exists l', double_until fuel need l = Ok l' /\ doubled need l l'.
Proof.
  induction fuel as [|fuel IH]; intros need l H; cbn [double_until].
  - cbn [Nat.pow] in H. destruct (Nat.ltb_spec (length l) need) as [X|X]; [lia|]. exists l. split; [reflexivity|].
    exists 0%nat. cbn [Nat.pow]. rewrite copies_1. repeat split; auto. intros. lia.
  - destruct (Nat.ltb_spec (length l) need) as [X|X].
    + destruct (IH need (l ++ l)%list) as (l' & E & e & -> & A & B).
      { rewrite app_length. cbn [Nat.pow] in H. lia. }
      exists (copies (2 ^ e) (l ++ l)). split; [exact E|]. exists (S e). cbn [Nat.pow]. rewrite copies_double in *. split; [reflexivity|]. split; [exact A|].
      intros [|e'] H'; [cbn [Nat.pow] in H'; rewrite copies_1 in H'; lia|]. apply le_n_S, B. rewrite copies_double. exact H'.
    + exists l. split; [reflexivity|]. exists 0%nat. cbn [Nat.pow]. rewrite copies_1. repeat split; auto. intros. lia.
Qed.

Lemma pow2_ge : forall n, (n < 2 ^ n)%nat.
Proof. induction n as [|n IH]; [cbn; lia|]. cbn [Nat.pow]. lia. Qed.

Lemma double_nonempty : forall need l, l <> [] \/ need = 0%nat -> exists l', double_until need need l = Ok l' /\ doubled need l l'.
Proof.
  intros need l H. apply double_ok. assert (P := pow2_ge need). destruct l as [|x l]; [destruct H; [congruence|lia]|]. cbn [length]. nia.
Qed.

Lemma double_empty : forall fuel need, (0 < need)%nat -> double_until fuel need [] = Timeout.
Proof.
  induction fuel as [|fuel IH]; intros need H; cbn [double_until length]; destruct (Nat.ltb_spec 0 need) as [X|X]; try lia; [reflexivity|].
  cbn [app]. apply IH. exact H.
Qed.

(** The list of prices during the experiment: a permutation of the doubled list. *)
Definition kept (need : nat) (l prices : list Q) : Prop := exists l', doubled need l l' /\ Permutation prices l'.

Lemma kept_start : forall l, kept 0 l l.
Proof.
  intros l. exists l. split; [|reflexivity]. exists 0%nat. cbn [Nat.pow]. rewrite copies_1. repeat split; [lia|]. intros. lia.
Qed.

Lemma kept_step : forall need need' l prices prices', kept need l prices -> doubled need' prices prices' -> kept (Nat.max need need') l prices'.
Proof.
  intros need need' l prices prices' (l1 & (e & -> & A & B) & P) (e' & -> & A' & B').
  assert (PP : Permutation (copies (2 ^ e') prices) (copies (2 ^ (e' + e)) l)).
  { rewrite (copies_perm _ _ _ P), copies_copies, Nat.pow_add_r. reflexivity. }
  exists (copies (2 ^ (e' + e)) l). split; [|exact PP]. exists (e' + e)%nat. split; [reflexivity|].
  assert (L := Permutation_length PP). rewrite L in A'.
  assert (L1 := Permutation_length P). rewrite !copies_length in *.
  split.
  - apply Nat.max_lub; [|exact A']. assert (2 ^ e <= 2 ^ (e' + e))%nat by (apply Nat.pow_le_mono_r; lia). nia.
  - intros f Hf. rewrite copies_length in Hf. destruct e' as [|e'].
    + cbn [Nat.add]. apply B. rewrite copies_length. lia.
    + assert (X : (length prices < need')%nat).
      { destruct (Nat.le_gt_cases need' (length prices)) as [Y|Y]; [|exact Y].
        specialize (B' 0%nat). cbn [Nat.pow] in B'. rewrite copies_1 in B'. specialize (B' Y). lia. }
      assert (Ef : (e <= f)%nat).
      { destruct (Nat.le_gt_cases e f) as [Y|Y]; [exact Y|]. exfalso. assert (2 ^ f <= 2 ^ e)%nat by (apply Nat.pow_le_mono_r; lia). nia. }
      specialize (B' (f - e)%nat). rewrite copies_length, L1 in B'.
      assert (EP : (2 ^ f = 2 ^ (f - e) * 2 ^ e)%nat) by (rewrite <- Nat.pow_add_r; f_equal; lia).
      enough (S e' <= f - e)%nat by lia. apply B'. rewrite Nat.mul_assoc, <- EP. lia.
Qed.

Lemma kept_perm : forall need l prices prices', kept need l prices -> Permutation prices' prices -> kept need l prices'.
Proof. intros need l prices prices' (l' & A & B) P. exists l'. split; [exact A|]. etransitivity; eassumption. Qed.

(** ** The categories *)
Lemma trunc_eq : forall q q' z, q == q' -> truncation q z -> truncation q' z.
Proof.
  intros q q' z E [A B]. split; intros H; [destruct A as [A1 A2]; [lra|]|destruct B as [A1 A2]; [lra|]]; (split; [exact A1|lra]).
Qed.

(** The lists of prices used for the categories. *)
Fixpoint pieces (n : nat) (prices : list Q) (index : nat) (recipe : list nat) : list (list Q) :=
  match recipe with [] => [] | r :: recipe' => firstn (n * r) (skipn index prices) :: pieces n prices (index + n * r) recipe' end.

Lemma pieces_length : forall recipe n prices index, length (pieces n prices index recipe) = length recipe.
Proof. induction recipe as [|r recipe IH]; intros; cbn; [reflexivity|rewrite IH; reflexivity]. Qed.

Lemma skipn_plus : forall A (a b : nat) (l : list A), skipn (a + b) l = skipn b (skipn a l).
Proof. intros A a. induction a as [|a IH]; intros b [|x l]; cbn; [reflexivity|reflexivity|destruct b; reflexivity|apply IH]. Qed.

Lemma pieces_concat : forall recipe n prices index, (concat (pieces n prices index recipe) ++ skipn (index + n * nsum recipe) prices)%list = skipn index prices.
Proof.
  induction recipe as [|r recipe IH]; intros n prices index; cbn [pieces concat nsum fold_right].
  - rewrite Nat.mul_0_r, Nat.add_0_r. reflexivity.
  - fold (nsum recipe). rewrite <- app_assoc. replace (index + n * (r + nsum recipe))%nat with (index + n * r + n * nsum recipe)%nat by lia.
    rewrite IH, skipn_plus. apply firstn_skipn.
Qed.

Lemma pieces_nth : forall recipe n prices index i r u, (index + n * nsum recipe <= length prices)%nat ->
  nth_error recipe i = Some r -> nth_error (pieces n prices index recipe) i = Some u -> length u = (n * r)%nat.
Proof.
  induction recipe as [|r0 recipe IH]; intros n prices index i r u L Hr Hu; [destruct i; discriminate|].
  cbn [nsum fold_right] in L. fold (nsum recipe) in L. destruct i as [|i]; cbn [pieces nth_error] in *.
  - inversion Hr; subst. inversion Hu; subst. rewrite firstn_length, skipn_length. nia.
  - eapply IH; [|exact Hr|exact Hu]. lia.
Qed.

Lemma categories_length : forall factor n prices recipe index, length (stock_categories factor n prices index recipe) = length recipe.
Proof. intros factor n prices recipe. induction recipe as [|r recipe IH]; intros; cbn; [reflexivity|rewrite IH; reflexivity]. Qed.

Lemma categories_nth : forall factor n prices recipe index i u c, (0 < index)%nat ->
  nth_error (pieces n prices index recipe) i = Some u -> nth_error (stock_categories factor n prices index recipe) i = Some c ->
  c = new_category "agent" (map (fun p => inject_Z (py_int (p * -(1)))) u).
Proof.
  intros factor n prices recipe. induction recipe as [|r recipe IH]; intros index i u c H Hu Hc; [destruct i; discriminate|].
  destruct i as [|i]; cbn [pieces stock_categories nth_error] in *.
  - injection Hu as <-. injection Hc as <-. destruct (Nat.eqb_spec index 0); [lia|reflexivity].
  - eapply IH; [|exact Hu|exact Hc]. lia.
Qed.

Lemma pieces_zero : forall recipe prices index i u, nth_error (pieces 0 prices index recipe) i = Some u -> u = [].
Proof.
  induction recipe as [|r recipe IH]; intros prices index i u H; [destruct i; discriminate|].
  destruct i as [|i]; cbn [pieces nth_error] in H; [inversion H; reflexivity|eapply IH; exact H].
Qed.

Lemma categories_zero : forall factor prices recipe index i c, nth_error (stock_categories factor 0 prices index recipe) i = Some c ->
  c = new_category "agent" [].
Proof.
  intros factor prices recipe. induction recipe as [|r recipe IH]; intros index i c H; [destruct i; discriminate|].
  destruct i as [|i]; cbn [stock_categories nth_error] in H; [inversion H; reflexivity|eapply IH; exact H].
Qed.

Lemma Forall2_map_right : forall A B (R : A -> B -> Prop) f l, (forall x, R x (f x)) -> Forall2 R l (map f l).
Proof. intros A B R f l H. induction l; constructor; auto. Qed.

Lemma nsum_tl : forall recipe, (nsum recipe - hd 0 recipe = nsum (tl recipe))%nat.
Proof. intros [|r recipe]; [reflexivity|]. cbn [nsum fold_right hd tl]. fold (nsum recipe). lia. Qed.

Lemma categories_drawn : forall recipe factor n prices, recipe <> [] -> Forall (fun r => (0 < r)%nat) recipe ->
  buyer_factor recipe = Ok factor -> (n * nsum recipe <= length prices)%nat ->
  drawn_market recipe n prices (stock_categories factor n prices 0 recipe).
Proof.
  intros recipe factor n prices NE FP HF L. exists (pieces n prices 0 recipe), (skipn (0 + n * nsum recipe) prices).
  split; [rewrite pieces_concat; reflexivity|]. split; [apply pieces_length|]. split; [apply categories_length|].
  intros i r u c Hr Hu Hc. split; [eapply pieces_nth; [|exact Hr|exact Hu]; lia|].
  destruct recipe as [|r0 recipe]; [congruence|]. cbn [buyer_factor] in HF.
  destruct (Nat.eqb_spec r0 0) as [Z|Z]; [discriminate|]. injection HF as <-.
  destruct i as [|i]; cbn [pieces stock_categories nth_error] in Hu, Hc.
  - injection Hu as <-. injection Hc as <-. cbn [Nat.eqb].
    eexists. split; [|split; [apply sort_desc_perm|apply sort_desc_desc]].
    apply Forall2_map_right. intros p. exists (py_int (p * (Qn (nsum (r0 :: recipe) - r0) / Qn r0))). split; [reflexivity|].
    cbn [Nat.eqb]. assert (E := nsum_tl (r0 :: recipe)). cbn [hd] in E. rewrite E. apply py_int_truncation.
  - destruct (Nat.eq_dec n 0) as [->|Hn].
    + apply pieces_zero in Hu. subst u. apply categories_zero in Hc. subst c. exists []. split; [constructor|]. split; [constructor|]. constructor.
    + apply (categories_nth _ _ _ _ _ _ _ _) with (2 := Hu) in Hc; [|nia]. subst c.
      eexists. split; [|split; [apply sort_desc_perm|apply sort_desc_desc]].
      apply Forall2_map_right. intros p. exists (py_int (p * -(1))). split; [reflexivity|]. cbn [Nat.eqb].
      eapply trunc_eq; [|apply py_int_truncation]. ring.
Qed.
