(** * Initial prices of a recipe tree (C35) *)

From Coq Require Import String List Arith Lia QArith Lqa Permutation Sorted Bool.
From Verif Require Import Base Model_Agents Model_Trade Model_Prices Model_Market Model_RecipeTree Model_TreeAuction
  Spec_Market Spec_RecipeTree Spec_TreeAuction Proof_Tree Proof_Tree2 Proof_Tree3 Proof_TA1 Proof_TA2 Proof_TA3 Proof_TA4
  Proof_TA6 Proof_TA7.
Import ListNotations.
Open Scope Q_scope.

Definition fsum (f : nat -> Q) (p : list nat) : Q := Qsum (map f p).

Lemma fsum_cons : forall f i p, fsum f (i :: p) == f i + fsum f p.
Proof. intros. unfold fsum. cbn [map]. rewrite Qsum_cons. reflexivity. Qed.

Lemma fsum_ext : forall f g p, (forall i, In i p -> f i == g i) -> fsum f p == fsum g p.
Proof.
  intros f g. induction p as [|i p IH]; intros H; [reflexivity|]. rewrite !fsum_cons.
  rewrite (H i (or_introl eq_refl)), IH; [reflexivity|]. intros j Hj. apply H. right. assumption.
Qed.

(** Prices at most - M with the sum - M K on all paths, for every K that is at least the height. *)
Lemma prices_exist : forall M, 0 < M -> forall t K, distinct_categories t -> (height t <= K)%nat ->
  exists f, (forall i, f i <= - M) /\ forall p, is_path t p -> fsum f p == - M * Qn K.
Proof.
  intros M HM t. induction t as [i ch IH] using rtree_ind'. intros K HD HK.
  destruct K as [|K]; [assert (X := height_pos (Node i ch)); lia|].
  destruct ch as [|c0 ch0].
  - exists (fun j => if Nat.eq_dec j i then - M * Qn (S K) else - M). split.
    + intros j. destruct (Nat.eq_dec j i); [|lra]. rewrite Qn_S. assert (X := Qn_nonneg K). nra.
    + intros p Hp. inversion Hp as [?|? ? c q Hc]; subst; [|destruct Hc]. rewrite fsum_cons. unfold fsum. simpl.
      destruct (Nat.eq_dec i i); [lra|congruence].
  - set (ch := c0 :: ch0) in *. assert (NE : ch <> []) by discriminate. clearbody ch.
    destruct (distinct_inv _ _ HD) as [Hi HDc].
    assert (HH : forall c, In c ch -> (height c <= K)%nat).
    { intros c Hc. assert (X := height_child i ch c Hc). lia. }
    assert (X : exists f, (forall j, f j <= - M) /\ forall c p, In c ch -> is_path c p -> fsum f p == - M * Qn K).
    { clear NE HD Hi HK. induction ch as [|c ch IHc].
      - exists (fun _ => - M). split; [intros; lra|]. intros c p [].
      - inversion IH as [|? ? Ic Ich]; subst. cbn [map concat] in HDc. apply NoDup_app_inv in HDc. destruct HDc as (N1 & N2 & D).
        destruct (IHc Ich N2) as [f [F1 F2]]; [intros; apply HH; right; assumption|].
        destruct (Ic K N1 (HH c (or_introl eq_refl))) as [g [G1 G2]].
        exists (fun j => if in_dec Nat.eq_dec j (node_indices c) then g j else f j). split.
        + intros j. destruct (in_dec _ _ _); auto.
        + intros c' p [<-|Hc'] Hp.
          * rewrite <- (G2 p Hp). apply fsum_ext. intros j Hj. destruct (in_dec _ _ _) as [Y|Y]; [reflexivity|].
            exfalso. apply Y. eapply is_path_indices; eassumption.
          * rewrite <- (F2 c' p Hc' Hp). apply fsum_ext. intros j Hj. destruct (in_dec _ _ _) as [Y|Y]; [|reflexivity].
            exfalso. apply (D j Y). apply in_concat. exists (node_indices c'). split; [apply in_map; assumption|].
            eapply is_path_indices; eassumption. }
    destruct X as [f [F1 F2]]. exists (fun j => if Nat.eq_dec j i then - M else f j). split.
    + intros j. destruct (Nat.eq_dec j i); [lra|auto].
    + intros p Hp. inversion Hp as [?|? ? c q Hc Hq]; subst; [congruence|]. rewrite fsum_cons.
      destruct (Nat.eq_dec i i); [|congruence]. rewrite (fsum_ext _ f).
      * rewrite (F2 c q Hc Hq), Qn_S. ring.
      * intros j Hj. destruct (Nat.eq_dec j i) as [->|]; [|reflexivity]. exfalso. apply Hi. apply in_concat.
        exists (node_indices c). split; [apply in_map; assumption|]. eapply is_path_indices; eassumption.
Qed.

Lemma longest_path : forall t, exists p, is_path t p /\ length p = height t.
Proof.
  intros t. induction t as [i ch IH] using rtree_ind'. destruct ch as [|c0 ch0].
  - exists [i]. split; [constructor|reflexivity].
  - set (ch := c0 :: ch0) in *. assert (NE : ch <> []) by discriminate. clearbody ch. clear c0 ch0.
    assert (X : exists c, In c ch /\ fold_right Nat.max 0%nat (map height ch) = height c).
    { clear IH. induction ch as [|c ch IH]; [congruence|]. cbn [map fold_right]. destruct ch as [|c' ch].
      - exists c. split; [left; reflexivity|]. simpl. lia.
      - destruct IH as [d [Hd E]]; [discriminate|]. rewrite E. destruct (le_lt_dec (height c) (height d)).
        + exists d. split; [right; assumption|lia].
        + exists c. split; [left; reflexivity|lia]. }
    destruct X as [c [Hc E]]. rewrite Forall_forall in IH. destruct (IH c Hc) as [p [Hp L]].
    exists (i :: p). split; [econstructor; eassumption|]. cbn [length height]. rewrite E, L. reflexivity.
Qed.

Lemma fsum_bound : forall f b p, (forall i, In i p -> f i <= b) -> fsum f p <= b * Qn (length p).
Proof.
  intros f b. induction p as [|i p IH]; intros H.
  - unfold fsum. cbn [map length]. rewrite Qn_0. simpl. lra.
  - rewrite fsum_cons. cbn [length]. rewrite Qn_S. assert (X := H i (or_introl eq_refl)).
    assert (Y : fsum f p <= b * Qn (length p)) by (apply IH; intros j Hj; apply H; right; assumption). lra.
Qed.

Lemma paths_sums : forall n t rs p S, setup n t rs -> distinct_categories t -> length p = n ->
  (forall path, is_path t path -> path_sum p path == S) -> equal_sums rs p S.
Proof.
  intros n t rs p S SU HD HL H r Hr.
  destruct (Proof_Tree3.Forall2_In_r _ _ _ _ _ _ (su_recipes _ _ _ SU) Hr) as [path [Hp PR]].
  apply root_leaf_paths_In in Hp. rewrite <- (H path Hp). apply (path_dot n path r p PR HL).
  - eapply path_nodup; eassumption.
  - intros i Hi. assert (R := su_range _ _ _ SU). unfold indices_in_range in R. rewrite Forall_forall in R. apply R.
    eapply is_path_indices; eassumption.
Qed.

Lemma sum_upper : forall M n t rs p S, setup n t rs -> distinct_categories t ->
  initial_prices_ok n rs (- M) p -> equal_sums rs p S -> S <= - M * Qn (height t).
Proof.
  intros M n t rs p' S' SU HD [L' [B' _]] HS'. destruct (longest_path t) as [path [Hp Hl]].
  rewrite <- (sums_paths _ _ _ _ _ SU HD L' HS' path Hp). rewrite <- Hl.
  apply (fsum_bound (fun i => nth i p' 0)). intros i Hi. rewrite Forall_forall in B'. apply B'. apply nth_In.
  rewrite L'. assert (HR := su_range _ _ _ SU). unfold indices_in_range in HR. rewrite Forall_forall in HR. apply HR. eapply is_path_indices; eassumption.
Qed.

Lemma sum_unique : forall n t rs p S S', setup n t rs -> equal_sums rs p S -> equal_sums rs p S' -> S == S'.
Proof.
  intros n t rs p S S' SU A B. destruct rs as [|r rs0]; [exfalso; eapply setup_nonempty; [exact SU|reflexivity]|].
  rewrite <- (A r (or_introl eq_refl)). apply B. left. reflexivity.
Qed.

Lemma optimal_intro : forall M n t rs p, indices_in_range n t -> distinct_categories t -> recipes n t = Ok rs ->
  initial_prices_ok n rs (- M) p -> equal_sums rs p (- M * Qn (height t)) -> initial_prices_optimal n rs (- M) p.
Proof.
  intros M n t rs p HR HD Hrs Hok HS.
  assert (SU : setup n t rs).
  { destruct (recipes_spec _ _ HR) as [rs' [E F]]. rewrite Hrs in E. injection E; intros <-. split; assumption. }
  split; [assumption|]. intros p' S S' Hok' H1 H2. rewrite (sum_unique _ _ _ _ _ _ SU H1 HS). eapply sum_upper; eassumption.
Qed.

Theorem initial_prices_exist : forall M n t rs, 0 < M -> indices_in_range n t -> distinct_categories t ->
  recipes n t = Ok rs ->
  (exists p, initial_prices_optimal n rs (- M) p)
  /\ forall p S, initial_prices_optimal n rs (- M) p -> equal_sums rs p S -> S == - M * Qn (height t).
Proof.
  intros M n t rs HM HR HD Hrs.
  assert (SU : setup n t rs).
  { destruct (recipes_spec _ _ HR) as [rs' [E F]]. rewrite Hrs in E. injection E; intros <-. split; assumption. }
  destruct (prices_exist M HM t (height t) HD (le_n _)) as [f [F1 F2]].
  set (w := map f (seq 0 n)).
  assert (Wn : forall i, (i < n)%nat -> nth i w 0 = f i).
  { intros i Hi. unfold w. rewrite (nth_indep _ 0 (f 0%nat)) by (rewrite map_length, seq_length; assumption).
    rewrite map_nth, seq_nth by assumption. reflexivity. }
  assert (Ws : equal_sums rs w (- M * Qn (height t))).
  { apply (paths_sums n t); try assumption; [unfold w; rewrite map_length, seq_length; reflexivity|].
    intros path Hp. rewrite <- (F2 path Hp). unfold path_sum. apply (fsum_ext (fun i => nth i w 0) f).
    intros i Hi. rewrite Wn; [reflexivity|]. unfold indices_in_range in HR. rewrite Forall_forall in HR. apply HR.
    eapply is_path_indices; eassumption. }
  assert (Wok : initial_prices_ok n rs (- M) w).
  { split; [unfold w; rewrite map_length, seq_length; reflexivity|]. split; [|eexists; exact Ws].
    unfold w. rewrite Forall_map, Forall_forall. intros i _. apply F1. }
  assert (UB : forall p' S', initial_prices_ok n rs (- M) p' -> equal_sums rs p' S' -> S' <= - M * Qn (height t))
    by (intros; eapply sum_upper; eassumption).
  assert (UQ : forall p S S', equal_sums rs p S -> equal_sums rs p S' -> S == S')
    by (intros; eapply sum_unique; eassumption).
  split.
  - exists w. split; [exact Wok|]. intros p' S S' H' HS HS'.
    rewrite (UQ _ _ _ HS Ws). eapply UB; eassumption.
  - intros p S [Hok Hopt] HS. apply Qle_antisym; [eapply UB; eassumption|]. eapply Hopt; [exact Wok|exact HS|exact Ws].
Qed.
