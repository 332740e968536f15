(** * Trade reduction: including_gft_0 only adds traders (C97) *)

From Coq Require Import String List Arith Lia QArith Lqa Permutation Sorted Bool.
From Verif Require Import Base Model_Agents Model_Trade Model_Prices Model_Market Model_TradeReduction Spec_Market Spec_Search.
Import ListNotations.
Open Scope Q_scope.

Lemma sub_bag_refl : forall l, sub_bag l l.
Proof. intros l. exists []. rewrite app_nil_r. apply Permutation_refl. Qed.

Lemma sub_bag_perm : forall l1 l2 l1' l2', sub_bag l1 l2 -> Permutation l1 l1' -> Permutation l2 l2' -> sub_bag l1' l2'.
Proof.
  intros l1 l2 l1' l2' [r H] H1 H2. exists r. eapply perm_trans; [|exact H2]. eapply perm_trans; [|exact H].
  apply Permutation_app_tail. apply Permutation_sym. assumption.
Qed.

Lemma sub_bag_cons : forall v l l', sub_bag l l' -> sub_bag (v :: l) (v :: l').
Proof. intros v l l' [r H]. exists r. simpl. constructor. assumption. Qed.

Lemma sub_bag_skip : forall v l l', sub_bag l l' -> sub_bag l (v :: l').
Proof.
  intros v l l' [r H]. exists (v :: r). eapply perm_trans; [apply Permutation_sym, Permutation_middle|]. constructor. assumption.
Qed.

Lemma append_perm : forall c v, Permutation (v :: cvalues c) (cvalues (append c v)).
Proof.
  intros c v. simpl. eapply perm_trans; [|apply Permutation_sym, sort_desc_perm].
  apply (Permutation_app_comm [v] (cvalues c)).
Qed.

Lemma cats_sub_refl : forall l, cats_sub l l.
Proof. induction l; constructor; [split; [reflexivity|apply sub_bag_refl]|assumption]. Qed.

Lemma append_both : forall l l' i v r r', cats_sub l l' -> append_trader l i v = Ok r -> append_trader l' i v = Ok r' -> cats_sub r r'.
Proof.
  unfold append_trader. intros l l' i v r r' H. revert i r r'.
  induction H as [|c c' l l' [Hn Hs] H IH]; intros i r r' E E'; [destruct i; discriminate|].
  destruct i as [|i].
  - simpl in E, E'. injection E as <-. injection E' as <-. constructor; [|assumption]. split; [assumption|].
    eapply sub_bag_perm; [apply (sub_bag_cons v), Hs|apply append_perm|apply append_perm].
  - unfold get in *. cbn [nth_error] in E, E'.
    destruct (nth_error l i) as [x|] eqn:A; [|discriminate]. destruct (nth_error l' i) as [x'|] eqn:A'; [|discriminate].
    cbn [bind set_nth] in E, E'. injection E as <-. injection E' as <-. constructor; [split; assumption|].
    apply (IH i); [rewrite A; reflexivity|rewrite A'; reflexivity].
Qed.

Lemma append_right : forall l l' i v r', cats_sub l l' -> append_trader l' i v = Ok r' -> cats_sub l r'.
Proof.
  unfold append_trader. intros l l' i v r' H. revert i r'.
  induction H as [|c c' l l' [Hn Hs] H IH]; intros i r' E'; [destruct i; discriminate|].
  destruct i as [|i].
  - simpl in E'. injection E' as <-. constructor; [|assumption]. split; [assumption|].
    eapply sub_bag_perm; [apply (sub_bag_skip v), Hs|apply Permutation_refl|apply append_perm].
  - unfold get in *. cbn [nth_error] in E'. destruct (nth_error l' i) as [x'|] eqn:A'; [|discriminate].
    cbn [bind set_nth] in E'. injection E' as <-. constructor; [split; assumption|].
    apply (IH i). rewrite A'. reflexivity.
Qed.

(** The state with the flag and the state without it. *)
Definition coupled (s s' : tr_state) : Prop :=
  (s = s' /\ tr_prices s = None)
  \/ ((exists p, tr_prices s' = Some p) /\ cats_sub (tr_traders s) (tr_traders s')).

Lemma tr_keep_inv : forall recipe s j v r, tr_keep recipe s j v = Ok r ->
  exists ci, get (pivot_categories recipe) j = Ok ci /\ append_trader (tr_traders s) ci v = Ok (tr_traders r)
    /\ tr_remaining r = tr_remaining s /\ tr_prices r = tr_prices s.
Proof.
  intros recipe s j v r H. unfold tr_keep in H. destruct (get (pivot_categories recipe) j) as [ci| |] eqn:E; try discriminate.
  cbn [bind] in H. destruct (append_trader (tr_traders s) ci v) as [t'| |] eqn:E2; try discriminate. injection H as <-.
  exists ci. auto.
Qed.

Lemma keep_both : forall recipe s s' j v r r', cats_sub (tr_traders s) (tr_traders s') ->
  tr_keep recipe s j v = Ok r -> tr_keep recipe s' j v = Ok r' -> cats_sub (tr_traders r) (tr_traders r').
Proof.
  intros recipe s s' j v r r' H E E'. destruct (tr_keep_inv _ _ _ _ _ E) as (ci & A & B & _). destruct (tr_keep_inv _ _ _ _ _ E') as (ci' & A' & B' & _).
  assert (ci = ci') by congruence. subst. eapply append_both; eassumption.
Qed.

Lemma pivot_coupled : forall recipe ps s s' j r r', coupled s s' ->
  tr_pivot recipe false ps s j = Ok r -> tr_pivot recipe true ps s' j = Ok r' -> coupled r r'.
Proof.
  intros recipe ps s s' j r r' H E E'. unfold tr_pivot in E, E'.
  destruct (get ps j) as [v| |] eqn:G; try discriminate. cbn [bind] in E, E'.
  destruct H as [[<- HN]|[[p HP] HC]].
  - rewrite HN in E, E'. destruct (best_containing_PS (tr_remaining s) (convert_category_index recipe j) v) as [best| |]; try discriminate.
    cbn [bind] in E, E'. set (g := dot best recipe) in *. rewrite andb_false_l, orb_false_r in E. rewrite andb_true_l in E'.
    destruct (Qlt_bool 0 g) eqn:L.
    + rewrite orb_true_l in E'. destruct (calculate_prices (convert_category_index recipe j) v best recipe) as [pr| |]; try discriminate.
      cbn [bind] in E, E'. right. assert (r = r') by congruence. subst r'.
      destruct (tr_keep_inv _ _ _ _ _ E) as (ci & _ & _ & _ & P). split; [exists pr; exact P|apply cats_sub_refl].
    + rewrite orb_false_l in E'. destruct (Qeq_bool g 0).
      * destruct (calculate_prices (convert_category_index recipe j) v best recipe) as [pr| |]; try discriminate.
        cbn [bind] in E'. right. destruct (tr_keep_inv _ _ _ _ _ E') as (ci & _ & A & _ & P). split; [exists pr; exact P|].
        destruct (append_trader (tr_remaining s) (convert_category_index recipe j) v) as [rem'| |]; try discriminate.
        injection E as <-. cbn [tr_traders] in *. eapply append_right; [apply cats_sub_refl|exact A].
      * left. destruct (append_trader (tr_remaining s) (convert_category_index recipe j) v) as [rem'| |]; try discriminate.
        injection E as <-. injection E' as <-. split; reflexivity.
  - rewrite HP in E'. right. destruct (tr_keep_inv _ _ _ _ _ E') as (ci & A & B & _ & P). split; [exists p; congruence|].
    destruct (tr_prices s) as [q|] eqn:Q; [eapply keep_both; eassumption|].
    destruct (best_containing_PS (tr_remaining s) (convert_category_index recipe j) v) as [best| |]; try discriminate. cbn [bind] in E.
    destruct (Qlt_bool 0 (dot best recipe) || false && Qeq_bool (dot best recipe) 0).
    + destruct (calculate_prices (convert_category_index recipe j) v best recipe) as [pr| |]; try discriminate. cbn [bind] in E.
      eapply keep_both; [|exact E|exact E']. exact HC.
    + destruct (append_trader (tr_remaining s) (convert_category_index recipe j) v) as [rem'| |]; try discriminate.
      injection E as <-. cbn [tr_traders]. eapply append_right; eassumption.
Qed.

Lemma fold_coupled : forall A (f f' : tr_state -> A -> result tr_state) l,
  (forall s s' x r r', coupled s s' -> f s x = Ok r -> f' s' x = Ok r' -> coupled r r') ->
  forall s s' r r', coupled s s' -> fold_result f l s = Ok r -> fold_result f' l s' = Ok r' -> coupled r r'.
Proof.
  intros A f f' l H. induction l as [|x l IH]; intros s s' r r' C E E'; cbn [fold_result] in *.
  - congruence.
  - destruct (f s x) as [a| |] eqn:F; try discriminate. destruct (f' s' x) as [a'| |] eqn:F'; try discriminate.
    cbn [bind] in E, E'. eapply IH; [|exact E|exact E']. eapply H; eassumption.
Qed.

Lemma coupled_sub : forall s s', coupled s s' -> cats_sub (tr_traders s) (tr_traders s').
Proof. intros s s' [[<- _]|[_ H]]; [apply cats_sub_refl|assumption]. Qed.

Lemma cats_sub_size : forall l l', cats_sub l l' -> Forall2 (fun c c' => (csize c <= csize c')%nat) l l'.
Proof.
  intros l l' H. induction H as [|c c' l l' [_ [r HP]] H IH]; constructor; [|assumption].
  unfold csize. rewrite <- (Permutation_length HP), app_length. lia.
Qed.

Lemma min_list_mono : forall l l' a a', Forall2 le l l' -> min_list l = Some a -> min_list l' = Some a' -> (a <= a')%nat.
Proof.
  intros l l' a a' H. revert a a'. induction H as [|x x' l l' Hx H IH]; intros a a' E E'; [discriminate|].
  cbn [min_list] in E, E'. destruct H as [|y y' l l' Hy H].
  - simpl in *. injection E as <-. injection E' as <-. assumption.
  - destruct (min_list (y :: l)) as [b|] eqn:B; [|simpl in B; destruct (min_list l); discriminate].
    destruct (min_list (y' :: l')) as [b'|] eqn:B'; [|simpl in B'; destruct (min_list l'); discriminate].
    injection E as <-. injection E' as <-. assert (X := IH b b' eq_refl eq_refl). lia.
Qed.

Lemma potential_mono : forall l l' recipe, Forall2 (fun c c' => (csize c <= csize c')%nat) l l' ->
  Forall2 le (potential_deals l recipe) (potential_deals l' recipe).
Proof.
  intros l l' recipe H. revert recipe. unfold potential_deals.
  induction H as [|c c' l l' Hc H IH]; intros [|r recipe]; cbn [combine filter map snd]; try constructor.
  destruct (Nat.ltb_spec 0 r); cbn [map fst snd]; [|apply IH]. constructor; [|apply IH].
  apply Nat.div_le_mono; lia.
Qed.

Lemma new_trade_mono : forall l l' recipe p p' t t', cats_sub l l' -> new_trade l recipe p = Ok t -> new_trade l' recipe p' = Ok t' ->
  (num_of_deals t <= num_of_deals t')%nat /\ cats_sub (tcats t) (tcats t').
Proof.
  intros l l' recipe p p' t t' H E E'. unfold new_trade in E, E'.
  destruct (min_list (potential_deals l recipe)) as [a|] eqn:A; [|discriminate].
  destruct (min_list (potential_deals l' recipe)) as [a'|] eqn:A'; [|discriminate].
  injection E as <-. injection E' as <-. unfold num_of_deals. cbn [tdeals tcats]. split; [|assumption].
  eapply min_list_mono; [|exact A|exact A']. apply potential_mono, cats_sub_size. assumption.
Qed.

Theorem flag_adds_traders : forall M cap m recipe t t', trade_reduction_M M cap m recipe false = Ok t ->
  trade_reduction_M M cap m recipe true = Ok t' ->
  (num_of_deals t <= num_of_deals t')%nat /\ cats_sub (tcats t) (tcats t').
Proof.
  intros M cap m recipe t t' E E'. unfold trade_reduction_M in E, E'.
  destruct (length recipe =? length m)%nat; [|discriminate].
  destruct (optimal_trade cap m recipe true) as [[deals remaining]| |]; try discriminate. cbn [bind] in E, E'.
  destruct deals as [|d deals].
  { eapply new_trade_mono; [|exact E|exact E']. apply cats_sub_refl. }
  destruct (get_highest_agents remaining recipe) as [h| |]; try discriminate. cbn [bind] in E, E'.
  match type of E with bind ?X _ = _ => destruct X as [[list_ps rem']| |]; try discriminate end. cbn [bind] in E, E'.
  set (s0 := mkTR (add_dummies M rem') (empty_agent_categories m) None) in *.
  destruct (fold_result (tr_ps recipe false) list_ps s0) as [s| |] eqn:F; try discriminate.
  destruct (fold_result (tr_ps recipe true) list_ps s0) as [s'| |] eqn:F'; try discriminate. cbn [bind] in E, E'.
  assert (C : coupled s s').
  { refine (fold_coupled _ _ _ list_ps _ s0 s0 s s' (or_introl (conj eq_refl eq_refl)) F F').
    intros a a' ps r r' C P P'. unfold tr_ps in P, P'. eapply fold_coupled; [|exact C|exact P|exact P'].
    intros. eapply pivot_coupled; eassumption. }
  eapply new_trade_mono; [apply coupled_sub; exact C|exact E|exact E'].
Qed.
