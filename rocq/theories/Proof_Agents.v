From Coq Require Import String List Arith Lia QArith Lqa Permutation Sorted.
From Verif Require Import Base Model_Agents Spec_Agents.
Import ListNotations.
Open Scope Q_scope.

Lemma remove_highest_agents_spec : forall n c,
  remove_highest_agents c n =
  if (csize c <? n)%nat then Raise IndexError else Ok (mkCat (cname c) (skipn n (cvalues c))).
Proof.
  induction n; intros [nm vs]; simpl.
  - reflexivity.
  - unfold remove_highest_agent, csize. simpl. destruct vs as [|v vs]; simpl; [reflexivity|].
    rewrite IHn. unfold csize. simpl.
    change (S (length vs) <? S n)%nat with (length vs <? n)%nat. reflexivity.
Qed.

Lemma remove_lowest_spec : forall c, cvalues c <> [] ->
  remove_lowest_agent c = Ok (mkCat (cname c) (removelast (cvalues c))).
Proof. intros [n [|v l]] H; simpl in *; [congruence|reflexivity]. Qed.

Lemma lowest_spec : forall c, cvalues c <> [] ->
  lowest_agent_value c = Ok (last (cvalues c) 0).
Proof. intros [n [|v l]] H; simpl in *; [congruence|reflexivity]. Qed.

Lemma desc_removelast : forall l, desc l -> desc (removelast l).
Proof.
  intros l H. destruct l as [|a l]; [constructor|].
  rewrite (app_removelast_last 0) in H by discriminate.
  apply desc_app_inv in H. tauto.
Qed.

Lemma desc_last_min : forall l x, desc l -> In x l -> last l 0 <= x.
Proof.
  intros l x H Hx. destruct l as [|a l]; [destruct Hx|].
  rewrite (app_removelast_last 0) in H, Hx by discriminate.
  apply desc_app_inv in H. destruct H as [_ [_ H]].
  apply in_app_or in Hx. destruct Hx as [Hx|Hx].
  - apply H; [assumption|left; reflexivity].
  - destruct Hx as [<-|[]]. lra.
Qed.

Lemma perform_desc : forall c o c', desc (cvalues c) -> perform c o = Ok c' -> desc (cvalues c').
Proof.
  intros [n vs] o c' Hd H. destruct o; simpl in H.
  - inversion H; subst. apply sort_desc_desc.
  - inversion H; subst. apply sort_desc_desc.
  - unfold remove_highest_agent in H. simpl in *. destruct vs; inversion H; subst. simpl.
    apply desc_inv in Hd. tauto.
  - rewrite remove_highest_agents_spec in H. destruct (_ <? _)%nat; inversion H; subst. simpl.
    apply desc_skipn. assumption.
  - destruct vs as [|v vs]; [discriminate|].
    rewrite remove_lowest_spec in H by discriminate. inversion H; subst. simpl.
    apply (desc_removelast (v :: vs)). assumption.
  - inversion H; subst. apply sort_desc_desc.
Qed.

Lemma perform_bag : forall c o c', desc (cvalues c) -> perform c o = Ok c' ->
  bag_step (cvalues c) o (cvalues c').
Proof.
  intros [n vs] o c' Hd H. destruct o; simpl in H.
  - inversion H; subst. constructor. simpl.
    eapply perm_trans; [apply sort_desc_perm|]. apply Permutation_sym, Permutation_cons_append.
  - inversion H; subst. constructor. simpl.
    eapply perm_trans; [apply sort_desc_perm|]. apply Permutation_app_comm.
  - unfold remove_highest_agent in H. simpl in *. destruct vs as [|v vs]; inversion H; subst. simpl.
    apply BS_highest with (v := v); [apply Permutation_refl|].
    apply desc_inv in Hd. destruct Hd as [_ Hd]. rewrite Forall_forall in Hd.
    intros x [<-|Hx]; [lra|auto].
  - rewrite remove_highest_agents_spec in H. unfold csize in H. simpl in *.
    destruct (Nat.ltb_spec (length vs) n0) as [Hlt|Hge]; inversion H; subst. simpl.
    replace n0 with (length (firstn n0 vs)) at 1 by (rewrite firstn_length; lia).
    constructor.
    + rewrite firstn_skipn. apply Permutation_refl.
    + intros x y Hx Hy. eapply desc_firstn_skipn; eassumption.
  - destruct vs as [|v vs]; [discriminate|].
    rewrite remove_lowest_spec in H by discriminate. inversion H; subst. cbn [cvalues].
    apply BS_lowest with (v := last (v :: vs) 0).
    + rewrite (app_removelast_last 0 (l := v :: vs)) at 1 by discriminate.
      apply Permutation_sym, Permutation_cons_append.
    + intros x Hx. apply desc_last_min; assumption.
  - inversion H; subst. constructor. simpl. apply sort_desc_perm.
Qed.

Lemma perform_all_history : forall ops c c', desc (cvalues c) -> perform_all c ops = Ok c' ->
  desc (cvalues c') /\ bag_history (cvalues c) ops (cvalues c').
Proof.
  induction ops as [|o ops IH]; simpl; intros c c' Hd H.
  - inversion H; subst. split; [assumption|]. constructor. apply Permutation_refl.
  - apply bind_Ok in H. destruct H as [c1 [H1 H2]].
    assert (Hd1 := perform_desc _ _ _ Hd H1).
    destruct (IH _ _ Hd1 H2) as [H3 H4]. split; [assumption|].
    econstructor; [apply perform_bag; eassumption|assumption].
Qed.

Lemma bag_step_perm : forall a b o c, Permutation a b -> bag_step a o c -> bag_step b o c.
Proof.
  intros a b o c Hp H. inversion H; subst.
  - constructor. eapply perm_trans; [eassumption|]. apply perm_skip. assumption.
  - constructor. eapply perm_trans; [eassumption|]. apply Permutation_app_head. assumption.
  - apply BS_highest with (v := v).
    + eapply perm_trans; [apply Permutation_sym; eassumption|assumption].
    + intros x Hx. apply H1. eapply Permutation_in; [apply Permutation_sym; exact Hp|assumption].
  - constructor; [|assumption].
    eapply perm_trans; [apply Permutation_sym; eassumption|assumption].
  - apply BS_lowest with (v := v).
    + eapply perm_trans; [apply Permutation_sym; eassumption|assumption].
    + intros x Hx. apply H1. eapply Permutation_in; [apply Permutation_sym; exact Hp|assumption].
  - constructor. eapply perm_trans; eassumption.
Qed.

Lemma history_from_init : forall name init ops c,
  perform_all (new_category name init) ops = Ok c ->
  desc (cvalues c) /\ bag_history init ops (cvalues c).
Proof.
  intros name init ops c H.
  destruct (perform_all_history ops (new_category name init) c) as [H1 H2];
    [apply sort_desc_desc|assumption|].
  split; [assumption|]. simpl in H2.
  inversion H2; subst.
  - constructor. eapply perm_trans; [apply Permutation_sym, sort_desc_perm|assumption].
  - econstructor; [|eassumption]. eapply bag_step_perm; [apply sort_desc_perm|eassumption].
Qed.

Lemma reachable_desc : forall c, reachable_category c -> desc (cvalues c).
Proof. intros c [n [i [ops H]]]. apply history_from_init in H. tauto. Qed.

Lemma perform_raises : forall c o,
  (forall e, perform c o = Raise e <-> e = IndexError /\ (csize c < removed_count o)%nat)
  /\ perform c o <> Timeout.
Proof.
  intros [n vs] o. unfold csize. simpl. destruct o; simpl.
  - split; [|discriminate]. intros e; split; [discriminate|lia].
  - split; [|discriminate]. intros e; split; [discriminate|lia].
  - unfold remove_highest_agent. simpl. destruct vs; simpl; split; try discriminate; intros e; split.
    + intros H; inversion H; split; [reflexivity|lia].
    + intros [-> _]; reflexivity.
    + discriminate.
    + lia.
  - rewrite remove_highest_agents_spec. unfold csize. simpl.
    destruct (Nat.ltb_spec (length vs) n0); split; try discriminate; intros e; split.
    + intros H0; inversion H0; auto.
    + intros [-> _]; reflexivity.
    + discriminate.
    + lia.
  - destruct vs; simpl; split; try discriminate; intros e; split.
    + intros H; inversion H; split; [reflexivity|lia].
    + intros [-> _]; reflexivity.
    + discriminate.
    + lia.
  - split; [|discriminate]. intros e; split; [discriminate|lia].
Qed.

Lemma highest_is_max : forall c v, desc (cvalues c) -> highest_agent_value c = Ok v ->
  In v (cvalues c) /\ forall x, In x (cvalues c) -> x <= v.
Proof.
  intros [n [|a l]] v Hd H; inversion H; subst; simpl in *.
  split; [left; reflexivity|]. apply desc_inv in Hd. destruct Hd as [_ Hd].
  rewrite Forall_forall in Hd. intros x [<-|Hx]; [lra|auto].
Qed.

Lemma lowest_is_min : forall c v, desc (cvalues c) -> lowest_agent_value c = Ok v ->
  In v (cvalues c) /\ forall x, In x (cvalues c) -> v <= x.
Proof.
  intros [n [|a l]] v Hd H; [discriminate|].
  rewrite lowest_spec in H by discriminate. inversion H; subst. clear H.
  cbn [cvalues] in *. split.
  - assert (E : In (last (a :: l) 0) (removelast (a :: l) ++ [last (a :: l) 0])).
    { apply in_or_app. right. left. reflexivity. }
    rewrite <- app_removelast_last in E by discriminate. exact E.
  - intros x Hx. exact (desc_last_min (a :: l) x Hd Hx).
Qed.

Lemma highest_k : forall c k, desc (cvalues c) ->
  exists rest, Permutation (cvalues c) (highest_agent_values c k ++ rest)
    /\ length (highest_agent_values c k) = Nat.min k (csize c)
    /\ forall x y, In x (highest_agent_values c k) -> In y rest -> y <= x.
Proof.
  intros c k Hd. exists (skipn k (cvalues c)). unfold highest_agent_values, csize.
  rewrite firstn_skipn, firstn_length. repeat split; auto.
  intros x y Hx Hy. eapply desc_firstn_skipn; eassumption.
Qed.

Lemma query_raises : forall c e,
  (highest_agent_value c = Raise e <-> e = IndexError /\ cvalues c = [])
  /\ (lowest_agent_value c = Raise e <-> e = IndexError /\ cvalues c = []).
Proof.
  intros [n [|a l]] e; simpl; split; split; intro H; try discriminate.
  - inversion H; auto.
  - destruct H as [-> _]; reflexivity.
  - inversion H; auto.
  - destruct H as [-> _]; reflexivity.
  - destruct H; discriminate.
  - destruct H; discriminate.
Qed.
