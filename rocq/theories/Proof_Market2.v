(** * Proofs about the Market object itself (C83) *)

From Coq Require Import String List Arith Lia QArith Lqa Permutation Sorted.
From Verif Require Import Base Model_Agents Model_Trade Model_Market Spec_Agents Proof_Agents Spec_Market Spec_Market2 Proof_Market.
Import ListNotations.
Open Scope Q_scope.

Lemma append_joined : forall c v, joined c v (append c v).
Proof.
  intros c v. unfold joined, append. simpl. repeat split.
  - apply sort_desc_desc.
  - eapply perm_trans; [apply sort_desc_perm|]. apply Permutation_sym, Permutation_cons_append.
Qed.

Lemma append_trader_spec : forall m i v,
  (exists c c', nth_error m i = Some c /\ joined c v c'
     /\ append_trader m i v = Ok (set_nth i c' m) /\ nth_error (set_nth i c' m) i = Some c'
     /\ forall j, j <> i -> nth_error (set_nth i c' m) j = nth_error m j)
  \/ ((length m <= i)%nat /\ append_trader m i v = Raise IndexError).
Proof.
  intros m i v. unfold append_trader, get. destruct (nth_error m i) as [c|] eqn:E.
  - left. exists c, (append c v). split; [reflexivity|]. split; [apply append_joined|].
    split; [reflexivity|]. split.
    + apply set_nth_same. apply nth_error_Some. congruence.
    + intros j Hj. apply set_nth_other. congruence.
  - right. split; [apply nth_error_None; exact E|reflexivity].
Qed.

Lemma append_all_spec : forall ps m1 m2, length ps = length m2 ->
  exists m2', append_all (m1 ++ m2) (length m1) ps = Ok (m1 ++ m2') /\ length m2' = length m2
    /\ forall i c v, nth_error m2 i = Some c -> nth_error ps i = Some v ->
         exists c', nth_error m2' i = Some c' /\ joined c v c'.
Proof.
  induction ps as [|v ps IH]; intros m1 m2 H; destruct m2 as [|c m2]; simpl in H; try discriminate.
  - exists []. simpl. repeat split. intros [|i]; discriminate.
  - simpl. unfold append_trader, get. rewrite nth_error_app2, Nat.sub_diag by lia. simpl.
    assert (E : set_nth (length m1) (append c v) (m1 ++ c :: m2) = (m1 ++ [append c v]) ++ m2).
    { clear. induction m1; simpl; [reflexivity|]. rewrite IHm1. reflexivity. }
    rewrite E. destruct (IH (m1 ++ [append c v]) m2) as (m2' & H1 & H2 & H3); [lia|].
    rewrite app_length in H1. simpl in H1. rewrite Nat.add_1_r in H1.
    exists (append c v :: m2'). split.
    + rewrite H1. rewrite <- app_assoc. reflexivity.
    + split; [simpl; congruence|]. intros [|i] c0 v0 Hc Hv; simpl in *.
      * injection Hc as <-. injection Hv as <-. eexists. split; [reflexivity|apply append_joined].
      * apply (H3 i); assumption.
Qed.

Lemma append_PS_spec : forall m ps,
  (length ps = length m /\ exists m', append_PS m ps = Ok m' /\ length m' = length m
     /\ forall i c v, nth_error m i = Some c -> nth_error ps i = Some v ->
          exists c', nth_error m' i = Some c' /\ joined c v c')
  \/ (length ps <> length m /\ append_PS m ps = Raise ValueError).
Proof.
  intros m ps. unfold append_PS. destruct (Nat.eqb_spec (length ps) (length m)) as [E|E].
  - left. split; [exact E|]. destruct (append_all_spec ps [] m E) as (m' & H). exists m'. exact H.
  - right. auto.
Qed.

Lemma has_empty_spec : forall m,
  has_empty_category m = true <-> exists c, In c m /\ cvalues c = [].
Proof.
  intros m. unfold has_empty_category. rewrite existsb_exists. split; intros [c [H1 H2]]; exists c; split; auto.
  - apply Nat.eqb_eq in H2. unfold csize in H2. destruct (cvalues c); [reflexivity|discriminate].
  - apply Nat.eqb_eq. unfold csize. rewrite H2. reflexivity.
Qed.

Lemma new_market_spec : forall cats,
  (cats = [] /\ new_market cats = Raise ValueError) \/ (cats <> [] /\ new_market cats = Ok cats).
Proof. intros [|c cats]; [left|right]; split; try reflexivity; discriminate. Qed.

(** The best deal of the recipe of ones, taken out and put back. *)
Lemma highest_ones : forall m, (exists c, In c m /\ cvalues c = []) \/
  exists ps m', get_highest_agents m (repeat 1%nat (length m)) = Ok (Some ps)
    /\ market_remove_highest m (repeat 1%nat (length m)) = Ok m'
    /\ Forall2 (fun c p => cvalues c = fst p :: cvalues (snd p) /\ cname c = cname (snd p)) m (combine ps m')
    /\ length ps = length m /\ length m' = length m.
Proof.
  induction m as [|c m IH]; [right; exists [], []; repeat split; constructor|].
  destruct (cvalues c) as [|v l] eqn:E; [left; exists c; split; [left; reflexivity|exact E]|].
  destruct IH as [[c0 [H1 H2]]|(ps & m' & H1 & H2 & H3 & H4 & H5)].
  - left. exists c0. split; [right; exact H1|exact H2].
  - right. simpl repeat. cbn [get_highest_agents market_remove_highest].
    unfold csize. rewrite E. cbn [length Nat.ltb Nat.leb].
    rewrite H1, remove_highest_agents_spec. unfold csize. rewrite E. cbn [length Nat.ltb Nat.leb bind].
    rewrite H2. cbn [bind skipn]. unfold highest_agent_values. rewrite E. cbn [firstn app].
    exists (v :: ps), (mkCat (cname c) l :: m'). repeat split; try (simpl; congruence).
    simpl. constructor; [|exact H3]. simpl. auto.
Qed.

Lemma joined_back : forall c v c1 c2, desc (cvalues c) -> cvalues c = v :: cvalues c1 -> cname c = cname c1 ->
  joined c1 v c2 -> same_category c2 c.
Proof.
  intros c v c1 c2 Hd Hv Hn (N & D & P). split; [congruence|].
  apply desc_perm_eq; auto. rewrite Hv. exact P.
Qed.

Lemma put_back : forall m ps m', sorted_market m ->
  get_highest_agents m (repeat 1%nat (length m)) = Ok (Some ps) ->
  market_remove_highest m (repeat 1%nat (length m)) = Ok m' ->
  exists m'', append_PS m' ps = Ok m'' /\ Forall2 same_category m'' m.
Proof.
  intros m ps m' Hs H1 H2.
  destruct (highest_ones m) as [[c [Hc He]]|(ps0 & m0 & A1 & A2 & A3 & A4 & A5)].
  - exfalso. clear -H2 Hc He. revert m' H2. induction m as [|a m IH]; [contradiction|].
    intros m' H2. cbn [length repeat market_remove_highest] in H2.
    apply bind_Ok in H2. destruct H2 as [c' [B1 B2]]. apply bind_Ok in B2. destruct B2 as [r [B2 _]].
    destruct Hc as [<-|Hc].
    + rewrite remove_highest_agents_spec in B1. unfold csize in B1. rewrite He in B1. discriminate.
    + eapply IH; eassumption.
  - rewrite A1 in H1. rewrite A2 in H2. injection H1 as <-. injection H2 as <-.
    destruct (append_PS_spec m0 ps0) as [[E (m'' & B1 & B2 & B3)]|[E _]]; [|congruence].
    exists m''. split; [exact B1|].
    assert (G : forall i c, nth_error m i = Some c ->
              exists c', nth_error m'' i = Some c' /\ same_category c' c).
    { intros i c Hi. assert (Hl : (i < length m)%nat) by (apply nth_error_Some; congruence).
      destruct (nth_error m0 i) as [c0|] eqn:E0; [|apply nth_error_None in E0; lia].
      destruct (nth_error ps0 i) as [v|] eqn:Ev; [|apply nth_error_None in Ev; lia].
      destruct (B3 i c0 v E0 Ev) as (c' & C1 & C2). exists c'. split; [exact C1|].
      assert (F : cvalues c = v :: cvalues c0 /\ cname c = cname c0).
      { clear -A3 Hi E0 Ev. revert ps0 m0 A3 i c Hi c0 E0 v Ev.
        induction m as [|a m IH]; intros ps0 m0 A3 i c Hi c0 E0 v Ev; [destruct i; discriminate|].
        destruct ps0 as [|q ps0]; [destruct i; discriminate|]. destruct m0 as [|b m0]; [destruct i; discriminate|].
        simpl in A3. inversion A3; subst. destruct i as [|i]; simpl in *.
        - injection Hi as <-. injection E0 as <-. injection Ev as <-. simpl in *. assumption.
        - eapply IH; eassumption. }
      destruct F as [F1 F2]. eapply joined_back; [|exact F1|exact F2|exact C2].
      eapply sorted_market_nth; eassumption. }
    assert (L : length m'' = length m) by congruence. clear -G L. revert m L G.
    induction m'' as [|a m'' IH]; intros [|b m] L G; try discriminate; constructor.
    + destruct (G 0%nat b eq_refl) as (c' & C1 & C2). simpl in C1. injection C1 as <-. exact C2.
    + apply IH; [simpl in L; lia|]. intros i c Hi. apply (G (S i) c Hi).
Qed.

(** A category without agents that the recipe needs: no deals. *)
Lemma empty_no_deals : forall cap m recipe z, length recipe = length m ->
  (forall r, In r recipe -> (0 < r)%nat) -> has_empty_category m = true ->
  exists rem, optimal_trade cap m recipe z = Ok ([], rem) /\ rem = clone_market m.
Proof.
  intros cap m recipe z HL Hr He. apply has_empty_spec in He. destruct He as [c [Hc He]].
  exists (clone_market m). split; [|reflexivity].
  unfold optimal_trade. rewrite HL, Nat.eqb_refl.
  assert (G : get_highest_agents (clone_market m) recipe = Ok None).
  { clear cap z. revert m HL Hc. induction recipe as [|r recipe IH]; intros [|a m] HL Hc; try discriminate; [contradiction|].
    cbn [clone_market map get_highest_agents].
    destruct (csize (clone a) <? r)%nat eqn:E; [reflexivity|].
    destruct Hc as [<-|Hc].
    - exfalso. apply Nat.ltb_ge in E. unfold clone, new_category, csize in E. simpl in E. rewrite He in E. simpl in E.
      pose proof (Hr r (or_introl eq_refl)). lia.
    - fold (clone_market m). rewrite IH; auto. intros x Hx. apply Hr. right. exact Hx. }
  destruct cap as [|cap]; cbn [optimal_loop]; [reflexivity|]. rewrite G. cbn [bind fst snd]. reflexivity.
Qed.
