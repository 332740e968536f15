(** * The old multi-buyer auction: the prices are values of agents (C75) *)

From Coq Require Import String List Arith Lia QArith Lqa Bool Permutation.
From Verif Require Import Base Model_Agents Model_Trade Model_Market Model_Prices Model_RecipeTree Model_Ascending Model_Multibuyer
  Spec_Multibuyer Proof_Market Proof_Ascending Proof_TA1 Proof_Om1 Proof_Mb1 Proof_Mb2 Proof_Mb3.
Import ListNotations.
Open Scope Q_scope.

Definition per_unit_below (B : Q) (buyers : list category) (counts : list nat) : Prop :=
  forall i c k v, nth_error buyers i = Some c -> nth_error counts i = Some k -> In v (cvalues c) -> v <= B * Qn k.

Definition pv_below (B C : Q) (pv : price_vector) : Prop :=
  pv_recipe pv = [1; 1]%nat /\ exists a b, pv_prices pv = [a; b] /\ a <= B /\ b <= C.

Lemma inc_below : forall B C pv i v pv', pv_below B C pv -> increase_price_up_to_balance pv i v 0 = Ok pv' ->
  (i = 0%nat /\ v <= B \/ i = 1%nat /\ v <= C) -> pv_below B C pv'.
Proof.
  intros B C [r p st] i v pv' [R (a & b & P & HA & HB)] H Hi. cbn [pv_recipe pv_prices] in R, P. subst r p.
  assert (Q1 : Qn 1 == 1) by reflexivity.
  destruct Hi as [[-> Hv]|[-> Hv]];
    unfold increase_price_up_to_balance, price_sum_without_category, price_sum, get in H; cbn [pv_recipe pv_prices nth_error bind dot] in H;
    destruct (Qle_bool _ _) eqn:E in H; cbn [Nat.eqb] in H; injection H as <-; split; try reflexivity; cbn [pv_prices set_nth];
    do 2 eexists; split; try reflexivity; split; try assumption.
  - apply Qle_bool_iff in E. rewrite Q1 in E |- *. unfold Qdiv. setoid_replace (/ 1) with 1 by reflexivity. lra.
  - apply Qle_bool_iff in E. rewrite Q1 in E |- *. unfold Qdiv. setoid_replace (/ 1) with 1 by reflexivity. lra.
Qed.

Lemma removelast_In : forall (l : list Q) x, In x (removelast l) -> In x l.
Proof.
  induction l as [|a l IH]; intros x H; [destruct H|]. destruct l as [|b l]; [destruct H|].
  cbn [removelast] in H. destruct H as [->|H]; [left; reflexivity|right; apply IH; exact H].
Qed.

Lemma remove_lowest_In : forall c c' v, remove_lowest_agent c = Ok c' -> In v (cvalues c') -> In v (cvalues c).
Proof.
  intros c c' v H Hv. unfold remove_lowest_agent in H. destruct (cvalues c) as [|x l] eqn:E; [discriminate|].
  injection H as <-. apply removelast_In. exact Hv.
Qed.

Lemma lowest_In : forall c v, lowest_agent_value c = Ok v -> In v (cvalues c).
Proof.
  intros c v H. unfold lowest_agent_value in H. destruct (cvalues c) as [|x l]; [discriminate|]. injection H as <-.
  generalize x. induction l as [|y l IH]; intros z; [left; reflexivity|]. right. apply IH.
Qed.

Lemma below_set : forall B buyers counts i c c', per_unit_below B buyers counts -> nth_error buyers i = Some c ->
  remove_lowest_agent c = Ok c' -> per_unit_below B (set_nth i c' buyers) counts.
Proof.
  intros B buyers counts i c c' H Hi Hr j d k v Hj Hk Hv.
  destruct (Nat.eq_dec i j) as [<-|Hne].
  - rewrite set_nth_same in Hj by (apply nth_error_Some; congruence). injection Hj as <-.
    apply (H i c k v Hi Hk). eapply remove_lowest_In; eassumption.
  - rewrite set_nth_other in Hj by assumption. eapply H; eassumption.
Qed.

Lemma per_unit_value : forall B buyers counts lows pu i v, per_unit_below B buyers counts ->
  map_result lowest_agent_value buyers = Ok lows -> map_result value_per_unit (combine lows counts) = Ok pu ->
  get pu i = Ok v -> v <= B.
Proof.
  intros B buyers counts lows pu i v HB HL HP HG. apply get_Ok in HG.
  apply map_result_Forall2 in HL. apply map_result_Forall2 in HP. revert counts pu i HB HP HG.
  induction HL as [|c low buyers lows Hc HL IH]; intros counts pu i HB HP HG; simpl in HP.
  - inversion HP; subst. destruct i; discriminate.
  - destruct counts as [|k counts]; [inversion HP; subst; destruct i; discriminate|].
    inversion HP as [|? q ? pu' Hq HP']; subst. destruct i as [|i]; simpl in HG.
    + injection HG as ->. unfold value_per_unit in Hq. cbn [fst snd] in Hq.
      destruct (Nat.eqb_spec k 0) as [|Hk]; [discriminate|]. injection Hq as <-.
      assert (X : low <= B * Qn k) by (apply (HB 0%nat c k low); [reflexivity|reflexivity|apply lowest_In; exact Hc]).
      assert (Pk : 0 < Qn k) by (apply Qn_pos; lia).
      apply Qle_shift_div_r; assumption.
    + apply (IH counts pu' i); [|assumption|assumption]. intros j d k' w Hj Hk Hw. apply (HB (S j) d k' w Hj Hk Hw).
Qed.

Lemma buyers_below : forall B C counts fuel target buyers pv e b p, per_unit_below B buyers counts -> pv_below B C pv ->
  buyers_loop fuel target counts buyers pv = Ok (e, (b, p)) -> per_unit_below B b counts /\ pv_below B C p.
Proof.
  intros B C counts. induction fuel as [|fuel IH]; intros target buyers pv e b p HB HP H; cbn [buyers_loop] in H; [discriminate|].
  destruct (units_demanded buyers counts =? 0)%nat; [injection H as <- <- <-; auto|].
  destruct (units_demanded buyers counts <=? target)%nat; [injection H as <- <- <-; auto|].
  apply bind_Ok in H. destruct H as [lows [L H]]. apply bind_Ok in H. destruct H as [pu [U H]].
  apply bind_Ok in H. destruct H as [i [_ H]]. apply bind_Ok in H. destruct H as [v [V H]].
  apply bind_Ok in H. destruct H as [p' [P H]]. apply bind_Ok in H. destruct H as [c [G H]].
  apply bind_Ok in H. destruct H as [c' [R H]]. apply get_Ok in G.
  apply (IH _ _ _ _ _ _ (below_set _ _ _ _ _ _ HB G R)) in H; [exact H|].
  apply (inc_below B C _ _ _ _ HP P). left. split; [reflexivity|]. apply (per_unit_value B buyers counts lows pu i v); assumption.
Qed.

Lemma sellers_below : forall B C fuel target seller pv e s p, (forall v, In v (cvalues seller) -> v <= C) -> pv_below B C pv ->
  sellers_loop fuel target seller pv = Ok (e, (s, p)) -> (forall v, In v (cvalues s) -> v <= C) /\ pv_below B C p.
Proof.
  intros B C. induction fuel as [|fuel IH]; intros target seller pv e s p HB HP H; cbn [sellers_loop] in H; [discriminate|].
  destruct (csize seller =? 0)%nat; [injection H as <- <- <-; auto|].
  destruct (csize seller <=? target)%nat; [injection H as <- <- <-; auto|].
  apply bind_Ok in H. destruct H as [v [V H]]. apply bind_Ok in H. destruct H as [p' [P H]].
  apply bind_Ok in H. destruct H as [c' [R H]].
  apply (IH _ _ _ _ _ _) in H; [exact H| |].
  - intros w Hw. apply HB. eapply remove_lowest_In; eassumption.
  - apply (inc_below B C _ _ _ _ HP P). right. split; [reflexivity|]. apply HB. apply lowest_In. exact V.
Qed.

Lemma loop_below : forall B C counts inner fuel target buyers seller pv b s p, per_unit_below B buyers counts ->
  (forall v, In v (cvalues seller) -> v <= C) -> pv_below B C pv ->
  multibuyer_loop fuel inner target counts buyers seller pv = Ok (b, s, p) -> pv_below B C p.
Proof.
  intros B C counts inner. induction fuel as [|fuel IH]; intros target buyers seller pv b s p HB HC HP H; cbn [multibuyer_loop] in H; [discriminate|].
  apply bind_Ok in H. destruct H as [[e [b1 p1]] [E1 H]].
  destruct (buyers_below B C _ _ _ _ _ _ _ _ HB HP E1) as [HB1 HP1].
  destruct e; [injection H as <- <- <-; exact HP1|].
  apply bind_Ok in H. destruct H as [[e [s1 p2]] [E2 H]].
  destruct (sellers_below B C _ _ _ _ _ _ _ HC HP1 E2) as [HC2 HP2].
  destruct e; [injection H as <- <- <-; exact HP2|].
  eapply IH; [| | |exact H]; eassumption.
Qed.

Lemma clone_In : forall m i c, nth_error (clone_market m) i = Some c ->
  exists c0, nth_error m i = Some c0 /\ forall v, In v (cvalues c) -> In v (cvalues c0).
Proof.
  intros m i c H. unfold clone_market in H. rewrite nth_error_map in H. destruct (nth_error m i) as [c0|]; [|discriminate].
  injection H as <-. exists c0. split; [reflexivity|]. intros v Hv. eapply Permutation_in; [apply sort_desc_perm|exact Hv].
Qed.

Lemma nth_error_removelast : forall (l : list category) i c, nth_error (removelast l) i = Some c -> nth_error l i = Some c.
Proof.
  induction l as [|a l IH]; intros i c H; [destruct i; discriminate|]. destruct l as [|b l]; [destruct i; discriminate|].
  cbn [removelast] in H. destruct i as [|i]; [exact H|]. apply IH. exact H.
Qed.

Theorem multibuyer_prices : forall M fuel m rs counts t B C, convert_recipes_to_seller_counts rs (length m) = Ok counts ->
  multibuyer_auction M fuel m rs = Ok t ->
  - M <= B -> - M <= C ->
  (forall i c k v, nth_error m i = Some c -> nth_error counts i = Some k -> In v (cvalues c) -> v <= B * Qn k) ->
  (forall c v, nth_error m (length m - 1) = Some c -> In v (cvalues c) -> v <= C) ->
  exists b s, mb_prices t = map (fun k => b * Qn k) counts ++ [s] /\ b <= B /\ s <= C.
Proof.
  intros M fuel m rs counts t B C HC H HMB HMC HB HS. unfold multibuyer_auction in H. rewrite HC in H. cbn [bind] in H.
  destruct (clone_market m) as [|c0 l] eqn:EM; [discriminate|]. rewrite <- EM in H.
  apply bind_Ok in H. destruct H as [[[b s] p] [E H]].
  assert (L : length (clone_market m) = length m) by (unfold clone_market; apply map_length).
  assert (X : pv_below B C p).
  { eapply loop_below; [| | |exact E].
    - intros i c k v Hi Hk Hv. apply nth_error_removelast in Hi. destruct (clone_In _ _ _ Hi) as (c1 & H1 & H2).
      apply (HB i c1 k v H1 Hk). apply H2. exact Hv.
    - intros v Hv. assert (Hi : nth_error (clone_market m) (length m - 1) = Some (last (clone_market m) c0)).
      { rewrite <- L. rewrite (app_removelast_last c0 (l := clone_market m)) at 1 2 by (rewrite EM; discriminate).
        rewrite app_length. simpl. rewrite nth_error_app2 by lia.
        replace (length (removelast (clone_market m)) + 1 - 1 - length (removelast (clone_market m)))%nat with 0%nat by lia. reflexivity. }
      destruct (clone_In _ _ _ Hi) as (c1 & H1 & H2). apply (HS c1 v H1). apply H2. exact Hv.
    - split; [reflexivity|]. exists (- M), (- M). auto. }
  destruct X as [_ (x & y & P & X1 & X2)]. rewrite P in H. cbn [get nth_error bind] in H. injection H as <-.
  exists x, y. split; [reflexivity|]. auto.
Qed.
