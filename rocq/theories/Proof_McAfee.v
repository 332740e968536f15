(** * McAfee's trade reduction: a closed description of the result *)

From Coq Require Import String List Arith Lia QArith Lqa Qabs Permutation Sorted Bool.
From Verif Require Import Base Model_Agents Model_Trade Model_Prices Model_Market Model_TradeReduction Model_McAfee
  Spec_Market Spec_Trade Spec_Ascending Spec_TradeReduction Proof_Market Proof_Trade Proof_Ascending Proof_Ascending2 Proof_Deals
  Proof_TR2.
Import ListNotations.
Open Scope Q_scope.

(** Row [t] of a market: the t-th best agent of every category, [d] where there is none. *)
Definition row (d : Q) (m : market) (t : nat) : list Q := map (fun c => nth t (cvalues c) d) m.

Lemma ones_inv : forall recipe, forallb (fun r => r =? 1)%nat recipe = true -> all_ones recipe.
Proof.
  intros recipe H. unfold all_ones. rewrite Forall_forall. rewrite forallb_forall in H. intros r Hr.
  apply Nat.eqb_eq. auto.
Qed.

Lemma ones_forallb : forall recipe, all_ones recipe -> forallb (fun r => r =? 1)%nat recipe = true.
Proof.
  intros recipe H. apply forallb_forall. intros r Hr. unfold all_ones in H. rewrite Forall_forall in H.
  apply Nat.eqb_eq. auto.
Qed.

Lemma firstn1 : forall (l : list Q) d, (0 < length l)%nat -> firstn 1 l = [nth 0 l d].
Proof. intros [|a l] d H; simpl in *; [lia|reflexivity]. Qed.

Lemma nth_skipn0 : forall (l : list Q) k d, nth 0 (skipn k l) d = nth k l d.
Proof. intros l k. revert l. induction k; intros [|a l] d; simpl; auto. Qed.

Lemma ps_row : forall d m recipe t, all_ones recipe -> length recipe = length m -> enough (S t) m recipe ->
  concat (ps_deal m recipe t) = row d m t.
Proof.
  intros d m. unfold ps_deal, row. induction m as [|c m IH]; intros [|r recipe] t H1 Hl He; simpl in Hl; try discriminate; [reflexivity|].
  inversion H1; subst. cbn [map2 concat map].
  rewrite (IH recipe t); [|assumption|lia|intros i c' r' Hc Hr; apply (He (S i) c' r' Hc Hr)].
  assert (Hc := He 0%nat c 1%nat eq_refl eq_refl). unfold csize in Hc.
  unfold block. rewrite Nat.mul_1_r. rewrite (firstn1 _ d) by (rewrite skipn_length; lia).
  rewrite nth_skipn0. reflexivity.
Qed.

Lemma nonempty_highest : forall m recipe, all_ones recipe -> length recipe = length m ->
  Forall (fun c => cvalues c <> []) m -> enough 1 m recipe.
Proof.
  intros m recipe H1 Hl Hne i c r Hc Hr. assert (r = 1%nat).
  { unfold all_ones in H1. rewrite Forall_forall in H1. apply H1. eapply nth_error_In; eassumption. }
  subst r. rewrite Forall_forall in Hne. specialize (Hne c (nth_error_In _ _ Hc)). unfold csize.
  destruct (cvalues c); [congruence|simpl; lia].
Qed.

(** The agents that compete with the optimal trade, with the dummy -M where there are none. *)
Lemma next_row : forall M m recipe k, all_ones recipe -> length recipe = length m ->
  get_highest_agents (add_dummies M (drop_ps k m recipe)) recipe = Ok (Some (row (- M) m k)).
Proof.
  intros M m recipe k H1 Hl. set (m1 := add_dummies M (drop_ps k m recipe)).
  assert (L1 : length recipe = length m1).
  { unfold m1, add_dummies. rewrite map_length, drop_length; assumption. }
  assert (Hne : Forall (fun c => cvalues c <> []) m1).
  { unfold m1, add_dummies. apply Forall_forall. intros c Hc. apply in_map_iff in Hc. destruct Hc as [c0 [<- _]].
    unfold csize. destruct (cvalues c0) as [|a l] eqn:E; simpl; [|rewrite E; discriminate].
    unfold append. rewrite E. simpl. discriminate. }
  assert (He := nonempty_highest m1 recipe H1 L1 Hne).
  destruct (get_highest_spec m1 recipe L1) as [G _]. rewrite (G He). do 2 f_equal.
  rewrite (ps_row (- M) m1 recipe 0 H1 L1 He). unfold m1, row, add_dummies, drop_ps.
  rewrite map_map. clear - H1 Hl. revert m Hl. induction recipe as [|r recipe IH]; intros [|c m] Hl; simpl in Hl; try discriminate; [reflexivity|].
  inversion H1; subst. cbn [map2 map]. f_equal; [|apply IH; [assumption|lia]].
  unfold csize. simpl. rewrite Nat.mul_1_r. destruct (skipn k (cvalues c)) as [|a l] eqn:E.
  - simpl. unfold append. simpl. assert (length (cvalues c) <= k)%nat.
    { assert (X := skipn_length k (cvalues c)). rewrite E in X. simpl in X. lia. }
    rewrite nth_overflow by assumption. reflexivity.
  - simpl. rewrite <- (nth_skipn0 (cvalues c) k (- M)), E. reflexivity.
Qed.

(** ** The traders *)

Lemma map2_append_length : forall (tr : list category) ps, length ps = length tr -> length (map2 append tr ps) = length tr.
Proof. intros. apply map2_length. auto. Qed.

Lemma mcafee_add_from : forall ps pre done tr, length ps = length tr -> length done = length pre ->
  mcafee_add_ps (length pre) (length ps) (pre ++ ps) (done ++ tr) = Ok (done ++ map2 append tr ps).
Proof.
  induction ps as [|v ps IH]; intros pre done [|c tr] Hl Hd; simpl in Hl; try discriminate; [reflexivity|].
  cbn [length mcafee_add_ps].
  assert (G : get (pre ++ v :: ps) (length pre) = Ok v).
  { apply get_Ok. rewrite nth_error_app2 by lia. rewrite Nat.sub_diag. reflexivity. }
  rewrite G. cbn [bind]. unfold append_trader.
  assert (G2 : get (done ++ c :: tr) (length pre) = Ok c).
  { apply get_Ok. rewrite nth_error_app2 by lia. rewrite Hd, Nat.sub_diag. reflexivity. }
  rewrite G2. cbn [bind].
  assert (G3 : set_nth (length pre) (append c v) (done ++ c :: tr) = (done ++ [append c v]) ++ tr).
  { rewrite <- Hd. clear. induction done; simpl; [reflexivity|]. f_equal. assumption. }
  rewrite G3. specialize (IH (pre ++ [v]) (done ++ [append c v]) tr ltac:(lia)).
  rewrite !app_length in IH. cbn [length] in IH. rewrite !Nat.add_1_r in IH.
  replace (pre ++ v :: ps) with ((pre ++ [v]) ++ ps) by (rewrite <- app_assoc; reflexivity).
  rewrite IH by lia. cbn [map2]. rewrite <- app_assoc. reflexivity.
Qed.

Lemma mcafee_add_spec : forall ps tr, length ps = length tr ->
  mcafee_add_ps 0 (length tr) ps tr = Ok (map2 append tr ps).
Proof. intros ps tr H. rewrite <- H. apply (mcafee_add_from ps [] [] tr H eq_refl). Qed.

Lemma traders_fold : forall n pss tr, Forall (fun ps => length ps = n) pss -> length tr = n ->
  (forall c, In c tr -> desc (cvalues c)) ->
  exists tr', fold_result (fun t ps => mcafee_add_ps 0 n ps t) pss tr = Ok tr'
    /\ length tr' = n /\ map cname tr' = map cname tr
    /\ forall i, (i < n)%nat -> desc (cvalues (nth i tr' dcat))
         /\ Permutation (cvalues (nth i tr' dcat)) (cvalues (nth i tr dcat) ++ map (fun ps => nth i ps 0) pss).
Proof.
  intros n. induction pss as [|ps pss IH]; intros tr Hps Htr Hd.
  - exists tr. split; [reflexivity|]. split; [assumption|]. split; [reflexivity|]. intros i Hi.
    split; [apply Hd, nth_In; lia|]. simpl. rewrite app_nil_r. apply Permutation_refl.
  - inversion Hps as [|? ? Hlen Hps']; subst. cbn [fold_result]. rewrite mcafee_add_spec by assumption. cbn [bind].
    destruct (IH (map2 append tr ps) Hps') as [tr' [E [L [N H]]]].
    + apply map2_append_length. assumption.
    + intros c Hc. apply In_nth_error in Hc. destruct Hc as [i Hi]. apply map2_nth_error_inv in Hi.
      destruct Hi as [a [b [_ [_ ->]]]]. apply sort_desc_desc.
    + exists tr'. split; [assumption|]. split; [assumption|]. split.
      * rewrite N. rewrite map_map2. clear - Hlen. revert ps Hlen. induction tr as [|c tr IH]; intros [|p ps] Hlen; simpl in *; try discriminate; [reflexivity|].
        f_equal. apply IH. lia.
      * intros i Hi. destruct (H i Hi) as [H1 H2]. split; [assumption|].
        eapply perm_trans; [exact H2|].
        assert (X : nth i (map2 append tr ps) dcat = append (nth i tr dcat) (nth i ps 0)).
        { apply nth_error_nth. apply (map2_nth_error _ _ _ append); apply nth_error_nth'; lia. }
        rewrite X. simpl. eapply perm_trans; [apply Permutation_app_tail, sort_desc_perm|].
        rewrite <- app_assoc. apply Permutation_refl.
Qed.

Lemma col_nth : forall m i t, (i < length m)%nat -> nth i (row 0 m t) 0 = nth t (cvalues (nth i m dcat)) 0.
Proof.
  intros m i t H. unfold row. rewrite (nth_indep _ 0 ((fun c => nth t (cvalues c) 0) dcat)) by (rewrite map_length; assumption).
  apply (map_nth (fun c => nth t (cvalues c) 0)).
Qed.

Lemma firstn_seq : forall (l : list Q) k, (k <= length l)%nat -> map (fun t => nth t l 0) (seq 0 k) = firstn k l.
Proof.
  intros l k. revert l. induction k; intros [|a l] H; simpl in *; try lia; auto.
  f_equal. rewrite <- seq_shift, map_map. apply IHk. lia.
Qed.

Lemma Forall2_rev_qeq : forall A B (R : A -> B -> Prop) l l', Forall2 R l l' -> Forall2 R (rev l) (rev l').
Proof. intros A B R l l' H. induction H; simpl; [constructor|]. apply Forall2_app; [assumption|]. constructor; [assumption|constructor]. Qed.

Lemma Forall2_map_qeq : forall i l l', Forall2 qeq l l' -> qeq (map (fun ps => nth i ps 0) l) (map (fun ps => nth i ps 0) l').
Proof. intros i l l' H. induction H; simpl; constructor; [|assumption]. apply qeq_nth. assumption. Qed.

(** A list of deals that are, up to order and ==, the first [d] rows gives the [d] best agents. *)
Lemma traders_best : forall m d pss, sorted_market m -> (forall c, In c m -> (d <= csize c)%nat) ->
  Forall2 qeq pss (rev (map (row 0 m) (seq 0 d))) ->
  exists tr, fold_result (fun t ps => mcafee_add_ps 0 (length m) ps t) pss (empty_agent_categories m) = Ok tr
    /\ length tr = length m
    /\ forall i, (i < length m)%nat -> cname (nth i tr dcat) = cname (nth i m dcat)
         /\ desc (cvalues (nth i tr dcat))
         /\ qeq (cvalues (nth i tr dcat)) (firstn d (cvalues (nth i m dcat))).
Proof.
  intros m d pss Hs He Hp.
  destruct (traders_fold (length m) pss (empty_agent_categories m)) as [tr [E [L [N H]]]].
  - assert (X : Forall (fun ps => length ps = length m) (rev (map (row 0 m) (seq 0 d)))).
    { apply Forall_rev. apply Forall_forall. intros ps Hps. apply in_map_iff in Hps. destruct Hps as [t [<- _]].
      unfold row. apply map_length. }
    clear - Hp X. induction Hp; constructor; inversion X; subst; auto. rewrite (qeq_length _ _ H). assumption.
  - unfold empty_agent_categories. apply map_length.
  - intros c Hc. unfold empty_agent_categories in Hc. apply in_map_iff in Hc. destruct Hc as [c0 [<- _]]. apply sort_desc_desc.
  - exists tr. split; [assumption|]. split; [assumption|]. intros i Hi. destruct (H i Hi) as [H1 H2]. split; [|split; [assumption|]].
    + transitivity (nth i (map cname tr) ""%string).
      * change ""%string with (cname dcat). symmetry. apply map_nth.
      * rewrite N. unfold empty_agent_categories. rewrite map_map. cbn.
        change ""%string with (cname dcat). apply (map_nth (fun c => cname c)).
    + assert (Hin : In (nth i m dcat) m) by (apply nth_In; assumption).
      eapply desc_qeq.
      * assumption.
      * apply desc_firstn. unfold sorted_market in Hs. rewrite Forall_forall in Hs. auto.
      * eapply perm_trans; [exact H2|].
        assert (X : cvalues (nth i (empty_agent_categories m) dcat) = []).
        { unfold empty_agent_categories. rewrite (nth_indep _ dcat ((fun c => new_category (cname c) []) dcat)) by (rewrite map_length; assumption).
          rewrite (map_nth (fun c => new_category (cname c) [])). reflexivity. }
        rewrite X. simpl. apply Permutation_rev.
      * assert (Y := Forall2_map_qeq i _ _ Hp). rewrite map_rev in Y.
        apply Forall2_rev_qeq in Y. rewrite rev_involutive in Y.
        eapply qeq_trans; [exact Y|]. rewrite map_map.
        rewrite (map_ext _ (fun t => nth t (cvalues (nth i m dcat)) 0)) by (intros t; apply col_nth; assumption).
        rewrite firstn_seq; [apply qeq_refl|]. apply (He _ Hin).
Qed.

(** ** The whole function *)

Definition candidate (M : Q) (m : market) (k : nat) : Q :=
  Qsum (map Qabs (row (- M) m k)) / Qn (length m).

Definition accepted (M : Q) (m : market) (k : nat) (heuristic : bool) (lp : list Q) : bool :=
  heuristic && is_price_good_for_ps (candidate M m k) lp.

Lemma ones_deals : forall cats recipe prices d, all_ones recipe -> length cats = length recipe -> cats <> [] ->
  (forall c, In c cats -> csize c = d) -> new_trade cats recipe prices = Ok (mkTrade cats recipe prices d).
Proof.
  intros cats recipe prices d H1 Hl Hne Hd. unfold new_trade.
  assert (X : potential_deals cats recipe = repeat d (length cats)).
  { unfold potential_deals. revert recipe H1 Hl. clear Hne. induction cats as [|c cats IH]; intros [|r recipe] H1 Hl; simpl in Hl; try discriminate; [reflexivity|].
    inversion H1; subst. cbn [combine filter snd Nat.ltb Nat.leb map fst length repeat]. f_equal.
    - rewrite Hd by (left; reflexivity). apply Nat.div_1_r.
    - apply IH; [intros c' Hc'; apply Hd; right; assumption|assumption|lia]. }
  rewrite X. destruct cats as [|c cats]; [congruence|]. clear.
  assert (Y : forall n, min_list (repeat d (S n)) = Some d).
  { induction n; [reflexivity|]. cbn [repeat min_list] in *. rewrite IHn. rewrite Nat.min_id. reflexivity. }
  cbn [length]. rewrite Y. reflexivity.
Qed.

Theorem mcafee_spec : forall M cap m recipe h, m <> [] -> length recipe = length m -> all_ones recipe ->
  let m' := clone_market m in
  exists k deals, optimal_trade cap m recipe true = Ok (deals, drop_ps k m' recipe)
    /\ length deals = k /\ stops_at cap k m' recipe true
    /\ exists t, mcafee_M M cap m recipe h = Ok t /\ trecipe t = recipe
      /\ length (tcats t) = length m
      /\ (forall i, (i < length m)%nat -> cname (nth i (tcats t) dcat) = cname (nth i m' dcat)
            /\ desc (cvalues (nth i (tcats t) dcat))
            /\ qeq (cvalues (nth i (tcats t) dcat)) (firstn (num_of_deals t) (cvalues (nth i m' dcat))))
      /\ match k with
         | O => num_of_deals t = 0%nat /\ tprices t = Some (repeat 0 (length m))
         | S k' => exists lp, qeq lp (row 0 m' k') /\
             if accepted M m' k h lp
             then num_of_deals t = k
                  /\ tprices t = Some (map (fun x => if Qlt_bool x 0 then candidate M m' k * (-1) else candidate M m' k * 1) lp)
             else num_of_deals t = k' /\ tprices t = Some lp
         end.
Proof.
  intros M cap m recipe h Hne Hl H1 m'.
  assert (Hl' : length recipe = length m') by (unfold m'; rewrite clone_length; auto).
  assert (Hs : sorted_market m') by apply clone_sorted.
  destruct (optimal_trade_spec cap m recipe true Hl) as [k [E S]]. fold m' in E, S.
  set (deals := sort_by Qsum (map (fun t => concat (ps_deal m' recipe t)) (seq 0 k))) in *.
  exists k, deals. split; [assumption|]. split.
  { unfold deals. rewrite (Permutation_length (sort_by_perm _ _ _)), map_length, seq_length. reflexivity. }
  split; [assumption|].
  destruct S as [S1 [S2 [S3 S4]]].
  assert (Hk : forall d, (d <= k)%nat -> forall c, In c m' -> (d <= csize c)%nat).
  { intros d Hd c Hc. apply In_nth_error in Hc. destruct Hc as [i Hi].
    destruct (nth_error recipe i) as [r|] eqn:Er.
    - assert (r = 1%nat) by (unfold all_ones in H1; rewrite Forall_forall in H1; apply H1; eapply nth_error_In; eassumption).
      subst r. specialize (S2 i c 1%nat Hi Er). lia.
    - apply nth_error_None in Er. assert (i < length m')%nat by (apply nth_error_Some; congruence). lia. }
  assert (HO : Forall2 qeq deals (rev (map (row 0 m') (seq 0 k)))).
  { unfold deals. assert (X := deals_order m' recipe k Hs S2).
    replace (map (row 0 m') (seq 0 k)) with (map (fun t => concat (ps_deal m' recipe t)) (seq 0 k)); [assumption|].
    apply map_ext_in. intros t Ht. apply in_seq in Ht. apply ps_row; [assumption|assumption|].
    eapply enough_le; [|exact S2]. lia. }
  assert (He : empty_agent_categories m' = empty_agent_categories m).
  { unfold m', empty_agent_categories, clone_market. rewrite map_map. reflexivity. }
  assert (Hlm : length m' = length m) by (unfold m'; apply clone_length).
  assert (Hrow : forall d t, length (row d m' t) = length m) by (intros; unfold row; rewrite map_length; assumption).
  assert (Hnew : forall tr d, length tr = length m ->
    (forall i, (i < length m)%nat -> qeq (cvalues (nth i tr dcat)) (firstn d (cvalues (nth i m' dcat)))) -> (d <= k)%nat ->
    forall P, new_trade tr recipe P = Ok (mkTrade tr recipe P d)).
  { intros tr d Lt Hq Hd P. apply ones_deals; [assumption|congruence| |].
    - destruct tr; [|discriminate]. destruct m; [congruence|discriminate].
    - intros c Hc. apply In_nth with (d := dcat) in Hc. destruct Hc as [i [Hi <-]].
      specialize (Hq i ltac:(lia)). apply qeq_length in Hq. unfold csize. rewrite Hq. apply firstn_length_le.
      apply (Hk d Hd). apply nth_In. lia. }
  unfold mcafee_M. rewrite Hl, Nat.eqb_refl, (ones_forallb _ H1). cbn [negb]. rewrite E. cbn [bind].
  rewrite (next_row M m' recipe k H1 Hl'). cbn [bind].
  assert (Hcand : price_candidate (row (- M) m' k) = Ok (candidate M m' k)).
  { unfold price_candidate, candidate. rewrite Hrow, Hlm. destruct m; [congruence|]. reflexivity. }
  set (cand := candidate M m' k) in *.
  replace (if h then c <- price_candidate (row (- M) m' k);; Ok (Some c) else Ok None)
    with (Ok (if h then Some cand else None)) by (destruct h; [rewrite Hcand|]; reflexivity).
  cbn [bind].
  destruct k as [|k'].
  - assert (D0 : deals = []) by reflexivity. rewrite D0. clear HO.
    destruct (traders_best m' 0 [] Hs) as [tr [F [Ltr Htr]]]; [intros; lia|constructor|].
    cbn [fold_result] in F. inversion F. subst tr. clear F. rewrite He in *.
    rewrite (Hnew (empty_agent_categories m) 0%nat); [|congruence|intros i Hi; apply Htr; lia|lia].
    eexists. split; [reflexivity|]. cbn [tcats trecipe tprices tdeals num_of_deals]. split; [reflexivity|]. split; [congruence|]. split; [|split; reflexivity].
    intros i Hi. apply Htr. lia.
  - rewrite seq_S, map_app, rev_app_distr in HO. cbn [map rev app Nat.add] in HO.
    destruct deals as [|lp others]; [inversion HO|]. inversion HO as [|? ? ? ? HO1 HO2]; subst.
    assert (Llp : length lp = length m) by (rewrite (qeq_length _ _ HO1); apply Hrow).
    assert (Hacc : match (if h then Some cand else None) with Some c => is_price_good_for_ps c lp | None => false end
                   = accepted M m' (S k') h lp).
    { unfold accepted. fold cand. destruct h; reflexivity. }
    rewrite Hacc. destruct (accepted M m' (S k') h lp) eqn:EA.
    + assert (h = true) by (unfold accepted in EA; destruct h; [reflexivity|discriminate]). subst h. cbn [bind].
      replace (firstn (length m) lp) with lp by (rewrite <- Llp, firstn_all; reflexivity).
      destruct (traders_best m' (S k') (lp :: others) Hs) as [tr [F [Ltr Htr]]]; [apply Hk; lia| |].
      { rewrite seq_S, map_app, rev_app_distr. cbn [map rev app Nat.add]. constructor; assumption. }
      rewrite Hlm, He in F. rewrite F. cbn [bind].
      rewrite (Hnew tr (S k')); [|congruence|intros i Hi; apply Htr; lia|lia].
      eexists. split; [reflexivity|]. cbn [tcats trecipe tprices tdeals num_of_deals]. split; [reflexivity|]. split; [congruence|]. split.
      * intros i Hi. apply Htr. lia.
      * exists lp. split; [assumption|]. rewrite EA. split; reflexivity.
    + cbn [bind].
      destruct (traders_best m' k' others Hs) as [tr [F [Ltr Htr]]]; [apply Hk; lia|assumption|].
      rewrite Hlm, He in F. rewrite F. cbn [bind].
      rewrite (Hnew tr k'); [|congruence|intros i Hi; apply Htr; lia|lia].
      eexists. split; [reflexivity|]. cbn [tcats trecipe tprices tdeals num_of_deals]. split; [reflexivity|]. split; [congruence|]. split.
      * intros i Hi. apply Htr. lia.
      * exists lp. split; [assumption|]. rewrite EA. split; reflexivity.
Qed.
