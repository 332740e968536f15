(** * Runs of the tree auction: budget balance, individual rationality, exceptions *)

From Coq Require Import String List Arith Lia QArith Lqa Permutation Sorted Bool.
From Verif Require Import Base Model_Agents Model_Trade Model_Prices Model_Market Model_RecipeTree Model_TreeAuction
  Spec_Market Spec_RecipeTree Spec_TreeAuction Proof_Tree Proof_Tree2 Proof_Tree3 Proof_TA1 Proof_TA2.
Import ListNotations.
Open Scope Q_scope.

(** ** The loop *)

Lemma loop_visited : forall M t fuel s0 s s', tree_visited M t s0 s -> tree_loop M fuel t s = Ok s' ->
  exists s1, tree_visited M t s0 s1 /\ tree_round M t s1 = Ok (true, s').
Proof.
  intros M t. induction fuel as [|fuel IH]; intros s0 s s' V H; [discriminate|].
  cbn [tree_loop] in H. apply bind_Ok in H. destruct H as [[b s1] [Hr H]]. cbn [fst snd] in H. destruct b.
  - injection H; intros ->. eauto.
  - eapply IH; [|exact H]. eapply tv_next; eassumption.
Qed.

Lemma loop_mono : forall M t fuel k s s', tree_loop M fuel t s = Ok s' -> tree_loop M (fuel + k) t s = Ok s'.
Proof.
  intros M t. induction fuel as [|fuel IH]; intros k s s' H; [discriminate|].
  cbn [tree_loop Nat.add] in *. apply bind_Ok in H. destruct H as [r [Hr H]]. rewrite Hr. cbn [bind].
  destruct (fst r); [assumption|]. apply IH. assumption.
Qed.

Lemma visited_ind_inv : forall M t s0 (P : tree_state -> Prop), P s0 ->
  (forall s s', P s -> tree_round M t s = Ok (false, s') -> P s') ->
  forall s, tree_visited M t s0 s -> P s.
Proof. intros M t s0 P H0 HS s H. induction H; eauto. Qed.

(** ** The start *)

Lemma path_nonnil : forall t p, is_path t p -> exists i, In i p.
Proof. intros t p H. inversion H; eexists; left; reflexivity. Qed.

Lemma dot_le_bound : forall B p r i, B <= 0 -> Forall (fun x => x <= B) p -> length p = length r ->
  nth i r 0%nat = 1%nat -> dot p r <= B.
Proof.
  intros B. induction p as [|a p IH]; intros [|b r] i HB HF HL Hi; simpl in HL; try lia.
  - destruct i; discriminate.
  - inversion HF as [|? ? Ha HF']; subst. simpl. destruct i as [|i]; simpl in Hi.
    + subst b. rewrite Qn_1. assert (X : dot p r <= 0).
      { clear -HB HF' HL. revert r HL. induction p as [|c p IH]; intros [|d r] HL; simpl in HL; try lia; simpl; [lra|].
        inversion HF' as [|? ? Hc HF]; subst. specialize (IH HF r). assert (Y := Qn_nonneg d).
        assert (c * Qn d <= 0) by nra. assert (dot p r <= 0) by (apply IH; lia). lra. }
      lra.
    + specialize (IH r i HB HF' ltac:(lia) Hi). assert (Y := Qn_nonneg b). assert (a * Qn b <= 0) by nra. lra.
Qed.

Lemma setup_sum_neg : forall M n t rs p S, 0 < M -> setup n t rs -> length p = n ->
  Forall (fun x => x <= - M) p -> equal_sums rs p S -> S <= - M.
Proof.
  intros M n t rs p S HM SU HL HF HS.
  destruct (setup_node n t rs (tindex t) SU) as [r [Hr Hi]]; [destruct t; left; reflexivity|].
  rewrite <- (HS r Hr). assert (SB := setup_binary _ _ _ SU). rewrite Forall_forall in SB. destruct (SB r Hr) as [Hl _].
  eapply dot_le_bound; [lra|assumption|congruence|eassumption].
Qed.

(** What a call that returns has done. *)
Record returned (M : Q) (p0 : list Q) (fuel : nat) (m : market) (st : pystruct) (r : tree_trade)
  (rs : list (list nat)) (sp : sim_prices) (s' : tree_state) : Prop := mkRet {
  rt_tree : new_tree (clone_market m) st = Ok (tt_tree r);
  rt_recipes : recipes (length m) (tt_tree r) = Ok rs;
  rt_setup : setup (length m) (tt_tree r) rs;
  rt_sp : new_sim_prices rs p0 = Ok sp;
  rt_opt : exists o, tree_optimal_trade (clone_market m) (tt_tree r) = Ok o;
  rt_loop : tree_loop M fuel (tt_tree r) (clone_market m, sp) = Ok s';
  rt_cats : tt_cats r = cats_of s';
  rt_prices : tt_prices r = prices_of s';
  rt_explained : deals_explained (cats_of s') (prices_of s') (tt_tree r) = Ok (tt_deals r, tt_kmin r, tt_kmax r);
  rt_gft : tt_gft r = optimal_trade_GFT (cats_of s') (tt_tree r)
}.

Lemma new_tree_setup : forall m st t, new_tree (clone_market m) st = Ok t ->
  exists rs, recipes (length m) t = Ok rs /\ setup (length m) t rs.
Proof.
  intros m st t H. assert (R := new_tree_indices _ _ _ H).
  assert (L : length (clone_market m) = length m) by apply map_length. rewrite L in R.
  destruct (recipes_spec _ _ R) as [rs [E F]]. exists rs. split; [exact E|]. split; assumption.
Qed.

Lemma auction_returned : forall M p0 fuel m st r, tree_auction M p0 fuel m st = Ok r ->
  exists rs sp s', returned M p0 fuel m st r rs sp s'.
Proof.
  intros M p0 fuel m st r H. unfold tree_auction in H.
  apply bind_Ok in H. destruct H as [t [Ht H]]. apply bind_Ok in H. destruct H as [rs [Hrs H]].
  apply bind_Ok in H. destruct H as [o [Ho H]]. apply bind_Ok in H. destruct H as [sp [Hsp H]].
  apply bind_Ok in H. destruct H as [s' [Hs H]]. unfold new_tree_trade in H.
  apply bind_Ok in H. destruct H as [[[n k1] k2] [He H]]. injection H; intros <-. clear H.
  assert (L : length (clone_market m) = length m) by apply map_length. rewrite L in Hrs.
  destruct (new_tree_setup _ _ _ Ht) as [rs' [E SU]]. rewrite E in Hrs. injection Hrs; intros ->.
  exists rs, sp, s'. split; simpl; auto. eauto.
Qed.

Lemma start_good : forall n t rs p0 sp cats, setup n t rs -> new_sim_prices rs p0 = Ok sp -> length cats = n ->
  length p0 = n -> forall S, equal_sums rs p0 S -> good n rs (cats, sp) S /\ prices_of (cats, sp) = p0.
Proof.
  intros n t rs p0 sp cats SU Hsp HL HP S HS. unfold new_sim_prices in Hsp.
  destruct rs as [|r0 rs]; [discriminate|]. destruct (forallb _ _); [|discriminate]. injection Hsp; intros <-.
  split; [|reflexivity]. split; unfold cats_of, prices_of; simpl; auto.
Qed.

Lemma new_sim_ok : forall n t rs p0, setup n t rs -> exists sp, new_sim_prices rs p0 = Ok sp.
Proof.
  intros n t rs p0 SU. unfold new_sim_prices. assert (N := setup_nonempty _ _ _ SU). assert (B := setup_binary _ _ _ SU).
  destruct rs as [|r0 rs]; [congruence|]. inversion B as [|? ? [H0 _] B']; subst.
  assert (X : forallb (fun r => (length r =? length r0)%nat) (r0 :: rs) = true).
  { apply forallb_forall. intros r Hr. rewrite Forall_forall in B. apply Nat.eqb_eq. apply (proj1 (B r Hr)). }
  rewrite X. eauto.
Qed.

(** ** Invariants *)

Definition pfx (l L : list Q) : Prop := l = firstn (length l) L.

Lemma pfx_removelast : forall l L, pfx l L -> pfx (removelast l) L.
Proof.
  intros l L H. unfold pfx in *. rewrite removelast_firstn_len.
  rewrite firstn_length, Nat.min_l by lia. rewrite H at 2. rewrite firstn_firstn. f_equal. lia.
Qed.

Lemma last_le : forall l v, desc l -> In v l -> last l 0 <= v.
Proof.
  intros l v HD Hv. destruct (exists_last (l := l)) as [l1 [x E]]; [intros ->; destruct Hv|].
  subst l. rewrite last_last. apply in_app_iff in Hv. destruct Hv as [Hv|[<-|[]]]; [|lra].
  apply desc_app_inv in HD. destruct HD as (_ & _ & H). apply H; [assumption|left; reflexivity].
Qed.

Lemma beat_cases : forall c p, (beaten c p = false /\ beat c p = c)
  \/ (beaten c p = true /\ cvalues c <> [] /\ last (cvalues c) 0 <= p
      /\ beat c p = mkCat (cname c) (removelast (cvalues c))).
Proof.
  intros c p. unfold beat. destruct (beaten c p) eqn:E; [right|left; auto]. split; [reflexivity|].
  unfold beaten in E. destruct (cvalues c) as [|v l]; [discriminate|]. split; [discriminate|].
  apply Qle_bool_iff in E. auto.
Qed.

Record invA (n : nat) (rs : list (list nat)) (m : market) (s : tree_state) : Prop := mkInvA {
  ia_good : exists S, good n rs s S /\ S < 0;
  ia_pfx : forall i, pfx (cvalues (cat_at (cats_of s) i)) (cvalues (cat_at m i));
  ia_name : forall i, cname (cat_at (cats_of s) i) = cname (cat_at m i);
  ia_ir : forall i v, In v (cvalues (cat_at (cats_of s) i)) -> pr s i <= v
}.

Lemma pfx_desc : forall l L, pfx l L -> desc L -> desc l.
Proof. intros l L H HD. rewrite H. apply desc_firstn. assumption. Qed.

Lemma removelast_In : forall (l : list Q) x, In x (removelast l) -> In x l.
Proof.
  intros l x H. destruct l as [|a l']; [destruct H|]. rewrite (app_removelast_last 0 (l := a :: l')) by discriminate.
  apply in_app_iff. left. assumption.
Qed.

Lemma beat_In : forall c p v, In v (cvalues (beat c p)) -> In v (cvalues c).
Proof.
  intros c p v H. destruct (beat_cases c p) as [[_ E]|(_ & _ & _ & E)]; rewrite E in H; [assumption|].
  simpl in H. apply removelast_In. assumption.
Qed.

(** Prices after a move are at most the remaining values. *)
Lemma moved_ir : forall M t s s' S d, moved M t s s' S d ->
  (forall i, desc (cvalues (cat_at (cats_of s) i))) ->
  (forall i v, In v (cvalues (cat_at (cats_of s) i)) -> pr s i <= v) ->
  forall i v, In v (cvalues (cat_at (cats_of s) i)) -> pr s' i <= v.
Proof.
  intros M t s s' S d MV HD HI i v Hv. destruct (in_dec Nat.eq_dec i (chosen t s)) as [C|C].
  - rewrite (mv_chosen _ _ _ _ _ _ MV i C). assert (X := mv_target _ _ _ _ _ _ MV i C).
    assert (Y := last_le _ _ (HD i) Hv). unfold tgt in X. destruct (cvalues (cat_at (cats_of s) i)); [destruct Hv|]. lra.
  - rewrite (mv_other _ _ _ _ _ _ MV i C). auto.
Qed.

Lemma invA_step : forall M n t rs m s s', setup n t rs -> sorted_cats m -> invA n rs m s ->
  tree_round M t s = Ok (false, s') -> invA n rs m s'.
Proof.
  intros M n t rs m s s' SU HS [[S [G NS]] HP HN HI] HR.
  assert (HD : forall i, desc (cvalues (cat_at (cats_of s) i))).
  { intros i. eapply pfx_desc; [apply HP|]. apply sorted_cats_at. assumption. }
  destruct (round_inv _ _ _ _ _ _ _ _ SU G HR) as [[X _]|[d [MV [G' [[X _]|[_ [Hd HC]]]]]]]; try discriminate.
  split.
  - exists (S + d). split; [assumption|lra].
  - intros i. rewrite HC. destruct (beat_cases (cat_at (cats_of s) i) (pr s' i)) as [[_ E]|(_ & _ & _ & E)]; rewrite E; [apply HP|].
    simpl. apply pfx_removelast. apply HP.
  - intros i. rewrite HC. destruct (beat_cases (cat_at (cats_of s) i) (pr s' i)) as [[_ E]|(_ & _ & _ & E)]; rewrite E; apply HN.
  - intros i v Hv. rewrite HC in Hv. apply beat_In in Hv. eapply moved_ir; eassumption.
Qed.

Lemma clone_sorted : forall m, sorted_cats (clone_market m).
Proof.
  intros m. unfold sorted_cats, clone_market. rewrite Forall_map. rewrite Forall_forall. intros c _.
  unfold clone, new_category. simpl. apply sort_desc_desc.
Qed.

Lemma clone_at : forall m i, cat_at (clone_market m) i = clone (cat_at m i).
Proof.
  intros m i. unfold cat_at, clone_market. rewrite <- (map_nth clone). reflexivity.
Qed.

Lemma clone_In : forall c v, In v (cvalues (clone c)) <-> In v (cvalues c).
Proof.
  intros c v. unfold clone, new_category. simpl. split; apply Permutation_in; [apply sort_desc_perm|symmetry; apply sort_desc_perm].
Qed.

Lemma cat_at_In : forall m i v, In v (cvalues (cat_at m i)) -> In (cat_at m i) m /\ (i < length m)%nat.
Proof.
  intros m i v H. unfold cat_at in *. destruct (lt_dec i (length m)) as [L|L]; [split; [apply nth_In|]; assumption|].
  rewrite nth_overflow in H by lia. destruct H.
Qed.

Lemma invA_start : forall M n t rs p0 sp m S, 0 < M -> setup n t rs -> new_sim_prices rs p0 = Ok sp ->
  length m = n -> length p0 = n -> Forall (fun x => x <= - M) p0 -> equal_sums rs p0 S ->
  values_above (- M) m -> invA n rs (clone_market m) (clone_market m, sp).
Proof.
  intros M n t rs p0 sp m S HM SU Hsp HL HP HF HS HV.
  destruct (start_good n t rs p0 sp (clone_market m) SU Hsp) with (S := S) as [G E];
    [unfold clone_market; rewrite map_length; assumption|assumption|assumption|].
  split.
  - exists S. split; [assumption|]. assert (X := setup_sum_neg M n t rs p0 S HM SU HP HF HS). lra.
  - intros i. unfold pfx. rewrite firstn_all. reflexivity.
  - reflexivity.
  - intros i v Hv. enough (X0 : nth i p0 0 <= v) by (rewrite <- E in X0; exact X0). unfold cats_of in Hv. cbn [fst] in Hv. rewrite clone_at in Hv.
    rewrite clone_In in Hv. destruct (cat_at_In _ _ _ Hv) as [HIn Hi].
    assert (X := HV _ _ HIn Hv). rewrite Forall_forall in HF.
    assert (Y : nth i p0 0 <= - M) by (apply HF; apply nth_In; lia). lra.
Qed.

Lemma invA_visited : forall M n t rs m s0 s, setup n t rs -> sorted_cats m -> invA n rs m s0 ->
  tree_visited M t s0 s -> invA n rs m s.
Proof.
  intros M n t rs m s0 s SU HS H0 V. induction V; [assumption|]. eapply invA_step; eassumption.
Qed.

(** Weaker invariant, without any hypothesis on the values: all recipes have the same negative price sum. *)
Lemma sums_visited : forall M n t rs s0 s, setup n t rs -> (exists S, good n rs s0 S /\ S < 0) ->
  tree_visited M t s0 s -> exists S, good n rs s S /\ S < 0.
Proof.
  intros M n t rs s0 s SU H0 V. induction V as [|s s' V [S [G NS]] HR]; [assumption|].
  destruct (round_inv _ _ _ _ _ _ _ _ SU G HR) as [[X _]|[d [MV [G' [[X _]|[_ [Hd HC]]]]]]]; try discriminate.
  exists (S + d). split; [assumption|lra].
Qed.

(** ** C36 *)

Lemma deals_root_empty : forall cats t, csize (cat_at cats (tindex t)) = 0%nat -> tree_num_of_deals cats t = 0%nat.
Proof. intros cats [i [|c ch]] H; simpl in *; [assumption|]. rewrite H. lia. Qed.

Theorem tree_sbb : forall M p0 fuel m st r rs, 0 < M ->
  tree_auction M p0 fuel m st = Ok r -> recipes (length m) (tt_tree r) = Ok rs ->
  initial_prices_ok (length m) rs (- M) p0 -> (0 < tt_deals r)%nat ->
  length (tt_prices r) = length m /\ equal_sums rs (tt_prices r) 0.
Proof.
  intros M p0 fuel m st r rs HM H Hrs [HL [HF [S HS]]] HD.
  destruct (auction_returned _ _ _ _ _ _ H) as (rs' & sp & s' & R). rewrite (rt_recipes _ _ _ _ _ _ _ _ _ R) in Hrs.
  injection Hrs; intros ->. clear Hrs. assert (SU := rt_setup _ _ _ _ _ _ _ _ _ R).
  destruct (start_good _ _ _ _ _ (clone_market m) SU (rt_sp _ _ _ _ _ _ _ _ _ R)) with (S := S) as [G E];
    [unfold clone_market; apply map_length|assumption|assumption|].
  destruct (loop_visited _ _ _ _ _ _ (tv_start _ _ _) (rt_loop _ _ _ _ _ _ _ _ _ R)) as [s1 [V HR]].
  assert (SN : exists S0, good (length m) rs (clone_market m, sp) S0 /\ S0 < 0).
  { exists S. split; [exact G|]. assert (X := setup_sum_neg M _ _ _ _ _ HM SU HL HF HS). lra. }
  destruct (sums_visited _ _ _ _ _ _ SU SN V) as [S1 [G1 N1]].
  rewrite (rt_prices _ _ _ _ _ _ _ _ _ R).
  destruct (round_inv _ _ _ _ _ _ _ _ SU G1 HR) as [(_ & E1 & Z)|[d [MV [G' [[_ [Hd _]]|[X _]]]]]]; [| |discriminate].
  - exfalso. subst s'. assert (X := rt_explained _ _ _ _ _ _ _ _ _ R).
    destruct (deals_explained_ok (cats_of s1) (prices_of s1) (tt_tree r)) as (k1 & k2 & Y & _).
    { rewrite (g_prices _ _ _ _ G1). apply SU. }
    rewrite X in Y. injection Y; intros _ _ Y'. rewrite deals_root_empty in Y' by exact Z. lia.
  - split; [apply (g_prices _ _ _ _ G')|]. intros q Hq. rewrite (g_sums _ _ _ _ G' q Hq). lra.
Qed.

(** ** C37 *)

Lemma final_shape : forall M n t rs m s s', setup n t rs -> sorted_cats m -> invA n rs m s ->
  tree_round M t s = Ok (true, s') ->
  cats_of s' = cats_of s /\ (forall i v, In v (cvalues (cat_at (cats_of s') i)) -> pr s' i <= v)
  /\ length (prices_of s') = n /\ length (cats_of s') = n.
Proof.
  intros M n t rs m s s' SU HS HA HR. destruct HA as [[S [G NS]] HP HN HI].
  assert (HD : forall i, desc (cvalues (cat_at (cats_of s) i))).
  { intros i. eapply pfx_desc; [apply HP|]. apply sorted_cats_at. assumption. }
  destruct (round_inv _ _ _ _ _ _ _ _ SU G HR) as [(_ & -> & Z)|[d [MV [G' [[_ [Hd E]]|[X _]]]]]]; [| |discriminate].
  - split; [reflexivity|]. split; [assumption|]. split; [apply (g_prices _ _ _ _ G)|apply (g_cats _ _ _ _ G)].
  - split; [assumption|]. rewrite E. split; [eapply moved_ir; eassumption|].
    split; [apply (g_prices _ _ _ _ G')|apply (g_cats _ _ _ _ G)].
Qed.

Lemma auction_final : forall M p0 fuel m st r rs, 0 < M ->
  tree_auction M p0 fuel m st = Ok r -> recipes (length m) (tt_tree r) = Ok rs ->
  initial_prices_ok (length m) rs (- M) p0 -> values_above (- M) m ->
  exists sp s s', returned M p0 fuel m st r rs sp s' /\ tree_visited M (tt_tree r) (clone_market m, sp) s
    /\ invA (length m) rs (clone_market m) (clone_market m, sp)
    /\ prices_of (clone_market m, sp) = p0
    /\ invA (length m) rs (clone_market m) s /\ tree_round M (tt_tree r) s = Ok (true, s').
Proof.
  intros M p0 fuel m st r rs HM H Hrs [HL [HF [S HS]]] HV.
  destruct (auction_returned _ _ _ _ _ _ H) as (rs' & sp & s' & R). rewrite (rt_recipes _ _ _ _ _ _ _ _ _ R) in Hrs.
  injection Hrs; intros ->. clear Hrs. assert (SU := rt_setup _ _ _ _ _ _ _ _ _ R).
  destruct (loop_visited _ _ _ _ _ _ (tv_start _ _ _) (rt_loop _ _ _ _ _ _ _ _ _ R)) as [s1 [V HR]].
  assert (I0 := invA_start M _ _ _ _ _ m S HM SU (rt_sp _ _ _ _ _ _ _ _ _ R) eq_refl HL HF HS HV).
  exists sp, s1, s'. split; [assumption|]. split; [assumption|]. split; [assumption|]. split.
  { destruct (start_good _ _ _ _ _ (clone_market m) SU (rt_sp _ _ _ _ _ _ _ _ _ R)) with (S := S) as [G E];
      [unfold clone_market; apply map_length|assumption|assumption|exact E]. }
  split; [|assumption].
  eapply invA_visited; try eassumption. apply clone_sorted.
Qed.

Theorem tree_ir : forall M p0 fuel m st r rs, 0 < M ->
  tree_auction M p0 fuel m st = Ok r -> recipes (length m) (tt_tree r) = Ok rs ->
  initial_prices_ok (length m) rs (- M) p0 -> values_above (- M) m ->
  forall i c p v, nth_error (tt_cats r) i = Some c -> nth_error (tt_prices r) i = Some p -> In v (cvalues c) -> p <= v.
Proof.
  intros M p0 fuel m st r rs HM H Hrs HP HV i c p v Hc Hp Hv.
  destruct (auction_final _ _ _ _ _ _ _ HM H Hrs HP HV) as (sp & s & s' & R & V & I0 & EP & I & HR).
  destruct (final_shape _ _ _ _ _ _ _ (rt_setup _ _ _ _ _ _ _ _ _ R) (clone_sorted m) I HR) as (E & F & _).
  rewrite (rt_cats _ _ _ _ _ _ _ _ _ R) in Hc. rewrite (rt_prices _ _ _ _ _ _ _ _ _ R) in Hp.
  apply (nth_error_nth _ _ 0) in Hp. apply (nth_error_nth _ _ (mkCat "" [])) in Hc. rewrite <- Hp. apply F.
  unfold cat_at. rewrite Hc. assumption.
Qed.

(** With values at most M as well, prices never go down, and whoever left has a value at most the price. *)
Record invB (M : Q) (m : market) (s : tree_state) : Prop := mkInvB {
  ib_max : forall i, pr s i <= M;
  ib_gone : forall i v, In v (skipn (sz s i) (cvalues (cat_at m i))) -> v <= pr s i
}.

Lemma last_In : forall (l : list Q), l <> [] -> In (last l 0) l.
Proof.
  intros l H. destruct (exists_last H) as [l1 [x ->]]. rewrite last_last. apply in_app_iff. right. left. reflexivity.
Qed.

Lemma tgt_le : forall M c, (forall v, In v (cvalues c) -> v <= M) -> tgt M c <= M.
Proof.
  intros M c H. unfold tgt. destruct (cvalues c) as [|a l] eqn:E; [lra|]. apply H. apply last_In. discriminate.
Qed.

Lemma pfx_In : forall l L x, pfx l L -> In x l -> In x L.
Proof.
  intros l L x H Hx. rewrite H in Hx. rewrite <- (firstn_skipn (length l) L). apply in_app_iff. left. assumption.
Qed.

Lemma moved_mono : forall M n rs m t s s' S d, invA n rs m s -> invB M m s -> S <= 0 ->
  moved M t s s' S d -> 0 <= d /\ forall i, pr s i <= pr s' i.
Proof.
  intros M n rs m t s s' S d HA HB HSn MV.
  assert (D : 0 <= d).
  { destruct (mv_min _ _ _ _ _ _ MV) as [E|[i [Hi E]]].
    - lra.
    - rewrite E. assert (X := ib_max _ _ _ HB i). unfold tgt. destruct (cvalues (cat_at (cats_of s) i)) as [|a l] eqn:Ec.
      + lra.
      + assert (Y := ia_ir _ _ _ _ HA i (last (a :: l) 0)). rewrite Ec in Y. specialize (Y (last_In (a :: l) ltac:(discriminate))). lra. }
  split; [assumption|]. intros i. destruct (in_dec Nat.eq_dec i (chosen t s)) as [C|C].
  - rewrite (mv_chosen _ _ _ _ _ _ MV i C). lra.
  - rewrite (mv_other _ _ _ _ _ _ MV i C). lra.
Qed.

Lemma moved_max : forall M n rs m t s s' S d, invA n rs m s -> invB M m s -> values_below M m ->
  moved M t s s' S d -> forall i, pr s' i <= M.
Proof.
  intros M n rs m t s s' S d HA HB HV MV i. destruct (in_dec Nat.eq_dec i (chosen t s)) as [C|C].
  - rewrite (mv_chosen _ _ _ _ _ _ MV i C). assert (X := mv_target _ _ _ _ _ _ MV i C).
    assert (Y : tgt M (cat_at (cats_of s) i) <= M).
    { apply tgt_le. intros v Hv. apply (pfx_In _ _ _ (ia_pfx _ _ _ _ HA i)) in Hv.
      destruct (cat_at_In _ _ _ Hv) as [HI _]. eapply HV; eassumption. }
    lra.
  - rewrite (mv_other _ _ _ _ _ _ MV i C). apply (ib_max _ _ _ HB).
Qed.

Lemma skipn_removelast : forall (L : list Q) l x, pfx l L -> l <> [] ->
  In x (skipn (length (removelast l)) L) -> x = last l 0 \/ In x (skipn (length l) L).
Proof.
  intros L l x H Hn Hx. unfold pfx in H. assert (E : L = l ++ skipn (length l) L) by (rewrite H at 1; symmetry; apply firstn_skipn).
  rewrite E in Hx. rewrite (app_removelast_last 0 Hn) in Hx at 2. rewrite <- app_assoc in Hx.
  rewrite skipn_app, skipn_all, Nat.sub_diag in Hx. simpl in Hx. destruct Hx as [<-|Hx]; auto.
Qed.

Lemma gone_step : forall n rs m s s' (c : nat -> category), invA n rs m s ->
  (forall i v, In v (skipn (sz s i) (cvalues (cat_at m i))) -> v <= pr s i) ->
  (forall i, pr s i <= pr s' i) ->
  (forall i, c i = cat_at (cats_of s) i \/ c i = beat (cat_at (cats_of s) i) (pr s' i)) ->
  forall i v, In v (skipn (csize (c i)) (cvalues (cat_at m i))) -> v <= pr s' i.
Proof.
  intros n rs m s s' c HA HG HM HC i v Hv. specialize (HM i).
  assert (K : In v (skipn (sz s i) (cvalues (cat_at m i))) -> v <= pr s' i).
  { intros Y. specialize (HG i v Y). lra. }
  destruct (HC i) as [E|E]; rewrite E in Hv; [apply K; exact Hv|].
  destruct (beat_cases (cat_at (cats_of s) i) (pr s' i)) as [[_ E']|(_ & Hn & Hl & E')]; rewrite E' in Hv; [apply K; exact Hv|].
  unfold csize in Hv. simpl in Hv. apply skipn_removelast in Hv; [|apply (ia_pfx _ _ _ _ HA)|assumption].
  destruct Hv as [->|Hv]; [assumption|apply K; exact Hv].
Qed.

Lemma invB_step : forall M n t rs m s s', setup n t rs -> invA n rs m s -> invB M m s -> values_below M m ->
  tree_round M t s = Ok (false, s') -> invB M m s' /\ forall i, pr s i <= pr s' i.
Proof.
  intros M n t rs m s s' SU HA HB HV HR. destruct (ia_good _ _ _ _ HA) as [S [G NS]].
  destruct (round_inv _ _ _ _ _ _ _ _ SU G HR) as [[X _]|[d [MV [G' [[X _]|[_ [Hd HC]]]]]]]; try discriminate.
  destruct (moved_mono _ _ _ _ _ _ _ _ _ HA HB (Qlt_le_weak _ _ NS) MV) as [_ MO].
  split; [|assumption]. split.
  - eapply moved_max; eassumption.
  - unfold sz. apply (gone_step n rs m s s' (fun i => cat_at (cats_of s') i) HA (ib_gone _ _ _ HB) MO). intros i. right. apply HC.
Qed.

Lemma invB_start : forall M n p0 sp m, 0 < M -> length p0 = n ->
  Forall (fun x => x <= - M) p0 -> prices_of (clone_market m, sp) = p0 -> invB M (clone_market m) (clone_market m, sp).
Proof.
  intros M n p0 sp m HM HL HF E. split; unfold pr; rewrite E.
  - intros i. destruct (lt_dec i (length p0)) as [L|L].
    + rewrite Forall_forall in HF. assert (X := HF _ (nth_In p0 0 L)). lra.
    + rewrite nth_overflow by lia. lra.
  - intros i v Hv. unfold sz, csize, cats_of in Hv. cbn [fst] in Hv. rewrite skipn_all in Hv. destruct Hv.
Qed.

Lemma invAB_visited : forall M n t rs m s0 s, setup n t rs -> sorted_cats m -> values_below M m ->
  invA n rs m s0 -> invB M m s0 -> tree_visited M t s0 s ->
  invA n rs m s /\ invB M m s /\ forall i, pr s0 i <= pr s i.
Proof.
  intros M n t rs m s0 s SU HS HV HA HB V. induction V as [|s s' V (IA & IB & MO) HR].
  - split; [assumption|]. split; [assumption|]. intros; lra.
  - split; [eapply invA_step; eassumption|].
    destruct (invB_step _ _ _ _ _ _ _ SU IA IB HV HR) as [IB' MO']. split; [assumption|].
    intros i. specialize (MO i). specialize (MO' i). lra.
Qed.

Lemma values_below_clone : forall b m, values_below b m -> values_below b (clone_market m).
Proof.
  intros b m H c v Hc Hv. unfold clone_market in Hc. apply in_map_iff in Hc. destruct Hc as [c' [<- Hc]].
  rewrite clone_In in Hv. eapply H; eassumption.
Qed.

Lemma final_mono : forall M n t rs m s s', setup n t rs -> invA n rs m s -> invB M m s ->
  tree_round M t s = Ok (true, s') ->
  cats_of s' = cats_of s /\ (forall i, pr s i <= pr s' i) /\
  forall i v, In v (skipn (sz s' i) (cvalues (cat_at m i))) -> v <= pr s' i.
Proof.
  intros M n t rs m s s' SU HA HB HR. destruct (ia_good _ _ _ _ HA) as [S [G NS]].
  destruct (round_inv _ _ _ _ _ _ _ _ SU G HR) as [(_ & -> & Z)|[d [MV [G' [[_ [Hd E]]|[X _]]]]]]; [| |discriminate].
  - split; [reflexivity|]. split; [intros; lra|]. apply (ib_gone _ _ _ HB).
  - destruct (moved_mono _ _ _ _ _ _ _ _ _ HA HB (Qlt_le_weak _ _ NS) MV) as [_ MO].
    split; [assumption|]. split; [assumption|]. unfold sz. rewrite E.
    apply (gone_step n rs m s s' (fun i => cat_at (cats_of s) i) HA (ib_gone _ _ _ HB) MO). intros i. left. reflexivity.
Qed.

Lemma prefix_split : forall l L, pfx l L -> Permutation (l ++ skipn (length l) L) L.
Proof. intros l L H. unfold pfx in H. rewrite H at 1. rewrite firstn_skipn. reflexivity. Qed.

(** The remaining agents are the best ones of their category, and the others had values at most the final price. *)
Theorem tree_weakest : forall M p0 fuel m st r rs, 0 < M ->
  tree_auction M p0 fuel m st = Ok r -> recipes (length m) (tt_tree r) = Ok rs ->
  initial_prices_ok (length m) rs (- M) p0 -> values_above (- M) m ->
  length (tt_cats r) = length m /\ length (tt_prices r) = length m /\
  forall i c0 c p, nth_error m i = Some c0 -> nth_error (tt_cats r) i = Some c -> nth_error (tt_prices r) i = Some p ->
    cname c = cname c0 /\ desc (cvalues c) /\
    exists gone, Permutation (cvalues c ++ gone) (cvalues c0)
      /\ (forall x y, In x (cvalues c) -> In y gone -> y <= x)
      /\ (values_below M m -> forall y, In y gone -> y <= p).
Proof.
  intros M p0 fuel m st r rs HM H Hrs HP HV.
  destruct (auction_final _ _ _ _ _ _ _ HM H Hrs HP HV) as (sp & s & s' & R & V & I0 & EP & I & HR).
  assert (SU := rt_setup _ _ _ _ _ _ _ _ _ R).
  destruct (final_shape _ _ _ _ _ _ _ SU (clone_sorted m) I HR) as (E & F & L1 & L2).
  rewrite (rt_cats _ _ _ _ _ _ _ _ _ R), (rt_prices _ _ _ _ _ _ _ _ _ R).
  split; [assumption|]. split; [assumption|].
  intros i c0 c p Hc0 Hc Hp. apply (nth_error_nth _ _ 0) in Hp. apply (nth_error_nth _ _ (mkCat "" [])) in Hc.
  apply (nth_error_nth _ _ (mkCat "" [])) in Hc0. fold (cat_at (cats_of s') i) in Hc. fold (cat_at m i) in Hc0. subst c c0 p.
  rewrite E. assert (PF := ia_pfx _ _ _ _ I i). assert (NM := ia_name _ _ _ _ I i).
  assert (SD := sorted_cats_at _ (clone_sorted m) i).
  split; [rewrite NM, clone_at; reflexivity|]. split; [eapply pfx_desc; eassumption|].
  exists (skipn (length (cvalues (cat_at (cats_of s) i))) (cvalues (cat_at (clone_market m) i))). split; [|split].
  - eapply perm_trans; [apply prefix_split; exact PF|]. rewrite clone_at. apply sort_desc_perm.
  - intros x y Hx Hy. rewrite PF in Hx. eapply desc_firstn_skipn; eassumption.
  - intros HB y Hy.
    assert (B0 : invB M (clone_market m) (clone_market m, sp)).
    { destruct HP as [HL [HF _]]. exact (invB_start M (length m) p0 sp m HM HL HF EP). }
    destruct (invAB_visited _ _ _ _ _ _ _ SU (clone_sorted m) (values_below_clone _ _ HB) I0 B0 V) as (_ & IB & _).
    destruct (final_mono _ _ _ _ _ _ _ SU I IB HR) as (_ & _ & K). apply K. unfold sz. rewrite E. exact Hy.
Qed.

(** ** C41 *)

Theorem tree_no_raise : forall M p0 fuel m st t rs, new_tree (clone_market m) st = Ok t ->
  distinct_categories t -> recipes (length m) t = Ok rs -> length p0 = length m -> (exists S, equal_sums rs p0 S) ->
  ~ (tchildren t = [] /\ (0 < csize (cat_at m (tindex t)))%nat) ->
  forall e, tree_auction M p0 fuel m st <> Raise e.
Proof.
  intros M p0 fuel m st t rs Ht HD Hrs HL [S HS] HN e H. unfold tree_auction in H. rewrite Ht in H. cbn [bind] in H.
  assert (L : length (clone_market m) = length m) by apply map_length. rewrite L, Hrs in H. cbn [bind] in H.
  destruct (new_tree_setup _ _ _ Ht) as [rs' [E SU]]. rewrite Hrs in E. injection E; intros <-. clear E.
  destruct (tree_optimal_trade_errors (clone_market m) t) as [[o [Ho _]]|[_ [X1 X2]]].
  2: { apply HN. split; [assumption|]. rewrite clone_at in X2. unfold csize, clone, new_category in X2. simpl in X2.
       rewrite sort_desc_length in X2. exact X2. }
  rewrite Ho in H. cbn [bind] in H. destruct (new_sim_ok _ _ _ p0 SU) as [sp Hsp]. rewrite Hsp in H. cbn [bind] in H.
  destruct (start_good _ _ _ _ _ (clone_market m) SU Hsp) with (S := S) as [G EP]; [assumption|assumption|assumption|].
  assert (K : forall fuel s S, good (length m) rs s S ->
     tree_loop M fuel t s = Timeout \/ exists s' S', tree_loop M fuel t s = Ok s' /\ good (length m) rs s' S').
  { clear -SU HD. induction fuel as [|fuel IH]; intros s S G; [left; reflexivity|]. cbn [tree_loop].
    destruct (round_total M _ _ _ _ _ SU HD G) as [b [s' HR]]. rewrite HR. cbn [bind fst snd].
    destruct (round_inv _ _ _ _ _ _ _ _ SU G HR) as [(-> & -> & _)|[d [_ [G' [[-> _]|[-> _]]]]]].
    - right. exists s, S. auto.
    - right. exists s', (S + d). auto.
    - eapply IH. exact G'. }
  destruct (K fuel _ _ G) as [X|[s' [S' [X G']]]]; unfold market in *; rewrite X in H; cbn [bind] in H; [discriminate|].
  unfold new_tree_trade in H.
  destruct (deals_explained_ok (cats_of s') (prices_of s') t) as (k1 & k2 & Y & _).
  { rewrite (g_prices _ _ _ _ G'). apply SU. }
  unfold cats_of, prices_of in Y. rewrite Y in H. discriminate.
Qed.
