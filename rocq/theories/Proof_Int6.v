(** * The loop of the integer auction (C43, C44, C56, C58) *)

From Coq Require Import String List Arith Lia QArith Lqa Permutation Sorted Bool.
From Verif Require Import Base Model_Agents Model_Trade Model_Prices Model_Market Model_RecipeTree Model_TreeAuction
  Model_IntPrices Model_IntTree Model_IntAuction
  Spec_Market Spec_RecipeTree Spec_TreeAuction Spec_Int Spec_Ascending Proof_Tree Proof_Tree2 Proof_Tree3 Proof_TA1 Proof_TA2
  Proof_TA3 Proof_TA6 Proof_Int1 Proof_Int2 Proof_Int3 Proof_Int4 Proof_Int5.
Import ListNotations.
Open Scope Q_scope.

(** ** The choice of categories *)

Lemma int_largest_cut : forall cats counts t a b l, int_largest_categories cats counts t = Ok (a, b, l) -> cut t l.
Proof.
  intros cats counts t. induction t as [i ch IH] using rtree_ind'. intros a b l H. cbn [int_largest_categories] in H.
  apply bind_Ok in H. destruct H as [s [_ H]]. apply bind_Ok in H. destruct H as [ss [Hs H]].
  destruct (Qlt_bool (Qn (nsum ss)) s || (nsum ss =? 0)%nat) eqn:E; [injection H; intros <- _ _; constructor|].
  apply bind_Ok in H. destruct H as [rs [Hr H]]. injection H; intros <- _ _. constructor.
  - intros ->. simpl in Hs. injection Hs; intros <-. simpl in E. rewrite orb_true_r in E. discriminate.
  - clear E Hs H. revert rs Hr. induction ch as [|c ch IHc]; intros rs Hr; simpl in Hr; [injection Hr; intros <-; constructor|].
    inversion IH; subst. apply bind_Ok in Hr. destruct Hr as [[[a1 b1] l1] [H0 Hr]]. apply bind_Ok in Hr. destruct Hr as [rs1 [H3 Hr]].
    injection Hr; intros <-. simpl. constructor; [eapply H1; eassumption|]. apply IHc; assumption.
Qed.

Lemma int_largest_ok : forall cats counts t, positive_counts counts t ->
  exists a l, int_largest_categories cats counts t = Ok (a, Qn (csize (cat_at cats (tindex t))) / Qn (count_at counts (tindex t)), l).
Proof.
  intros cats counts t. induction t as [i ch IH] using rtree_ind'. intros HP.
  assert (Hi : (0 < count_at counts i)%nat) by (apply HP; left; reflexivity). cbn [int_largest_categories tindex].
  unfold size_ratio. destruct (Nat.eqb_spec (count_at counts i) 0); [lia|]. cbn [bind].
  assert (HC : forall c, In c ch -> positive_counts counts c) by (intros; eapply positive_child; eassumption).
  rewrite (map_result_ok_all _ _ _ (fun c => ceil_div (csize (cat_at cats (tindex c))) (count_at counts (tindex c)))).
  2: { intros c Hc. unfold size_ceil. assert (0 < count_at counts (tindex c))%nat by (apply (HC c Hc); destruct c; left; reflexivity).
       destruct (Nat.eqb_spec (count_at counts (tindex c)) 0); [lia|reflexivity]. }
  cbn [bind]. match goal with |- context [if ?b then _ else _] => destruct b end; [eauto|].
  assert (X : exists rs, map_result (int_largest_categories cats counts) ch = Ok rs).
  { clear - IH HC. induction ch as [|c ch IHc]; [eexists; reflexivity|]. inversion IH; subst. simpl.
    destruct (H1 (HC c (or_introl eq_refl))) as (a & l & ->). cbn [bind].
    destruct IHc as [rs ->]; [assumption|intros; apply HC; right; assumption|]. eexists. reflexivity. }
  destruct X as [rs ->]. cbn [bind]. eauto.
Qed.

Lemma ratio_zero : forall a c, (0 < c)%nat -> Qeq_bool (Qn a / Qn c) 0 = (a =? 0)%nat.
Proof.
  intros a c Hc. assert (C := Qn_pos c Hc). destruct (Nat.eqb_spec a 0) as [->|N].
  - apply Qeq_bool_iff. rewrite Qn_0. field. lra.
  - apply not_true_iff_false. intros X. apply Qeq_bool_iff in X. apply N.
    assert (Y : Qn a == 0). { assert (Z : Qn a == Qn a / Qn c * Qn c) by (field; lra). rewrite X in Z. lra. }
    apply (Qn_eq a 0). exact Y.
Qed.

(** ** A round *)

Definition iprices (s : int_state) : list Q := iv_prices (isp_vector (snd s)).
Definition ipr (s : int_state) (i : nat) : Q := nth i (iprices s) 0.
Definition isum_of (s : int_state) : Q := int_price_sum (isp_vector (snd s)).

Record ishape (n : nat) (rs : list (list nat)) (s : int_state) : Prop := mkIShape {
  is_cats : length (fst s) = n;
  is_prices : length (iprices s) = n;
  is_recipes : isp_recipes (snd s) = rs;
  is_counts : isp_counts (snd s) = ones n
}.

Record imoved (M : Q) (l : list nat) (s : int_state) (sp' : int_sim_prices) (d : Q) : Prop := mkIMoved {
  im_target : forall i, In i l -> d <= tgt M (cat_at (fst s) i) - ipr s i;
  im_bound : d <= - isum_of s;
  im_min : d == - isum_of s \/ exists i, In i l /\ d == tgt M (cat_at (fst s) i) - ipr s i;
  im_chosen : forall i, In i l -> nth i (iv_prices (isp_vector sp')) 0 = ipr s i + d * Qn 1;
  im_other : forall i, ~ In i l -> nth i (iv_prices (isp_vector sp')) 0 = ipr s i
}.

Lemma int_round_cases : forall M n counts t rs s, positive_counts counts t -> distinct_categories t -> indices_in_range n t ->
  (forall r, In r rs -> length r = n) -> ishape n rs s ->
  exists a l, int_largest_categories (fst s) counts t =
    Ok (a, Qn (csize (cat_at (fst s) (tindex t))) / Qn (count_at counts (tindex t)), l) /\ cut t l
  /\ ((csize (cat_at (fst s) (tindex t)) = 0%nat /\ int_round M counts t s = Ok (true, s))
      \/ ((0 < csize (cat_at (fst s) (tindex t)))%nat /\ exists d sp', imoved M l s sp' d /\ ishape n rs (fst s, sp')
          /\ ((d == - isum_of s /\ int_round M counts t s = Ok (true, (fst s, sp')))
              \/ (d < - isum_of s /\ exists cats', int_round M counts t s = Ok (false, (cats', sp')) /\ length cats' = n
                  /\ forall i, cat_at cats' i = beat (cat_at (fst s) i) (nth i (iv_prices (isp_vector sp')) 0))))).
Proof.
  intros M n counts t rs [cats sp] HP HD HR HL [S1 S2 S3 S4]. unfold iprices in *. cbn [fst snd] in *.
  destruct (int_largest_ok cats counts t HP) as (a & l & EL). exists a, l. split; [exact EL|].
  assert (CU := int_largest_cut _ _ _ _ _ _ EL). split; [exact CU|].
  unfold int_round. rewrite EL. cbn [bind fst snd]. rewrite ratio_zero by (apply HP; destruct t; left; reflexivity).
  destruct (Nat.eqb_spec (csize (cat_at cats (tindex t))) 0) as [Z|Z]; [left; auto|]. right. split; [lia|].
  assert (RC : forall i, In i l -> (i < n)%nat).
  { unfold indices_in_range in HR. rewrite Forall_forall in HR. intros i Hi. apply HR. eapply cut_incl; eassumption. }
  destruct (cut_distinct t _ HD CU) as [ND CP].
  rewrite planned_ok by (intros; rewrite S1; auto). cbn [bind].
  set (incs := map (fun i => (i, tgt M (cat_at cats i))) l) in *.
  assert (EI : map fst incs = l) by (unfold incs; rewrite map_map; simpl; apply map_id).
  assert (NE : incs <> []).
  { intros X. apply (f_equal (map fst)) in X. rewrite EI in X. simpl in X.
    destruct (path_exists t) as [p Hp]. destruct (CP p Hp) as [x [Y _]]. rewrite X in Y. destruct Y. }
  assert (II : forall i, In i l -> In (i, tgt M (cat_at cats i)) incs) by (intros i Hi; unfold incs; apply in_map_iff; eauto).
  assert (CN : forall i, (i < n)%nat -> nth i (isp_counts sp) 0%nat = 1%nat).
  { intros i Hi. rewrite S4. unfold ones. rewrite (nth_indep _ 0%nat 1%nat) by (rewrite repeat_length; assumption). apply nth_repeat. }
  destruct (int_increase_prices_spec sp incs 0 n) as (sp' & d & E & Q1 & Q2 & Q3 & Q4 & Q5 & Q6 & Q7 & _ & Q8 & Q9 & Q10 & Q11 & Q12).
  { exact NE. }
  { rewrite S3. exact HL. }
  { rewrite S4. apply repeat_length. }
  { exact S2. }
  { rewrite EI. exact ND. }
  { intros i x Hi. assert (In i l) by (rewrite <- EI; apply in_map_iff; exists (i, x); auto).
    split; [auto|]. rewrite CN by auto. lia. }
  rewrite E. cbn [bind]. rewrite EI in Q6, Q7. exists d, sp'.
  assert (IM : imoved M l (cats, sp) sp' d).
  { split; unfold ipr, isum_of, iprices; cbn [fst snd].
    - intros i Hi. apply Q9. apply II. assumption.
    - lra.
    - destruct Q10 as [X|(i & x & Hi & X)]; [left; lra|]. right. unfold incs in Hi. apply in_map_iff in Hi.
      destruct Hi as (j & Ej & Hj). injection Ej; intros <- <-. exists j. split; assumption.
    - intros i Hi. rewrite Q7 by assumption. rewrite CN by auto. reflexivity.
    - exact Q6. }
  split; [exact IM|].
  split. { split; unfold iprices; cbn [fst snd]; congruence. }
  unfold isum_of. cbn [snd].
  assert (D : d == 0 - int_price_sum (isp_vector sp) \/ d < 0 - int_price_sum (isp_vector sp)).
  { destruct (Qlt_le_dec d (0 - int_price_sum (isp_vector sp))); [right; assumption|left; lra]. }
  destruct D as [D|D].
  - left. split; [lra|]. rewrite (proj2 Q11 D). reflexivity.
  - right. split; [lra|]. rewrite (proj2 Q12 D).
    destruct (remove_beaten_ok cats (iv_prices (isp_vector sp'))) as (cats' & EB & LB & NB); [congruence|].
    rewrite EB. cbn [bind]. exists cats'. split; [reflexivity|]. split; [congruence|exact NB].
Qed.

(** ** Invariant: the remaining agents are the best ones, and they accept the prices *)

Record iinv (n : nat) (rs : list (list nat)) (m : list category) (s : int_state) : Prop := mkIInv {
  ii_shape : ishape n rs s;
  ii_pfx : forall i, pfx (cvalues (cat_at (fst s) i)) (cvalues (cat_at m i));
  ii_name : forall i, cname (cat_at (fst s) i) = cname (cat_at m i);
  ii_ir : forall i v, In v (cvalues (cat_at (fst s) i)) -> ipr s i <= v
}.

Lemma iinv_round : forall M n counts t rs m s b s', positive_counts counts t -> distinct_categories t -> indices_in_range n t ->
  (forall r, In r rs -> length r = n) -> sorted_cats m -> iinv n rs m s -> int_round M counts t s = Ok (b, s') -> iinv n rs m s'.
Proof.
  intros M n counts t rs m s b s' HP HD HR HL HS [SH PF NM IR] H.
  destruct (int_round_cases M n counts t rs s HP HD HR HL SH) as (a & l & _ & CU & [[_ E]|(_ & d & sp' & IM & SH' & C)]).
  { rewrite E in H. injection H; intros <- _. split; assumption. }
  assert (DS : forall i, desc (cvalues (cat_at (fst s) i))).
  { intros i. eapply pfx_desc; [apply PF|]. apply sorted_cats_at. assumption. }
  assert (IR' : forall i v, In v (cvalues (cat_at (fst s) i)) -> nth i (iv_prices (isp_vector sp')) 0 <= v).
  { intros i v Hv. destruct (in_dec Nat.eq_dec i l) as [Hi|Hi].
    - rewrite (im_chosen _ _ _ _ _ IM i Hi). rewrite Qmult_one. assert (X := im_target _ _ _ _ _ IM i Hi).
      assert (Y : tgt M (cat_at (fst s) i) <= v).
      { unfold tgt. destruct (cvalues (cat_at (fst s) i)) as [|w lw] eqn:Ec; [destruct Hv|]. rewrite <- Ec in *. apply last_le; auto. }
      lra.
    - rewrite (im_other _ _ _ _ _ IM i Hi). apply IR. assumption. }
  destruct C as [[_ E]|(_ & cats' & E & LC & BC)]; rewrite E in H; injection H; intros <- _.
  - split; cbn [fst snd]; assumption.
  - split; cbn [fst snd].
    + destruct SH' as [_ T2 T3 T4]. split; assumption.
    + intros i. rewrite BC. destruct (beat_cases (cat_at (fst s) i) (nth i (iv_prices (isp_vector sp')) 0)) as [[_ X]|(_ & _ & _ & X)]; rewrite X.
      * apply PF.
      * apply pfx_removelast. apply PF.
    + intros i. rewrite BC. destruct (beat_cases (cat_at (fst s) i) (nth i (iv_prices (isp_vector sp')) 0)) as [[_ X]|(_ & _ & _ & X)]; rewrite X; apply NM.
    + intros i v Hv. unfold ipr, iprices. cbn [snd]. apply IR'. rewrite BC in Hv. apply beat_In in Hv. assumption.
Qed.

Lemma iinv_loop : forall M n counts t rs m, positive_counts counts t -> distinct_categories t -> indices_in_range n t ->
  (forall r, In r rs -> length r = n) -> sorted_cats m ->
  forall fuel s s', iinv n rs m s -> int_loop M counts fuel t s = Ok s' -> iinv n rs m s'.
Proof.
  intros M n counts t rs m HP HD HR HL HS. induction fuel as [|fuel IH]; intros s s' I H; [discriminate|].
  cbn [int_loop] in H. apply bind_Ok in H. destruct H as [[b s1] [H1 H]]. cbn [fst snd] in H.
  assert (I1 := iinv_round M n counts t rs m s b s1 HP HD HR HL HS I H1).
  destruct b; [injection H; intros <-; assumption|]. eapply IH; eassumption.
Qed.

(** Returning implies positive counts. *)
Lemma explained_positive : forall cats counts prices t r, int_deals_explained cats counts prices t = Ok r -> positive_counts counts t.
Proof.
  intros cats counts prices t. induction t as [i ch IH] using rtree_ind'. intros r H.
  assert (Hi : (0 < count_at counts i)%nat).
  { cbn [int_deals_explained] in H. apply bind_Ok in H. destruct H as [s [Hs _]]. unfold size_floor in Hs.
    destruct (Nat.eqb_spec (count_at counts i) 0); [discriminate|lia]. }
  destruct (list_eq_nil_dec ch) as [->|Hne].
  - intros j [<-|[]]. assumption.
  - rewrite int_explained_node in H by assumption. apply bind_Ok in H. destruct H as [s [_ H]].
    apply bind_Ok in H. destruct H as [p [_ H]]. apply bind_Ok in H. destruct H as [rs [Hr _]].
    intros j [<-|Hj]; [assumption|]. apply in_concat in Hj. destruct Hj as (lj & Hlj & Hj). apply in_map_iff in Hlj.
    destruct Hlj as (c & <- & Hc). rewrite Forall_forall in IH. destruct (map_result_fwd _ _ _ _ _ _ Hr Hc) as (b & Hb & _).
    apply (IH c Hc b Hb). assumption.
Qed.

(** The auction after it has returned. *)
Record int_returned (M : Q) (fuel : nat) (m : market) (st : pystruct) (counts : list nat) (r : tree_trade)
  (rs : list (list nat)) (p0 : list Q) (s : int_state) : Prop := mkIR {
  ir_tree : new_int_tree (clone_market m) counts st = Ok (tt_tree r);
  ir_recipes : int_recipes (length m) counts (tt_tree r) = Ok rs;
  ir_p0 : int_initial_prices rs (- M) = Ok p0;
  ir_lengths : forall x, In x rs -> length x = length m;
  ir_nonempty : rs <> [];
  ir_lp0 : length p0 = length m;
  ir_loop : int_loop M counts fuel (tt_tree r)
     (clone_market m, mkISP rs (ones (length m)) (mkIV (hd [] rs) (ones (length m)) p0 None) None) = Ok s;
  ir_cats : tt_cats r = fst s;
  ir_prices : tt_prices r = iprices s;
  ir_positive : positive_counts counts (tt_tree r)
}.

Lemma fill_length : forall path counts r r', fill_recipe path counts r = Ok r' -> length r' = length r.
Proof.
  induction path as [|i path IH]; intros counts r r' H; cbn [fill_recipe] in H; [injection H; intros <-; reflexivity|].
  apply bind_Ok in H. destruct H as [c [_ H]]. apply bind_Ok in H. destruct H as [x [_ H]]. apply IH in H.
  rewrite set_nth_length in H. assumption.
Qed.

Lemma int_recipes_lengths : forall n counts t rs, int_recipes n counts t = Ok rs -> rs <> [] /\ forall r, In r rs -> length r = n.
Proof.
  intros n counts t rs H. unfold int_recipes in H. rewrite paths_to_leaf_spec in H. split.
  - intros ->. apply map_result_length in H. assert (X := paths_nonempty t). destruct (root_leaf_paths t); [congruence|discriminate].
  - intros r Hr. destruct (map_result_inv _ _ _ _ _ _ H Hr) as (p & _ & Hp). unfold recipe_from_path in Hp.
    apply fill_length in Hp. rewrite repeat_length in Hp. assumption.
Qed.

Lemma initial_loop_length : forall bound n D rs p p', initial_loop bound n D rs p = Ok p' -> length p' = length p.
Proof.
  intros bound n D. induction rs as [|r rs IH]; intros p p' H; cbn [initial_loop] in H; [injection H; intros <-; reflexivity|].
  apply bind_Ok in H. destruct H as [o [_ H]]. destruct o as [j|]; [|auto].
  apply bind_Ok in H. destruct H as [a [_ H]]. apply bind_Ok in H. destruct H as [q [_ H]].
  destruct (Qeq_bool q bound); [|discriminate]. apply IH in H. rewrite set_nth_length in H. assumption.
Qed.

Lemma int_initial_length : forall rs bound p n, int_initial_prices rs bound = Ok p -> rs <> [] -> (forall r, In r rs -> length r = n) ->
  length p = n.
Proof.
  intros [|r0 rs] bound p n H HN HL; [congruence|]. unfold int_initial_prices in H. apply initial_loop_length in H.
  rewrite repeat_length in H. rewrite H. apply HL. left. reflexivity.
Qed.

Lemma default_ones : forall n, default_counts (repeat 1%nat n) n = ones n.
Proof. intros [|n]; reflexivity. Qed.

Lemma new_int_sim_eq : forall rs bound p0 n, rs <> [] -> (forall r, In r rs -> length r = n) -> int_initial_prices rs bound = Ok p0 ->
  new_int_sim_prices rs bound [] = Ok (mkISP rs (ones n) (mkIV (hd [] rs) (ones n) p0 None) None).
Proof.
  intros [|r0 rs] bound p0 n HN HL HP; [congruence|]. unfold new_int_sim_prices.
  assert (AL : forallb (fun r => (length r =? length r0)%nat) (r0 :: rs) = true).
  { apply forallb_forall. intros r Hr. apply Nat.eqb_eq. rewrite (HL r Hr), (HL r0 (or_introl eq_refl)). reflexivity. }
  rewrite AL, HP. cbn [bind]. rewrite (HL r0 (or_introl eq_refl)). cbn [default_counts hd]. unfold new_int_vector_list.
  rewrite (HL r0 (or_introl eq_refl)), default_ones. reflexivity.
Qed.

Lemma int_auction_returned : forall M fuel m st counts r, int_auction M fuel m st counts = Ok r ->
  exists rs p0 s, int_returned M fuel m st counts r rs p0 s.
Proof.
  intros M fuel m st counts r H. unfold int_auction in H.
  assert (CL : length (clone_market m) = length m) by (unfold clone_market; apply map_length). rewrite CL in H.
  apply bind_Ok in H. destruct H as [t [Ht H]]. apply bind_Ok in H. destruct H as [rs [Hrs H]].
  apply bind_Ok in H. destruct H as [sp [Hsp H]]. apply bind_Ok in H. destruct H as [s [Hs H]].
  destruct (int_recipes_lengths _ _ _ _ Hrs) as [NE LR].
  assert (P0 : exists p0, int_initial_prices rs (- M) = Ok p0).
  { unfold new_int_sim_prices in Hsp. destruct rs as [|r0 rs]; [discriminate|]. destruct (forallb _ _); [|discriminate].
    apply bind_Ok in Hsp. destruct Hsp as [p0 [Hp _]]. eauto. }
  destruct P0 as [p0 P0]. rewrite (new_int_sim_eq rs (- M) p0 (length m) NE LR P0) in Hsp. injection Hsp; intros <-. clear Hsp.
  unfold new_int_trade in H. apply bind_Ok in H. destruct H as [x [Hx H]]. injection H; intros <-.
  exists rs, p0, s. split; cbn [tt_tree tt_cats tt_prices]; try assumption; try reflexivity.
  - eapply int_initial_length; eassumption.
  - eapply explained_positive. eassumption.
Qed.

Lemma int_start : forall M m rs p0, values_above (- M) m -> 0 <= M -> rs <> [] -> (forall r, In r rs -> length r = length m) ->
  int_initial_prices rs (- M) = Ok p0 ->
  iinv (length m) rs (clone_market m) (clone_market m, mkISP rs (ones (length m)) (mkIV (hd [] rs) (ones (length m)) p0 None) None).
Proof.
  intros M m rs p0 HV HM NE LR P0.
  assert (LP : length p0 = length m) by (eapply int_initial_length; eassumption).
  assert (PB : Forall (fun q => q <= - M) p0).
  { destruct rs as [|r0 rs]; [congruence|]. apply (int_initial_upper r0 rs); [lra|assumption]. }
  split.
  - split; cbn [fst snd isp_recipes isp_counts]; auto. unfold clone_market; apply map_length.
  - intros i. cbn [fst]. unfold pfx. rewrite firstn_all. reflexivity.
  - reflexivity.
  - intros i v Hv. unfold ipr, iprices. cbn [fst snd isp_vector iv_prices] in *. rewrite clone_at in Hv. rewrite clone_In in Hv.
    destruct (cat_at_In _ _ _ Hv) as [HIn Hi]. assert (X := HV _ _ HIn Hv). rewrite Forall_forall in PB.
    assert (Y : nth i p0 0 <= - M) by (apply PB; apply nth_In; lia). lra.
Qed.

Lemma int_final : forall M fuel m st counts r, 0 <= M -> int_auction M fuel m st counts = Ok r ->
  distinct_categories (tt_tree r) -> values_above (- M) m ->
  exists rs s, iinv (length m) rs (clone_market m) s /\ tt_cats r = fst s /\ tt_prices r = iprices s.
Proof.
  intros M fuel m st counts r HM H HD HV. destruct (int_auction_returned _ _ _ _ _ _ H) as (rs & p0 & s & R).
  exists rs, s. destruct R as [R1 R2 R3 R4 R5 R6 R7 R8 R9 R10]. split; [|split; assumption].
  eapply (iinv_loop M (length m) counts (tt_tree r)); try eassumption.
  - assert (X := new_tree_indices _ _ _ (int_tree_binary _ _ _ _ R1)). unfold clone_market in X. rewrite map_length in X. exact X.
  - apply clone_sorted.
  - apply (int_start M m rs p0); assumption.
Qed.

Theorem int_ir : forall M fuel m st counts r, 0 <= M -> int_auction M fuel m st counts = Ok r ->
  distinct_categories (tt_tree r) -> values_above (- M) m ->
  forall i c p v, nth_error (tt_cats r) i = Some c -> nth_error (tt_prices r) i = Some p -> In v (cvalues c) -> p <= v.
Proof.
  intros M fuel m st counts r HM H HD HV i c p v Hc Hp Hv.
  destruct (int_final _ _ _ _ _ _ HM H HD HV) as (rs & s & I & E1 & E2). rewrite E1 in Hc. rewrite E2 in Hp.
  apply (nth_error_nth _ _ 0) in Hp. apply (nth_error_nth _ _ (mkCat "" [])) in Hc. rewrite <- Hp.
  apply (ii_ir _ _ _ _ I). unfold cat_at. rewrite Hc. assumption.
Qed.

Theorem int_best_remain : forall M fuel m st counts r, 0 <= M -> int_auction M fuel m st counts = Ok r ->
  distinct_categories (tt_tree r) -> values_above (- M) m ->
  (length (tt_cats r) = length m)%nat /\ (length (tt_prices r) = length m)%nat /\ (forall i c0 c, nth_error m i = Some c0 -> nth_error (tt_cats r) i = Some c ->
    cname c = cname c0 /\ desc (cvalues c) /\
    exists gone, Permutation (cvalues c ++ gone)%list (cvalues c0) /\ (forall x y, In x (cvalues c) -> In y gone -> y <= x)).
Proof.
  intros M fuel m st counts r HM H HD HV. destruct (int_final _ _ _ _ _ _ HM H HD HV) as (rs & s & I & E1 & E2).
  rewrite E1, E2. destruct I as [[S1 S2 S3 S4] PF NM IR]. split; [assumption|]. split; [assumption|].
  intros i c0 c H0 Hc. apply (nth_error_nth _ _ (mkCat "" [])) in H0, Hc. fold (cat_at m i) in H0. fold (cat_at (fst s) i) in Hc.
  specialize (PF i). specialize (NM i). rewrite Hc in PF, NM. rewrite clone_at, H0 in PF, NM.
  split; [rewrite NM; reflexivity|]. unfold clone, new_category in PF. cbn [cvalues] in PF.
  split; [eapply pfx_desc; [exact PF|apply sort_desc_desc]|].
  exists (skipn (length (cvalues c)) (sort_desc (cvalues c0))). split.
  - unfold pfx in PF. rewrite PF at 1. rewrite firstn_skipn. apply sort_desc_perm.
  - intros x y Hx Hy. unfold pfx in PF. assert (D := sort_desc_desc (cvalues c0)). rewrite <- (firstn_skipn (length (cvalues c))) in D.
    apply desc_app_inv in D. destruct D as (_ & _ & D). rewrite PF in Hx. apply D; assumption.
Qed.

(** ** Exceptions and termination *)

Lemma int_explained_total : forall cats counts prices t, positive_counts counts t -> indices_in_range (length prices) t ->
  exists r, int_deals_explained cats counts prices t = Ok r.
Proof. intros cats counts prices t HP HR. destruct (int_explained_ok cats counts prices t HP HR) as (k & E & _). eauto. Qed.

Theorem int_no_raise : forall M fuel m st counts t rs p0, new_int_tree (clone_market m) counts st = Ok t ->
  distinct_categories t -> positive_counts counts t -> int_recipes (length m) counts t = Ok rs ->
  int_initial_prices rs (- M) = Ok p0 -> forall e, int_auction M fuel m st counts <> Raise e.
Proof.
  intros M fuel m st counts t rs p0 HT HD HP HR P0 e H. unfold int_auction in H. rewrite HT in H. cbn [bind] in H.
  assert (CL : length (clone_market m) = length m) by (unfold clone_market; apply map_length). rewrite CL, HR in H. cbn [bind] in H.
  destruct (int_recipes_lengths _ _ _ _ HR) as [NE LR].
  assert (RG := new_tree_indices _ _ _ (int_tree_binary _ _ _ _ HT)). rewrite CL in RG.
  rewrite (new_int_sim_eq rs (- M) p0 (length m) NE LR P0) in H. cbn [bind] in H.
  set (s0 := (clone_market m, mkISP rs (ones (length m)) (mkIV (hd [] rs) (ones (length m)) p0 None) None) : int_state) in *.
  assert (SH : ishape (length m) rs s0).
  { split; cbn [fst snd]; auto. unfold iprices; simpl. eapply int_initial_length; eassumption. }
  assert (K : forall f s, ishape (length m) rs s -> (exists s', int_loop M counts f t s = Ok s' /\ ishape (length m) rs s') \/ int_loop M counts f t s = Timeout).
  { induction f as [|f IH]; intros s Hs; [right; reflexivity|]. cbn [int_loop].
    destruct (int_round_cases M (length m) counts t rs s HP HD RG LR Hs) as (a & l & _ & _ & [[_ E]|(_ & d & sp' & _ & SH' & [[_ E]|(_ & cats' & E & LC & _)])]);
      rewrite E; cbn [bind fst snd].
    - left. exists s. auto.
    - left. eexists. split; [reflexivity|exact SH'].
    - apply IH. destruct SH' as [_ T2 T3 T4]. split; assumption. }
  destruct (K fuel s0 SH) as [(s & E & Hs)|E]; rewrite E in H; cbn [bind] in H; [|discriminate].
  unfold new_int_trade in H. destruct (int_explained_total (fst s) counts (iv_prices (isp_vector (snd s))) t HP) as [x Ex].
  { fold (iprices s). rewrite (is_prices _ _ _ Hs). exact RG. }
  rewrite Ex in H. discriminate.
Qed.

(** A category of the tree with count 0 makes a normal end impossible. *)
Theorem int_zero_count : forall M fuel m st counts t i, new_int_tree (clone_market m) counts st = Ok t ->
  In i (node_indices t) -> count_at counts i = 0%nat -> forall r, int_auction M fuel m st counts <> Ok r.
Proof.
  intros M fuel m st counts t i HT Hi Hc r H. destruct (int_auction_returned _ _ _ _ _ _ H) as (rs & p0 & s & R).
  assert (T := ir_tree _ _ _ _ _ _ _ _ _ R). rewrite HT in T. injection T; intros ->.
  assert (X := ir_positive _ _ _ _ _ _ _ _ _ R i Hi). lia.
Qed.

(** Single-path trees. *)
Lemma single_largest : forall cats counts t a b l, single_path t -> int_largest_categories cats counts t = Ok (a, b, l) ->
  (0 < csize (cat_at cats (tindex t)))%nat -> exists i, l = [i] /\ (0 < csize (cat_at cats i))%nat.
Proof.
  intros cats counts t a b l HS. revert a b l. induction HS as [i|i c HS IH]; intros a b l H H0; cbn [int_largest_categories] in H.
  - apply bind_Ok in H. destruct H as [s [_ H]]. cbn [map_result bind nsum fold_right] in H. rewrite orb_true_r in H.
    injection H; intros <- _ _. eauto.
  - apply bind_Ok in H. destruct H as [s [_ H]]. apply bind_Ok in H. destruct H as [ss [Hs H]].
    destruct (Qlt_bool (Qn (nsum ss)) s || (nsum ss =? 0)%nat) eqn:E; [injection H; intros <- _ _; eauto|].
    apply bind_Ok in H. destruct H as [rs [Hr H]]. injection H; intros <- _ _.
    cbn [map_result] in Hr. apply bind_Ok in Hr. destruct Hr as [[[a1 b1] l1] [Hc Hr]]. cbn [bind] in Hr. injection Hr; intros <-.
    cbn [map concat snd]. rewrite app_nil_r. apply (IH a1 b1 l1 Hc).
    cbn [map_result] in Hs. apply bind_Ok in Hs. destruct Hs as [x [Hx Hs]]. cbn [bind] in Hs. injection Hs; intros <-.
    apply orb_false_iff in E. destruct E as [_ E]. unfold size_ceil in Hx. destruct (count_at counts (tindex c) =? 0)%nat eqn:Ec; [discriminate|].
    injection Hx; intros <-. apply Nat.eqb_neq in Ec. cbn [nsum fold_right] in E. apply Nat.eqb_neq in E.
    destruct (csize (cat_at cats (tindex c))) as [|k]; [|lia]. exfalso. apply E. unfold ceil_div. rewrite Nat.add_0_l, Nat.add_0_r.
    apply Nat.div_small. lia.
Qed.

Lemma single_recipe : forall t, single_path t -> exists p, root_leaf_paths t = [p].
Proof.
  intros t H. induction H as [i|i c H [p IH]]; [eexists; reflexivity|]. exists (i :: p). rewrite paths_node by discriminate.
  simpl. rewrite IH. reflexivity.
Qed.

Lemma single_initial : forall r bound, exists p, int_initial_prices [r] bound = Ok p.
Proof.
  intros r bound. unfold int_initial_prices. cbn [initial_loop].
  destruct (last_used_ok r (length r) (le_n _)) as [o E]. rewrite E. cbn [bind]. assert (S := last_used_spec _ _ _ E).
  destruct o as [j|]; [|eauto]. destruct S as (S1 & S2 & S3 & _).
  rewrite (get_lt _ _ _ 0%nat) by assumption. cbn [bind].
  rewrite (get_lt _ _ _ bound) by (rewrite repeat_length; assumption). cbn [bind]. rewrite nth_repeat.
  rewrite (proj2 (Qeq_bool_iff bound bound)) by reflexivity. eauto.
Qed.

Lemma int_recipes_any : forall n counts t, (counts <> [] -> indices_in_range (length counts) t) -> indices_in_range n t ->
  exists rs, int_recipes n counts t = Ok rs.
Proof.
  intros n counts t HC HR. unfold int_recipes. rewrite paths_to_leaf_spec.
  destruct (map_result_Forall2 _ _ (fun path => recipe_from_path path n (default_counts counts n)) (fun _ _ => True) (root_leaf_paths t)) as (rs & E & _); [|eauto].
  intros p Hp. apply root_leaf_paths_In in Hp.
  assert (B : forall k, indices_in_range k t -> Forall (fun i => (i < k)%nat) p).
  { intros k Hk. unfold indices_in_range in Hk. rewrite Forall_forall in *. intros i Hi. apply Hk. eapply is_path_indices; eassumption. }
  set (dc := default_counts counts n).
  assert (X : forall path recipe, Forall (fun i => (i < n)%nat) path -> Forall (fun i => dc = [] \/ (i < length dc)%nat) path ->
    length recipe = n -> exists r, fill_recipe path dc recipe = Ok r).
  { induction path as [|j path IH]; intros recipe F1 F2 L; [simpl; eauto|].
    apply Forall_cons_iff in F1. apply Forall_cons_iff in F2. destruct F1 as [A1 F1], F2 as [A2 F2]. cbn [fill_recipe].
    assert (Y : exists c, (match dc with [] => Ok 1%nat | _ :: _ => get dc j end) = Ok c).
    { destruct A2 as [A2|A2]; [rewrite A2; eauto|]. rewrite (get_lt _ _ _ 0%nat) by assumption. destruct dc; eauto. }
    destruct Y as [c Y]. rewrite Y. cbn [bind]. rewrite (get_lt _ _ _ 0%nat) by lia. cbn [bind].
    apply IH; [assumption|assumption|]. rewrite set_nth_length. assumption. }
  destruct (X p (repeat 0%nat n)) as [r Er]; [apply B; assumption| |apply repeat_length|].
  - unfold dc, default_counts. destruct counts as [|c0 cs].
    + rewrite repeat_length. eapply Forall_impl; [|apply (B n HR)]. auto.
    + eapply Forall_impl; [|apply (B _ (HC ltac:(discriminate)))]. auto.
  - exists r. unfold recipe_from_path. auto.
Qed.

Theorem int_single_terminates : forall M fuel m st counts t, new_int_tree (clone_market m) counts st = Ok t ->
  distinct_categories t -> positive_counts counts t -> single_path t -> (agents_number m < fuel)%nat ->
  exists r, int_auction M fuel m st counts = Ok r.
Proof.
  intros M fuel m st counts t HT HD HP HS HF.
  assert (CL : length (clone_market m) = length m) by (unfold clone_market; apply map_length).
  assert (RG := new_tree_indices _ _ _ (int_tree_binary _ _ _ _ HT)). rewrite CL in RG.
  destruct (int_recipes_any (length m) counts t) as [rs HR]; [intros; eapply int_tree_counts; eassumption|assumption|].
  assert (P0 : exists p0, int_initial_prices rs (- M) = Ok p0).
  { destruct (single_recipe t HS) as [p Ep]. unfold int_recipes in HR. rewrite paths_to_leaf_spec, Ep in HR. cbn [map_result] in HR.
    apply bind_Ok in HR. destruct HR as [r [_ HR]]. cbn [bind] in HR. injection HR; intros <-. apply single_initial. }
  destruct P0 as [p0 P0]. assert (NR := int_no_raise M fuel m st counts t rs p0 HT HD HP HR P0).
  destruct (int_auction M fuel m st counts) as [r|e|] eqn:EA; [eauto|exfalso; eapply NR; reflexivity|]. exfalso.
  unfold int_auction in EA. rewrite HT in EA. cbn [bind] in EA. rewrite CL, HR in EA. cbn [bind] in EA.
  destruct (int_recipes_lengths _ _ _ _ HR) as [NE LR].
  rewrite (new_int_sim_eq rs (- M) p0 (length m) NE LR P0) in EA. cbn [bind] in EA.
  set (s0 := (clone_market m, mkISP rs (ones (length m)) (mkIV (hd [] rs) (ones (length m)) p0 None) None) : int_state) in *.
  assert (SH : ishape (length m) rs s0).
  { split; cbn [fst snd]; auto. unfold iprices; simpl. eapply int_initial_length; eassumption. }
  assert (K : forall f s, ishape (length m) rs s -> (agents_number (fst s) < f)%nat ->
     exists s', int_loop M counts f t s = Ok s').
  { induction f as [|f IH]; intros s Hs Hf; [lia|]. cbn [int_loop].
    destruct (int_round_cases M (length m) counts t rs s HP HD RG LR Hs) as (a & l & EL & _ & [[_ E]|(H0 & d & sp' & IM & SH' & [[_ E]|(Hd & cats' & E & LC & BC)])]);
      rewrite E; cbn [bind fst snd]; [eauto|eauto|].
    destruct (single_largest _ _ _ _ _ _ HS EL H0) as (i & -> & Hi).
    apply IH; [destruct SH' as [_ T2 T3 T4]; split; assumption|]. cbn [fst].
    assert (agents_number cats' < agents_number (fst s))%nat; [|lia]. unfold agents_number. apply (nsum_lt_nth _ _ i).
    - rewrite !map_length. rewrite (is_cats _ _ _ Hs). assumption.
    - intros j. rewrite !agents_nth, BC. apply beat_size'.
    - rewrite !agents_nth, BC. apply beat_size_lt; [assumption|]. rewrite (im_chosen _ _ _ _ _ IM i (or_introl eq_refl)), Qmult_one.
      destruct (im_min _ _ _ _ _ IM) as [X|(j & [->|[]] & X)]; [lra|]. unfold tgt, csize in *.
      destruct (cvalues (cat_at (fst s) j)); [simpl in Hi; lia|]. lra. }
  destruct (K fuel s0 SH) as [s E].
  { cbn [fst s0]. unfold s0. cbn [fst]. rewrite clone_agents. assumption. }
  rewrite E in EA. cbn [bind] in EA. unfold new_int_trade in EA.
  destruct (int_deals_explained (fst s) counts (iv_prices (isp_vector (snd s))) t) as [x|e|] eqn:Ex; cbn [bind] in EA; try discriminate.
  assert (SHs : ishape (length m) rs s).
  { clear - E SH HP HD RG LR. revert E SH. generalize s0. induction fuel as [|f IH]; intros s1 E SH; [discriminate|]. cbn [int_loop] in E.
    destruct (int_round_cases M (length m) counts t rs s1 HP HD RG LR SH) as (a & l & _ & _ & [[_ E1]|(_ & d & sp' & _ & SH' & [[_ E1]|(_ & cats' & E1 & LC & _)])]);
      rewrite E1 in E; cbn [bind fst snd] in E.
    - injection E; intros <-. assumption.
    - injection E; intros <-. assumption.
    - apply IH in E; [assumption|]. destruct SH' as [_ T2 T3 T4]. split; assumption. }
  destruct (int_explained_total (fst s) counts (iv_prices (isp_vector (snd s))) t HP) as [y Ey].
  { fold (iprices s). rewrite (is_prices _ _ _ SHs). exact RG. }
  congruence.
Qed.
