(** * Termination of the tree auction (C38) *)

From Coq Require Import String List Arith Lia QArith Lqa Permutation Sorted Bool.
From Verif Require Import Base Model_Agents Model_Trade Model_Prices Model_Market Model_RecipeTree Model_TreeAuction
  Spec_Market Spec_RecipeTree Spec_TreeAuction Proof_Tree Proof_Tree2 Proof_Tree3 Proof_TA1 Proof_TA2 Proof_TA3 Proof_TA4.
Import ListNotations.
Open Scope Q_scope.

(** ** Subtrees *)

Lemma subtree_trans : forall t c x, subtree t c -> subtree c x -> subtree t x.
Proof. intros t c x H1 H2. induction H2; [assumption|]. eapply st_down; eassumption. Qed.

Lemma node_subtree : forall t i, In i (node_indices t) -> exists ch, subtree t (Node i ch).
Proof.
  intros t. induction t as [j ch IH] using rtree_ind'. intros i [<-|Hi]; [exists ch; constructor|].
  apply in_concat in Hi. destruct Hi as [l [Hl Hi]]. apply in_map_iff in Hl. destruct Hl as [c [<- Hc]].
  rewrite Forall_forall in IH. destruct (IH c Hc i Hi) as [ch' H]. exists ch'. eapply subtree_trans; [|exact H].
  eapply st_down; [constructor|assumption].
Qed.

Lemma tindex_node : forall t, In (tindex t) (node_indices t).
Proof. intros [i ch]. left. reflexivity. Qed.

Lemma child_node : forall i ch c j, In c ch -> In j (node_indices c) -> In j (node_indices (Node i ch)).
Proof.
  intros i ch c j Hc Hj. right. apply in_concat. exists (node_indices c). split; [apply in_map; assumption|assumption].
Qed.

Lemma subtree_nodes : forall t x j, subtree t x -> In j (node_indices x) -> In j (node_indices t).
Proof. intros t x j H. induction H as [|i ch c H IH Hc]; [auto|]. intros Hj. apply IH. eapply child_node; eassumption. Qed.

Lemma subtree_distinct : forall t x, distinct_categories t -> subtree t x -> distinct_categories x.
Proof. intros t x HD H. induction H as [|i ch c H IH Hc]; [assumption|]. eapply distinct_child; eassumption. Qed.

Lemma NoDup_concat_same : forall A (f : A -> list nat) l a b x, NoDup (concat (map f l)) ->
  In a l -> In b l -> In x (f a) -> In x (f b) -> a = b.
Proof.
  intros A f. induction l as [|c l IH]; intros a b x ND Ha Hb Hxa Hxb; [destruct Ha|].
  cbn [map concat] in ND. apply NoDup_app_inv in ND. destruct ND as (N1 & N2 & D).
  assert (K : forall e, In e l -> In x (f e) -> In x (concat (map f l))).
  { intros e He Hx. apply in_concat. exists (f e). split; [apply in_map; assumption|assumption]. }
  destruct Ha as [<-|Ha]; destruct Hb as [<-|Hb]; auto.
  - exfalso. apply (D x); eauto.
  - exfalso. apply (D x); eauto.
  - eapply IH; eassumption.
Qed.

(** ** The chosen categories of a subtree *)

Lemma largest_node : forall cats i ch,
  (snd (largest_categories cats (Node i ch)) = [i]
   /\ (children_size cats ch < csize (cat_at cats i) \/ children_size cats ch = 0)%nat)
  \/ (snd (largest_categories cats (Node i ch)) = concat (map (fun c => snd (largest_categories cats c)) ch)
   /\ (csize (cat_at cats i) <= children_size cats ch /\ children_size cats ch <> 0)%nat).
Proof.
  intros cats i ch. cbn [largest_categories]. fold (children_size cats ch).
  destruct (Nat.ltb_spec (children_size cats ch) (csize (cat_at cats i))) as [H|H]; cbn [orb].
  - left. auto.
  - destruct (Nat.eqb_spec (children_size cats ch) 0) as [Z|Z]; [left; auto|].
    right. cbn [snd]. rewrite map_map. auto.
Qed.

Lemma chosen_restrict : forall t cats x, distinct_categories t -> subtree t x ->
  (forall j, In j (node_indices x) -> ~ In j (snd (largest_categories cats t)))
  \/ (forall j, In j (node_indices x) -> (In j (snd (largest_categories cats t)) <-> In j (snd (largest_categories cats x)))).
Proof.
  intros t cats x HD H. induction H as [|i ch c H IH Hc]; [right; tauto|].
  assert (HDn := subtree_distinct _ _ HD H). destruct (distinct_inv _ _ HDn) as [Hi HDc].
  destruct IH as [IH|IH].
  - left. intros j Hj. apply IH. eapply child_node; eassumption.
  - destruct (largest_node cats i ch) as [[E _]|[E _]].
    + left. intros j Hj Hin. apply IH in Hin; [|eapply child_node; eassumption]. rewrite E in Hin.
      destruct Hin as [<-|[]]. apply Hi. apply in_concat. exists (node_indices c). split; [apply in_map|]; assumption.
    + right. intros j Hj. rewrite (IH j) by (eapply child_node; eassumption). rewrite E, in_concat. split.
      * intros [l [Hl Hjl]]. apply in_map_iff in Hl. destruct Hl as [c' [<- Hc']].
        assert (c' = c); [|subst; assumption].
        eapply (NoDup_concat_same _ node_indices); [exact HDc|exact Hc'|exact Hc| |exact Hj].
        eapply cut_incl; [apply (largest_cut cats c')|assumption].
      * intros Hjl. exists (snd (largest_categories cats c)). split; [|assumption].
        apply in_map_iff. exists c. auto.
Qed.

Lemma chosen_node : forall t cats i ch, distinct_categories t -> subtree t (Node i ch) ->
  In i (snd (largest_categories cats t)) ->
  (children_size cats ch < csize (cat_at cats i) \/ children_size cats ch = 0)%nat
  /\ (forall c j, In c ch -> In j (node_indices c) -> ~ In j (snd (largest_categories cats t))).
Proof.
  intros t cats i ch HD H Hin. assert (HDn := subtree_distinct _ _ HD H). destruct (distinct_inv _ _ HDn) as [Hi HDc].
  destruct (chosen_restrict t cats _ HD H) as [K|K]; [exfalso; apply (K i); [left; reflexivity|assumption]|].
  assert (Hin' := Hin). apply K in Hin'; [|left; reflexivity].
  destruct (largest_node cats i ch) as [[E C]|[E C]].
  - split; [assumption|]. intros c j Hc Hj X. apply K in X; [|eapply child_node; eassumption]. rewrite E in X.
    destruct X as [<-|[]]. apply Hi. apply in_concat. exists (node_indices c). split; [apply in_map|]; assumption.
  - exfalso. rewrite E in Hin'. apply in_concat in Hin'. destruct Hin' as [l [Hl Hjl]].
    apply in_map_iff in Hl. destruct Hl as [c' [<- Hc']]. apply Hi. apply in_concat. exists (node_indices c').
    split; [apply in_map; assumption|]. eapply cut_incl; [apply (largest_cut cats c')|assumption].
Qed.

Lemma chosen_below : forall t cats i ch c j, distinct_categories t -> subtree t (Node i ch) -> In c ch ->
  In j (node_indices c) -> In j (snd (largest_categories cats t)) ->
  (csize (cat_at cats i) <= children_size cats ch /\ children_size cats ch <> 0)%nat
  /\ ~ In i (snd (largest_categories cats t)).
Proof.
  intros t cats i ch c j HD H Hc Hj Hin.
  assert (NI : ~ In i (snd (largest_categories cats t))).
  { intros X. destruct (chosen_node _ _ _ _ HD H X) as [_ Y]. eapply Y; eassumption. }
  split; [|assumption].
  destruct (chosen_restrict t cats _ HD H) as [K|K]; [exfalso; eapply K; [eapply child_node; eassumption|eassumption]|].
  destruct (largest_node cats i ch) as [[E C]|[E C]]; [|assumption].
  exfalso. apply NI. apply K; [left; reflexivity|]. rewrite E. left. reflexivity.
Qed.

Lemma nsum_zero : forall A (f : A -> nat) l, nsum (map f l) = 0%nat -> forall a, In a l -> f a = 0%nat.
Proof. intros A f. induction l as [|b l IH]; intros H a Ha; [destruct Ha|]. simpl in H. destruct Ha as [<-|Ha]; [lia|]. apply IH; [lia|assumption]. Qed.

Lemma nsum_nonzero : forall A (f : A -> nat) l, nsum (map f l) <> 0%nat -> exists a, In a l /\ (0 < f a)%nat.
Proof.
  intros A f. induction l as [|b l IH]; intros H; [simpl in H; lia|]. simpl in H.
  destruct (Nat.eq_dec (f b) 0) as [Z|Z]; [|exists b; split; [left; reflexivity|lia]].
  destruct IH as [a [Ha Hf]]; [lia|]. exists a. split; [right|]; assumption.
Qed.

(** ** Balanced prices *)

Lemma path_exists : forall t, exists p, is_path t p.
Proof.
  intros t. destruct (root_leaf_paths t) as [|p ps] eqn:E; [exfalso; eapply paths_nonempty; exact E|].
  exists p. apply root_leaf_paths_In. rewrite E. left. reflexivity.
Qed.

Lemma path_sum_cons : forall p i q, path_sum p (i :: q) == nth i p 0 + path_sum p q.
Proof. intros. unfold path_sum. cbn [map]. rewrite Qsum_cons. reflexivity. Qed.

Definition balanced (p : list Q) (x : rtree) : Prop :=
  forall a b, is_path x a -> is_path x b -> path_sum p a == path_sum p b.

Lemma balanced_sub : forall p t x, balanced p t -> subtree t x -> balanced p x.
Proof.
  intros p t x HB H. induction H as [|i ch c H IH Hc]; [assumption|].
  intros a b Ha Hb. assert (X := IH (i :: a) (i :: b) (path_down _ _ _ _ Hc Ha) (path_down _ _ _ _ Hc Hb)).
  rewrite !path_sum_cons in X. lra.
Qed.

Lemma balanced_siblings : forall p i ch c c' a b, balanced p (Node i ch) -> In c ch -> In c' ch ->
  is_path c a -> is_path c' b -> path_sum p a == path_sum p b.
Proof.
  intros p i ch c c' a b HB Hc Hc' Ha Hb.
  assert (X := HB (i :: a) (i :: b) (path_down _ _ _ _ Hc Ha) (path_down _ _ _ _ Hc' Hb)).
  rewrite !path_sum_cons in X. lra.
Qed.

Lemma good_balanced : forall n t rs s S, setup n t rs -> distinct_categories t -> good n rs s S -> balanced (prices_of s) t.
Proof.
  intros n t rs s S SU HD G a b Ha Hb.
  rewrite (sums_paths _ _ _ _ _ SU HD (g_prices _ _ _ _ G) (g_sums _ _ _ _ G) a Ha).
  rewrite (sums_paths _ _ _ _ _ SU HD (g_prices _ _ _ _ G) (g_sums _ _ _ _ G) b Hb). reflexivity.
Qed.

(** ** Progress and the number of agents *)

Lemma nsum_le_nth : forall l l', length l = length l' -> (forall i, (nth i l 0 <= nth i l' 0)%nat) -> (nsum l <= nsum l')%nat.
Proof.
  induction l as [|a l IH]; intros [|a' l'] HL H; simpl in HL; try lia.
  assert (X := H 0%nat). simpl in X. specialize (IH l' ltac:(lia) (fun i => H (S i))). simpl. lia.
Qed.

Lemma nsum_lt_nth : forall l l' k, length l = length l' -> (forall i, (nth i l 0 <= nth i l' 0)%nat) ->
  (nth k l 0 < nth k l' 0)%nat -> (nsum l < nsum l')%nat.
Proof.
  induction l as [|a l IH]; intros [|a' l'] k HL H Hk; simpl in HL; try lia.
  assert (X := H 0%nat). simpl in X. destruct k as [|k]; simpl in Hk.
  - assert (Y := nsum_le_nth l l' ltac:(lia) (fun i => H (S i))). simpl. lia.
  - specialize (IH l' k ltac:(lia) (fun i => H (S i)) Hk). simpl. lia.
Qed.

Lemma agents_nth : forall cats i, nth i (map csize cats) 0%nat = csize (cat_at cats i).
Proof. intros cats i. unfold cat_at. change 0%nat with (csize (mkCat "" [])) at 1. apply map_nth. Qed.

Lemma beat_size' : forall c p, (csize (beat c p) <= csize c)%nat.
Proof.
  intros c p. destruct (beat_cases c p) as [[_ E]|(_ & _ & _ & E)]; rewrite E; [lia|].
  unfold csize. simpl. rewrite removelast_firstn_len, firstn_length. lia.
Qed.

Lemma beat_size_lt : forall c p, (0 < csize c)%nat -> last (cvalues c) 0 <= p -> (csize (beat c p) < csize c)%nat.
Proof.
  intros c p H HP. destruct (beat_cases c p) as [[B E]|(_ & _ & _ & E)]; rewrite E.
  - exfalso. unfold beaten, csize in *. destruct (cvalues c); [simpl in H; lia|].
    apply Qle_bool_iff in HP. congruence.
  - unfold csize in *. simpl. rewrite removelast_firstn_len, firstn_length. lia.
Qed.

(** If the minimum is reached at a non-empty category in every round that goes on, there is an end. *)
Lemma progress_agents : forall M n t rs s S s' d, moved M t s s' S d ->
  good n rs s S -> good n rs s' (S + d) -> d < - S ->
  (forall i, cat_at (cats_of s') i = beat (cat_at (cats_of s) i) (pr s' i)) ->
  (exists i, In i (chosen t s) /\ (0 < sz s i)%nat /\ d == tgt M (cat_at (cats_of s) i) - pr s i) ->
  (agents_number (cats_of s') < agents_number (cats_of s))%nat.
Proof.
  intros M n t rs s S s' d MV G G' Hd HC [i [Hi [Hs E]]]. unfold agents_number.
  apply (nsum_lt_nth _ _ i).
  - rewrite !map_length. rewrite (g_cats _ _ _ _ G), (g_cats _ _ _ _ G'). reflexivity.
  - intros j. rewrite !agents_nth, HC. apply beat_size'.
  - rewrite !agents_nth, HC. apply beat_size_lt; [exact Hs|].
    rewrite (mv_chosen _ _ _ _ _ _ MV i Hi), E. unfold tgt, sz, csize in *.
    destruct (cvalues (cat_at (cats_of s) i)); [simpl in Hs; lia|]. lra.
Qed.

(** A loop whose rounds keep an invariant and lose an agent unless they are the last. *)
Lemma loop_ends : forall M t (P : tree_state -> Prop),
  (forall s, P s -> exists b s', tree_round M t s = Ok (b, s')
     /\ (b = false -> P s' /\ (agents_number (cats_of s') < agents_number (cats_of s))%nat)) ->
  forall fuel s, P s -> (agents_number (cats_of s) < fuel)%nat -> exists s', tree_loop M fuel t s = Ok s'.
Proof.
  intros M t P HP. induction fuel as [|fuel IH]; intros s Hs Hf; [lia|]. cbn [tree_loop].
  destruct (HP s Hs) as (b & s' & -> & K). cbn [bind fst snd]. destruct b; [eauto|].
  destruct (K eq_refl) as [K1 K2]. apply IH; [assumption|lia].
Qed.

Lemma clone_agents : forall m, agents_number (clone_market m) = agents_number m.
Proof.
  intros m. unfold agents_number, clone_market. rewrite map_map. f_equal. apply map_ext. intros c.
  unfold csize, clone, new_category. simpl. apply sort_desc_length.
Qed.

(** The whole auction returns if its loop does. *)
Lemma auction_ends : forall M p0 fuel m st t rs, new_tree (clone_market m) st = Ok t ->
  distinct_categories t -> recipes (length m) t = Ok rs -> length p0 = length m -> (exists S, equal_sums rs p0 S) ->
  ~ (tchildren t = [] /\ (0 < csize (cat_at m (tindex t)))%nat) ->
  (forall sp, new_sim_prices rs p0 = Ok sp -> exists s', tree_loop M fuel t (clone_market m, sp) = Ok s') ->
  exists r, tree_auction M p0 fuel m st = Ok r.
Proof.
  intros M p0 fuel m st t rs Ht HD Hrs HL HS HN HX.
  assert (NR := tree_no_raise M p0 fuel m st t rs Ht HD Hrs HL HS HN).
  destruct (tree_auction M p0 fuel m st) as [r|e|] eqn:E; [eauto|exfalso; eapply NR; reflexivity|].
  exfalso. unfold tree_auction in E. rewrite Ht in E. cbn [bind] in E.
  assert (L : length (clone_market m) = length m) by apply map_length. rewrite L, Hrs in E. cbn [bind] in E.
  destruct (new_tree_setup _ _ _ Ht) as [rs' [E' SU]]. rewrite Hrs in E'. injection E'; intros <-. clear E'.
  destruct (tree_optimal_trade_errors (clone_market m) t) as [[o [Ho _]]|[Ho _]]; rewrite Ho in E; [|discriminate].
  cbn [bind] in E. destruct (new_sim_ok _ _ _ p0 SU) as [sp Hsp]. rewrite Hsp in E. cbn [bind] in E.
  destruct (HX sp Hsp) as [s' Hs]. unfold market in *. rewrite Hs in E. cbn [bind] in E. unfold new_tree_trade in E.
  destruct HS as [S HS].
  destruct (start_good _ _ _ _ _ (clone_market m) SU Hsp) with (S := S) as [G EP]; [assumption|assumption|assumption|].
  destruct (loop_visited _ _ _ _ _ _ (tv_start _ _ _) Hs) as [s1 [V HR]].
  assert (G1 : exists S1, good (length m) rs s1 S1).
  { clear HR. induction V as [|s s2 V [S1 G1] HR]; [eauto|].
    destruct (round_inv _ _ _ _ _ _ _ _ SU G1 HR) as [[X _]|[d [_ [G' _]]]]; [discriminate|eauto]. }
  destruct G1 as [S1 G1].
  assert (G2 : exists S2, good (length m) rs s' S2).
  { destruct (round_inv _ _ _ _ _ _ _ _ SU G1 HR) as [(_ & -> & _)|[d [_ [G' _]]]]; eauto. }
  destruct G2 as [S2 G2].
  destruct (deals_explained_ok (cats_of s') (prices_of s') t) as (k1 & k2 & Y & _).
  { rewrite (g_prices _ _ _ _ G2). apply SU. }
  unfold cats_of, prices_of in Y. rewrite Y in E. discriminate.
Qed.

(** ** Brooms: a path whose last inner node may have several leaves *)

(** Every chosen empty category has a non-empty sibling. *)
Lemma empty_sibling : forall M t s s' S d i, distinct_categories t -> moved M t s s' S d -> In i (chosen t s) -> sz s i = 0%nat ->
  exists ch j chj c, subtree t (Node j chj) /\ In (Node i ch) chj /\ In c chj /\ (0 < sz s (tindex c))%nat
    /\ ~ In j (chosen t s).
Proof.
  intros M t s s' S d i HD MV Hi Hs. destruct (node_subtree t i (chosen_incl t s i Hi)) as [ch H].
  inversion H as [E|j chj c H' Hc E].
  - exfalso. assert (X := mv_root _ _ _ _ _ _ MV). rewrite E in X. simpl in X. lia.
  - destruct (chosen_below t (cats_of s) j chj (Node i ch) i HD H' Hc) as [[_ K] NI]; [left; reflexivity|exact Hi|].
    unfold children_size in K. apply nsum_nonzero in K. destruct K as [c' [Hc' Hp]].
    exists ch, j, chj, c'. auto.
Qed.

Lemma broom_sub : forall t x, broom t -> subtree t x -> broom x.
Proof.
  intros t x HB H. induction H as [|i ch c H IH Hc]; [assumption|].
  inversion IH as [? ? HL|? c' HB']; subst.
  - rewrite Forall_forall in HL. specialize (HL c Hc). destruct c as [k l]. simpl in HL. subst l. constructor. constructor.
  - destruct Hc as [<-|[]]. assumption.
Qed.

Lemma broom_round : forall M n t rs m s, setup n t rs -> distinct_categories t -> broom t ->
  values_below M m -> sorted_cats m ->
  (exists S, good n rs s S) -> (forall i, pfx (cvalues (cat_at (cats_of s) i)) (cvalues (cat_at m i))) ->
  exists b s', tree_round M t s = Ok (b, s')
     /\ (b = false -> ((exists S, good n rs s' S) /\ (forall i, pfx (cvalues (cat_at (cats_of s') i)) (cvalues (cat_at m i))))
                    /\ (agents_number (cats_of s') < agents_number (cats_of s))%nat).
Proof.
  intros M n t rs m s SU HD HB HV HS [S G] HP.
  destruct (round_total M _ _ _ _ _ SU HD G) as [b [s' HR]]. exists b, s'. split; [assumption|]. intros ->.
  destruct (round_inv _ _ _ _ _ _ _ _ SU G HR) as [[X _]|[d [MV [G' [[X _]|[_ [Hd HC]]]]]]]; try discriminate.
  split.
  { split; [eauto|]. intros i. rewrite HC.
    destruct (beat_cases (cat_at (cats_of s) i) (pr s' i)) as [[_ E]|(_ & _ & _ & E)]; rewrite E; [apply HP|].
    simpl. apply pfx_removelast. apply HP. }
  eapply progress_agents; try eassumption.
  destruct (mv_min _ _ _ _ _ _ MV) as [E|[i [Hi E]]]; [lra|].
  destruct (Nat.eq_dec (sz s i) 0) as [Z|Z]; [|exists i; split; [assumption|]; split; [lia|assumption]].
  destruct (empty_sibling _ _ _ _ _ _ _ HD MV Hi Z) as (ch & j & chj & c & H & Hc & Hc' & Hp & NJ).
  assert (BJ := broom_sub _ _ HB H).
  inversion BJ as [? ? HL|? c' HB']; subst.
  2: { destruct Hc as [->|[]]. destruct Hc' as [<-|[]]. simpl in Hp. lia. }
  rewrite Forall_forall in HL. assert (L1 := HL _ Hc). assert (L2 := HL _ Hc'). destruct c as [k l]. simpl in L1, L2, Hp. subst ch l.
  assert (Hk : In k (chosen t s)).
  { destruct (chosen_restrict t (cats_of s) _ HD H) as [K|K].
    - exfalso. apply (K i); [eapply child_node; [exact Hc|left; reflexivity]|exact Hi].
    - apply K; [eapply child_node; [exact Hc'|left; reflexivity]|].
      destruct (largest_node (cats_of s) j chj) as [[E1 _]|[E1 _]].
      + exfalso. apply NJ. apply K; [left; reflexivity|]. rewrite E1. left. reflexivity.
      + rewrite E1. apply in_concat. exists [k]. split; [|left; reflexivity]. apply in_map_iff. exists (Node k []). split; [|assumption].
        destruct (largest_node (cats_of s) k []) as [[E2 _]|[_ [_ E2]]]; [assumption|]. exfalso. apply E2. reflexivity. }
  assert (BL := balanced_sub _ _ _ (good_balanced _ _ _ _ _ SU HD G) H).
  assert (EP := balanced_siblings _ _ _ _ _ [i] [k] BL Hc Hc' (path_leaf i) (path_leaf k)).
  rewrite !path_sum_cons in EP. unfold path_sum in EP. simpl in EP. fold (pr s i) in EP. fold (pr s k) in EP.
  exists k. split; [assumption|]. split; [assumption|].
  assert (T1 := mv_target _ _ _ _ _ _ MV k Hk).
  assert (T2 : tgt M (cat_at (cats_of s) k) <= M).
  { apply tgt_le. intros v Hv. apply (pfx_In _ _ _ (HP k)) in Hv. destruct (cat_at_In _ _ _ Hv) as [HI _]. eapply HV; eassumption. }
  assert (T3 : tgt M (cat_at (cats_of s) i) = M).
  { unfold sz, csize in Z. unfold tgt. destruct (cvalues (cat_at (cats_of s) i)); [reflexivity|discriminate]. }
  rewrite T3 in E. lra.
Qed.

Theorem broom_terminates : forall M p0 fuel m st t rs, new_tree (clone_market m) st = Ok t ->
  distinct_categories t -> broom t -> tchildren t <> [] -> recipes (length m) t = Ok rs ->
  length p0 = length m -> (exists S, equal_sums rs p0 S) -> values_below M m -> (agents_number m < fuel)%nat ->
  exists r, tree_auction M p0 fuel m st = Ok r.
Proof.
  intros M p0 fuel m st t rs Ht HD HB HN Hrs HL HS HV Hf.
  apply (auction_ends M p0 fuel m st t rs Ht HD Hrs HL HS); [intros [X _]; contradiction|].
  intros sp Hsp. destruct (new_tree_setup _ _ _ Ht) as [rs' [E' SU]]. rewrite Hrs in E'. injection E'; intros <-. clear E'.
  apply (loop_ends M t (fun s => (exists S, good (length m) rs s S) /\ forall i, pfx (cvalues (cat_at (cats_of s) i)) (cvalues (cat_at (clone_market m) i)))).
  - intros s [G P]. apply (broom_round M _ _ _ (clone_market m)); try assumption; [apply values_below_clone; assumption|apply clone_sorted].
  - destruct HS as [S HS]. split.
    + exists S. apply (start_good _ _ _ _ _ (clone_market m) SU Hsp); [apply map_length|assumption|assumption].
    + intros i. unfold pfx. rewrite firstn_all. reflexivity.
  - rewrite <- clone_agents in Hf. exact Hf.
Qed.
