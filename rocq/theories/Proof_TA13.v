(** * The competitive ratio of the tree auction: conclusion (C63) *)

From Coq Require Import String List Arith NArith Lia QArith Lqa Permutation Sorted Bool.
From Verif Require Import Base Model_Agents Model_Trade Model_Prices Model_Market Model_RecipeTree Model_TreeAuction
  Spec_Market Spec_RecipeTree Spec_TreeAuction Spec_Ascending Proof_Strategy Proof_Tree Proof_Tree2 Proof_Tree3 Proof_TA1 Proof_TA2 Proof_TA3 Proof_TA4
  Proof_TA6 Proof_TA7 Proof_TA10 Proof_TA11 Proof_TA12.
From Verif Require Proof_Ascending5.
Import ListNotations.
Open Scope Q_scope.

(** ** Leaves *)

Lemma leaf_incl : forall t i, In i (leaf_indices t) -> In i (node_indices t).
Proof.
  intros t. induction t as [i ch IH] using rtree_ind'. intros j Hj. rewrite Forall_forall in IH.
  destruct (list_eq_nil_dec ch) as [->|NE]; [exact Hj|]. rewrite leaf_indices_node in Hj by assumption.
  apply in_concat in Hj. destruct Hj as [l [Hl Hj]]. apply in_map_iff in Hl. destruct Hl as [c [<- Hc]].
  eapply child_node; [exact Hc|auto].
Qed.

Lemma leaf_nodup : forall t, distinct_categories t -> NoDup (leaf_indices t).
Proof.
  intros t. induction t as [i ch IH] using rtree_ind'. intros HD. destruct (list_eq_nil_dec ch) as [->|NE].
  - simpl. constructor; [tauto|constructor].
  - rewrite leaf_indices_node by assumption. assert (HC := fun c Hc => distinct_child i ch c HD Hc).
    apply distinct_inv in HD. destruct HD as [_ HN]. clear NE. induction ch as [|c ch IHc]; [constructor|]. cbn [map concat] in *.
    inversion IH; subst. apply NoDup_app_inv in HN. destruct HN as [N1 [N2 N3]]. apply NoDup_app_intro.
    + apply H1, HC. left. reflexivity.
    + apply IHc; try assumption. intros c0 Hc0. apply HC. right. assumption.
    + intros l Hl Hl'. apply (N3 l (leaf_incl _ _ Hl)). apply in_concat in Hl'. destruct Hl' as [x [Hx Hl']]. apply in_map_iff in Hx.
      destruct Hx as [c' [<- Hc']]. apply in_concat. exists (node_indices c'). split; [apply in_map; assumption|apply leaf_incl; assumption].
Qed.

Lemma leaf_last : forall t l p, distinct_categories t -> In l (leaf_indices t) -> is_path t p -> In l p -> last p 0%nat = l.
Proof.
  intros t. induction t as [i ch IH] using rtree_ind'. intros l p HD Hl Hp Hlp. rewrite Forall_forall in IH.
  assert (HC := fun c Hc => distinct_child i ch c HD Hc). apply distinct_inv in HD. destruct HD as [N1 N2].
  inversion Hp as [k|k chk c q Hc Hq]; subst.
  - simpl in *. tauto.
  - assert (NE : ch <> []) by (intros ->; destruct Hc). rewrite leaf_indices_node in Hl by assumption.
    apply in_concat in Hl. destruct Hl as [x [Hx Hl]]. apply in_map_iff in Hx. destruct Hx as [c' [<- Hc']].
    destruct Hlp as [->|Hlq].
    { exfalso. apply N1. apply in_concat. exists (node_indices c'). split; [apply in_map; assumption|apply leaf_incl; assumption]. }
    assert (c = c').
    { eapply (NoDup_concat_same rtree node_indices ch c c' l); try eassumption; [eapply is_path_indices; eassumption|apply leaf_incl; assumption]. }
    subst c'. assert (X := IH c Hc l q (HC c Hc) Hl Hq Hlq). destruct q as [|a q]; [destruct Hlq|]. exact X.
Qed.

Lemma leaf_subtree : forall t l, In l (leaf_indices t) -> subtree t (Node l []).
Proof.
  intros t. induction t as [i ch IH] using rtree_ind'. intros l Hl. rewrite Forall_forall in IH.
  destruct (list_eq_nil_dec ch) as [->|NE]; [destruct Hl as [<-|[]]; constructor|]. rewrite leaf_indices_node in Hl by assumption.
  apply in_concat in Hl. destruct Hl as [x [Hx Hl]]. apply in_map_iff in Hx. destruct Hx as [c [<- Hc]].
  eapply subtree_trans; [|apply (IH c Hc l Hl)]. econstructor; [constructor|assumption].
Qed.

(** ** Used leaves *)

Section Used.
  Variable D : list tree_deal.

  Definition uses (y : rtree) : nat := length (used_in (tindex y) D).
  Definition used_leaf (l : nat) : bool := (0 <? length (used_in l D))%nat.
  Definition leaves_used (y : rtree) : nat := length (filter used_leaf (leaf_indices y)).

  Lemma leaves_used_node : forall i ch, ch <> [] -> leaves_used (Node i ch) = nsum (map leaves_used ch).
  Proof.
    intros i ch NE. unfold leaves_used at 1. rewrite leaf_indices_node by assumption. clear NE.
    induction ch as [|c ch IH]; [reflexivity|]. cbn [map concat nsum fold_right]. rewrite filter_app, app_length, IH. reflexivity.
  Qed.

  Lemma nsum_mult : forall A (f : A -> nat) K l, (K * nsum (map f l))%nat = nsum (map (fun a => (K * f a)%nat) l).
  Proof. intros A f K. induction l as [|a l IH]; [simpl; lia|]. cbn [map nsum fold_right]. unfold nsum in IH. rewrite <- IH. lia. Qed.

  Lemma leaves_used_le : forall K, (forall l, (0 < length (used_in l D))%nat -> (K <= length (used_in l D))%nat) ->
    forall x, shared uses x -> (K * leaves_used x <= uses x)%nat.
  Proof.
    intros K HK x. induction x as [i ch IH] using rtree_ind'. intros HF. rewrite Forall_forall in IH.
    destruct (list_eq_nil_dec ch) as [->|NE].
    - unfold leaves_used, uses, used_leaf. cbn [leaf_indices filter tindex]. specialize (HK i).
      destruct (Nat.ltb_spec 0 (length (used_in i D))) as [X|X]; cbn [length]; lia.
    - rewrite leaves_used_node, (HF i ch (subs_self _) NE) by assumption. rewrite nsum_mult. apply nsum_map_le.
      intros c Hc. apply (IH c Hc). eapply shared_child; eassumption.
  Qed.

  (** The deals that surely remain. *)
  Definition kept (y : rtree) : nat := (uses y - leaves_used y)%nat.

  Lemma one_le : forall x, shared uses x -> (leaves_used x <= uses x)%nat.
  Proof. intros x H. assert (X := leaves_used_le 1 ltac:(intros; lia) x H). lia. Qed.

  Lemma kept_shared : forall x, shared uses x -> shared kept x.
  Proof.
    intros x H i ch Hi NE. assert (HS : forall y, In y (subs x) -> shared uses y).
    { clear -H. intros y Hy i ch Hi. apply H. clear -Hy Hi. revert y Hy Hi. induction x as [j chj IH] using rtree_ind'. intros y [<-|Hy] Hi; [assumption|].
      rewrite Forall_forall in IH. apply in_concat in Hy. destruct Hy as [l [Hl Hy]]. apply in_map_iff in Hl. destruct Hl as [c [<- Hc]].
      eapply subs_child; [exact Hc|]. eapply IH; eassumption. }
    specialize (HS _ Hi). unfold kept at 1. rewrite (H i ch Hi NE), leaves_used_node by assumption. clear Hi NE H.
    assert (HC : forall c, In c ch -> (leaves_used c <= uses c)%nat) by (intros c Hc; apply one_le; eapply shared_child; eassumption).
    clear HS. assert (G : (nsum (map leaves_used ch) <= nsum (map uses ch))%nat /\ nsum (map kept ch) = (nsum (map uses ch) - nsum (map leaves_used ch))%nat).
    { induction ch as [|c ch IH]; [split; reflexivity|]. cbn [map nsum fold_right]. destruct IH as [A B]; [intros c0 Hc0; apply HC; right; assumption|].
      specialize (HC c (or_introl eq_refl)). unfold nsum, kept in *. lia. }
    symmetry. apply G.
  Qed.

  Lemma deals_on_used : forall p l, Forall (fun d => length (snd d) = length (fst d)) D -> In l p -> (deals_on p D <= length (used_in l D))%nat.
  Proof.
    intros p l HF Hl. unfold deals_on, used_in. induction HF as [|[q vs] D0 E HF IH]; [reflexivity|]. cbn [filter map concat fst snd] in *.
    rewrite app_length. destruct (list_eq_dec Nat.eq_dec q p) as [->|_]; [|lia]. cbn [length].
    assert (X : exists v, In (l, v) (combine p vs)).
    { clear -Hl E. revert vs E. induction p as [|a p IHp]; intros [|v vs] E; try (destruct Hl; fail); [simpl in E; lia|]. destruct Hl as [->|Hl]; [exists v; left; reflexivity|].
      destruct (IHp Hl vs) as [w Hw]; [simpl in E; lia|]. exists w. right. assumption. }
    destruct X as [v Hv].
    assert (Y : In v (map snd (filter (fun p1 => (fst p1 =? l)%nat) (combine p vs)))).
    { change v with (snd (l, v)). apply in_map. apply filter_In. split; [assumption|apply Nat.eqb_refl]. }
    destruct (map snd _); [destruct Y|]. cbn [length]. lia.
  Qed.
End Used.

(** ** The run *)

Lemma final_invW : forall M B p0 fuel m st r rs, 0 < M ->
  tree_auction M p0 fuel m st = Ok r -> recipes (length m) (tt_tree r) = Ok rs ->
  distinct_categories (tt_tree r) -> initial_prices_ok (length m) rs (- M) p0 ->
  values_within B m -> 2 * B * Qn (height (tt_tree r)) <= M -> no_ties m ->
  (forall i, In i (node_indices (tt_tree r)) -> (0 < csize (cat_at m i))%nat) ->
  exists sp s s', returned M p0 fuel m st r rs sp s' /\ tree_round M (tt_tree r) s = Ok (true, s')
    /\ invW M B (length m) (tt_tree r) rs (clone_market m) p0 s
    /\ forall l, subtree (tt_tree r) (Node l []) ->
         (length (used_in l (map to_deal (opt_master (clone_market m) (tt_tree r)))) <= S (sz s l))%nat.
Proof.
  intros M B p0 fuel m st r rs HM H Hrs HD HP HV HMB NT NE.
  assert (HB0 : 0 <= B).
  { assert (X := NE (tindex (tt_tree r)) (tindex_node _)). unfold csize in X. destruct (cvalues (cat_at m (tindex (tt_tree r)))) as [|v l] eqn:E; [simpl in X; lia|].
    assert (Hv : In v (cvalues (cat_at m (tindex (tt_tree r))))) by (rewrite E; left; reflexivity).
    destruct (cat_at_In _ _ _ Hv) as [HI _]. destruct (HV _ _ HI Hv). lra. }
  assert (HV' : forall i v, In v (cvalues (cat_at (clone_market m) i)) -> - B <= v <= B).
  { intros i v Hv. rewrite clone_at, clone_In in Hv. destruct (cat_at_In _ _ _ Hv) as [HI _]. apply (HV _ _ HI Hv). }
  assert (HSD : forall i, sdesc (cvalues (cat_at (clone_market m) i))).
  { intros i. rewrite clone_at. unfold clone, new_category. simpl. apply desc_differ; [apply sort_desc_desc|].
    eapply differ_perm; [apply Permutation_sym, sort_desc_perm|]. apply differ_intro. intros l1 x l2 y l3 E.
    unfold cat_at in E. destruct (lt_dec i (length m)) as [L|L].
    - eapply NT; [apply nth_In; exact L|exact E].
    - rewrite nth_overflow in E by lia. simpl in E. destruct l1; discriminate. }
  assert (BM2 : - M < - B).
  { assert (X := height_pos (tt_tree r)). apply Qn_mono in X. rewrite Qn_1 in X. destruct (Qlt_le_dec 0 B) as [P|P]; nra. }
  assert (VA : values_above (- M) m).
  { intros c v Hc Hv. destruct (HV c v Hc Hv). lra. }
  destruct (auction_final _ _ _ _ _ _ _ HM H Hrs HP VA) as (sp & s & s' & R & V & I0 & EP & I & HR).
  assert (SU := rt_setup _ _ _ _ _ _ _ _ _ R). destruct HP as [HL [HF [S HS]]].
  assert (J0 := invB_start M (length m) p0 sp m HM HL HF EP).
  assert (HSZ : forall i, sz (clone_market m, sp) i = csize (cat_at (clone_market m) i)) by reflexivity.
  assert (NE' : forall i, In i (node_indices (tt_tree r)) -> (0 < sz (clone_market m, sp) i)%nat).
  { intros i Hi. specialize (NE i Hi). rewrite HSZ. rewrite clone_at. unfold csize, clone, new_category in *. simpl.
    rewrite sort_desc_length. assumption. }
  assert (HP0 : forall i, In i (node_indices (tt_tree r)) -> nth i p0 0 <= - M).
  { intros i Hi. rewrite Forall_forall in HF. apply HF, nth_In. rewrite HL. assert (X := su_range _ _ _ SU).
    unfold indices_in_range in X. rewrite Forall_forall in X. apply X. assumption. }
  assert (E0 : invE M B (length m) (tt_tree r) rs (clone_market m) p0 (clone_market m, sp)).
  { split.
    - split; [exact I0|exact J0| | | | ].
      + intros i v Hv. assert (Hv' : In v (cvalues (cat_at (clone_market m) i))) by exact Hv.
        destruct (HV' i v Hv') as [X _]. enough (X0 : nth i p0 0 < v) by (rewrite <- EP in X0; exact X0).
        destruct (lt_dec i (length p0)) as [L|L].
        * rewrite Forall_forall in HF. assert (Y := HF _ (nth_In p0 0 L)). lra.
        * destruct (cat_at_In _ _ _ Hv') as [_ L']. unfold clone_market in L'. rewrite map_length in L'. lia.
      + intros i ch c Hx Hz. assert (X := NE' i (subtree_nodes _ _ _ Hx (or_introl eq_refl))). lia.
      + intros i Hi Hz. assert (X := NE' i Hi). lia.
      + intros i ch Hx Hp Hz c p Hc. assert (X := NE' (tindex c) (subtree_nodes _ _ _ (st_down _ _ _ _ Hx Hc) (tindex_node c))).
        specialize (Hz c Hc). lia.
    - intros i ch Hx L. rewrite HSZ in L. lia.
    - intros i ch Hx HT. destruct ch as [|c0 ch0].
      + cbn [tree_num_of_deals]. unfold sz. lia.
      + specialize (HT c0 (tindex c0) (or_introl eq_refl) (tindex_node c0)). unfold touched, pr in HT. rewrite EP in HT. lra. }
  assert (W0 : invW M B (length m) (tt_tree r) rs (clone_market m) p0 (clone_market m, sp)).
  { split; [exact E0|]. intros i ch Hx NEc HT. exfalso. destruct ch as [|c0 ch0]; [congruence|].
    specialize (HT c0 (tindex c0) (or_introl eq_refl) (tindex_node c0)). unfold touched, pr in HT. rewrite EP in HT. lra. }
  destruct (leaf_keeps M B (length m) (tt_tree r) rs (clone_market m) p0 SU HD (clone_sorted m) HSD HB0 HM HMB HV' HP0
    _ W0 HSZ s V) as [W K].
  exists sp, s, s'. auto.
Qed.

Lemma pfx_firstn : forall l L k, pfx l L -> (k <= length l)%nat -> firstn k l = firstn k L.
Proof. intros l L k H Hk. unfold pfx in H. rewrite H, firstn_firstn. f_equal. lia. Qed.

Lemma total_lin : forall (f g : rtree -> Q) a b x, total (fun y => a * f y - b * g y) x == a * total f x - b * total g x.
Proof. intros. apply Qsum_map_lin. Qed.

Lemma total_ext : forall (f g : rtree -> Q) x, (forall y, In y (subs x) -> f y == g y) -> total f x == total g x.
Proof. intros. apply Qsum_map_ext_in. assumption. Qed.

Lemma total_le : forall (f g : rtree -> Q) x, (forall y, In y (subs x) -> f y <= g y) -> total f x <= total g x.
Proof. intros. apply Qsum_map_le. assumption. Qed.

(** One category: the best [u] of [k] agents, when at most one in [K] is missing. *)
Lemma one_category : forall v K k u p, desc v -> (1 <= K)%nat -> (u <= k <= length v)%nat -> (K * (k - u) <= k)%nat ->
  (forall x, In x (firstn u v) -> p <= x) ->
  (Qn K - 1) * (Qsum (firstn k v) - Qn k * p) <= Qn K * (Qsum (firstn u v) - Qn u * p).
Proof.
  intros v K k u p DV K1 [L1 L2] HK HP. assert (AV := Proof_Ascending5.top_average v u k DV (conj L1 L2)).
  set (TU := Qsum (firstn u v)) in *. set (TK := Qsum (firstn k v)) in *.
  assert (G0 : Qn u * p <= TU).
  { unfold TU. assert (E : length (firstn u v) = u) by (apply firstn_length_le; lia). rewrite <- E at 1. apply Qsum_lower. apply Forall_forall. assumption. }
  assert (UN := Qn_nonneg u).
  destruct (Nat.eq_dec k 0) as [->|NZ].
  { assert (u = 0)%nat by lia. subst u. unfold TU, TK. simpl. rewrite Qn_0. lra. }
  assert (QK : 1 <= Qn K) by (rewrite <- Qn_1; apply Qn_mono; assumption).
  assert (Qk : 1 <= Qn k) by (rewrite <- Qn_1; apply Qn_mono; lia).
  assert (KU : (Qn K - 1) * Qn k <= Qn K * Qn u).
  { assert (X : (K * k <= K * u + k)%nat) by nia. apply Qn_mono in X. rewrite Qn_add, !Qn_mult in X. lra. }
  set (G := TU - Qn u * p) in *. set (F := TK - Qn k * p) in *.
  assert (FG : F * Qn u <= G * Qn k) by (unfold F, G; lra).
  assert (GN : 0 <= G) by (unfold G; lra).
  clearbody G F. destruct (Qlt_le_dec F 0) as [N|N]; [nra|].
  assert (A1 : (Qn K - 1) * Qn k * F <= Qn K * Qn u * F) by (apply Qmult_le_compat_r; assumption).
  assert (A2 : Qn K * (F * Qn u) <= Qn K * (G * Qn k)).
  { rewrite !(Qmult_comm (Qn K)). apply Qmult_le_compat_r; [assumption|lra]. }
  assert (A3 : (Qn K - 1) * F * Qn k <= Qn K * G * Qn k) by lra.
  apply Qmult_le_r with (z := Qn k); [lra|assumption].
Qed.

Theorem tree_ratio : forall M B p0 fuel m st r rs, 0 < M ->
  tree_auction M p0 fuel m st = Ok r -> recipes (length m) (tt_tree r) = Ok rs ->
  distinct_categories (tt_tree r) -> initial_prices_ok (length m) rs (- M) p0 ->
  values_within B m -> 2 * B * Qn (height (tt_tree r)) <= M -> no_ties m ->
  (forall i, In i (node_indices (tt_tree r)) -> (0 < csize (cat_at m i))%nat) ->
  let D := map to_deal (opt_master (clone_market m) (tt_tree r)) in
  (length D <= tt_deals r + leaves_used D (tt_tree r))%nat
  /\ forall K, (1 <= K)%nat -> (forall d, In d D -> (K <= deals_on (fst d) D)%nat) -> (Qn K - 1) * tree_gain D <= Qn K * tt_gft r.
Proof.
  intros M B p0 fuel m st r rs HM H Hrs HD HP HV HMB NT NE D.
  destruct (final_invW _ _ _ _ _ _ _ _ HM H Hrs HD HP HV HMB NT NE) as (sp & s & s' & R & HR & W & KL). fold D in KL.
  set (t := tt_tree r) in *. set (m' := clone_market m) in *.
  assert (SU := rt_setup _ _ _ _ _ _ _ _ _ R). fold t in SU.
  assert (T := e_T _ _ _ _ _ _ _ _ (w_E _ _ _ _ _ _ _ _ W)). assert (I := t_A _ _ _ _ _ _ _ T).
  assert (HS := clone_sorted m). fold m' in HS. assert (DM := sorted_cats_at _ HS).
  destruct (opt_feasible m' t HD) as [OK SB]. fold D in OK, SB.
  destruct (feasible_shared t D HD OK) as (LD & SH & TG). fold (uses D t) in LD. change (shared (uses D) t) in SH.
  (* sizes *)
  assert (SZ : forall x, subtree t x -> shared (uses D) x -> (uses D x <= sz s (tindex x) + leaves_used D x)%nat).
  { intros x. induction x as [i ch IH] using rtree_ind'. intros Hx SX. rewrite Forall_forall in IH. cbn [tindex].
    destruct (list_eq_nil_dec ch) as [->|NEc].
    - assert (X := KL i Hx). unfold uses, leaves_used, used_leaf. cbn [tindex leaf_indices filter].
      destruct (Nat.ltb_spec 0 (length (used_in i D))); cbn [length]; lia.
    - assert (LS := size_le M B (length m) t rs m' s i T).
      destruct (lt_dec (sz s i) (csize (cat_at m' i))) as [L|L].
      + assert (X := e_lose _ _ _ _ _ _ _ _ (w_E _ _ _ _ _ _ _ _ W) i ch Hx L).
        rewrite (SX i ch (subs_self _) NEc), leaves_used_node by assumption.
        assert (Y : (nsum (map (uses D) ch) <= nsum (map (fun c => (sz s (tindex c) + leaves_used D c)%nat) ch))%nat).
        { apply nsum_map_le. intros c Hc. apply (IH c Hc); [econstructor; eassumption|eapply shared_child; eassumption]. }
        rewrite nsum_map_add in Y. unfold children_size in X. unfold sz in Y at 1. lia.
      + assert (X := sub_bag_length _ _ (SB i)). unfold uses. cbn [tindex]. unfold csize in L. lia. }
  assert (SHS : forall y, In y (subs t) -> shared (uses D) y).
  { intros y Hy i ch Hi. apply SH. clear -Hy Hi. revert y Hy Hi. induction t as [j chj IH] using rtree_ind'. intros y [<-|Hy] Hi; [assumption|].
    rewrite Forall_forall in IH. apply in_concat in Hy. destruct Hy as [l [Hl Hy]]. apply in_map_iff in Hl. destruct Hl as [c [<- Hc]].
    eapply subs_child; [exact Hc|]. eapply IH; eassumption. }
  assert (KS : forall y, In y (subs t) -> (kept D y <= sz s (tindex y))%nat).
  { intros y Hy. assert (X := SZ y (subs_subtree _ _ Hy) (SHS y Hy)). unfold kept. lia. }
  assert (KSH := kept_shared D t SH).
  destruct (final_shape _ _ _ _ _ _ _ SU HS I HR) as (EC & IR & LP & LC).
  assert (DC : forall i, desc (cvalues (cat_at (cats_of s) i))) by (intros i; eapply pfx_desc; [apply (ia_pfx _ _ _ _ I)|apply DM]).
  destruct (top_combined (cats_of s) (kept D) t DC KSH KS) as [KC TC].
  assert (ED : tt_deals r = tree_num_of_deals (cats_of s) t).
  { destruct (deals_explained_ok (cats_of s') (prices_of s') t) as (k1 & k2 & Y & _).
    { rewrite LP. apply SU. }
    assert (Z := rt_explained _ _ _ _ _ _ _ _ _ R). fold t in Z. rewrite Z in Y. injection Y; intros _ _ Y'. rewrite EC in Y'. exact Y'. }
  assert (EG : tt_gft r = optimal_trade_GFT (cats_of s) t).
  { assert (Z := rt_gft _ _ _ _ _ _ _ _ _ R). fold t in Z. rewrite Z, EC. reflexivity. }
  assert (ONE := one_le D t SH).
  assert (RT := SZ t (st_here t) SH).
  split.
  { rewrite ED, <- combined_length, <- LD. unfold kept in KC. lia. }
  intros K K1 HK.
  assert (LO : Forall (fun d => length (snd d) = length (fst d)) D) by (eapply Forall_impl; [|exact OK]; intros d [_ X]; exact X).
  assert (HKU : forall l, (0 < length (used_in l D))%nat -> (K <= length (used_in l D))%nat).
  { intros l Hl. destruct (used_in l D) as [|v vs] eqn:E; [simpl in Hl; lia|]. rewrite <- E.
    destruct (used_val l v D) as [d [Hd Hc]]; [rewrite E; left; reflexivity|].
    assert (X := deals_on_used D (fst d) l LO (combine_In_l _ _ _ _ Hc)). specialize (HK d Hd). lia. }
  assert (KK : forall y, In y (subs t) -> (K * leaves_used D y <= uses D y)%nat) by (intros y Hy; apply leaves_used_le; [exact HKU|apply SHS; exact Hy]).
  assert (QK : 1 <= Qn K) by (rewrite <- Qn_1; apply Qn_mono; assumption).
  assert (GN : 0 <= tt_gft r).
  { rewrite EG. unfold optimal_trade_GFT. apply Qsum_nonneg. rewrite Forall_forall. intros v Hv. apply filter_In in Hv. apply Qle_bool_iff, Hv. }
  destruct (ia_good _ _ _ _ I) as [S0 [G NS]].
  destruct (round_inv _ _ _ _ _ _ _ _ SU G HR) as [[_ [_ Z]]|[d [MV [G' [[_ [Hd _]]|[X _]]]]]]; [| |discriminate X].
  - (* the root is empty *)
    assert (KT := KK t (subs_self t)). rewrite Z in RT.
    destruct (Nat.eq_dec (uses D t) 0) as [Z0|Z0].
    + rewrite LD in Z0. assert (DN : D = []) by (destruct D; [reflexivity|discriminate Z0]). rewrite DN. unfold tree_gain. simpl. nra.
    + assert (K = 1)%nat by nia. subst K. rewrite Qn_1 in *. lra.
  - (* the prices balance *)
    assert (G2 : good (length m) rs s' 0).
    { destruct G' as [A1 A2 A3 A4 A5]. split; try assumption. intros r0 Hr0. rewrite (A5 r0 Hr0). lra. }
    assert (BAL := good_balanced _ _ _ _ _ SU HD G2).
    destruct (path_exists t) as [q Hq].
    assert (PZ : path_sum (prices_of s') q == 0) by exact (sums_paths _ _ _ _ _ SU HD (g_prices _ _ _ _ G2) (g_sums _ _ _ _ G2) q Hq).
    assert (PU := price_total (kept D) (prices_of s') t KSH BAL q Hq). rewrite PZ in PU.
    assert (PK := price_total (uses D) (prices_of s') t SH BAL q Hq). rewrite PZ in PK.
    set (tu := fun y => Qsum (firstn (kept D y) (cvalues (cat_at m' (tindex y))))).
    set (tk := fun y => Qsum (firstn (uses D y) (cvalues (cat_at m' (tindex y))))).
    set (pu := fun y => Qn (kept D y) * nth (tindex y) (prices_of s') 0) in *.
    set (pk := fun y => Qn (uses D y) * nth (tindex y) (prices_of s') 0) in *.
    assert (GK : tree_gain D <= total tk t).
    { rewrite TG. apply total_le. intros y Hy. unfold tk, uses. apply sub_bag_sum; [apply DM|apply SB]. }
    assert (GU : total tu t <= tt_gft r).
    { rewrite EG. assert (X := prefix_sum_le _ _ (combined_desc _ t DC) KC).
      assert (Y : total (fun y => Qsum (firstn (kept D y) (cvalues (cat_at (cats_of s) (tindex y))))) t == total tu t).
      { apply total_ext. intros y Hy. unfold tu. rewrite (pfx_firstn _ _ _ (ia_pfx _ _ _ _ I (tindex y)) (KS y Hy)). reflexivity. }
      unfold optimal_trade_GFT. lra. }
    assert (NODE : total (fun y => (Qn K - 1) * (1 * tk y - 1 * pk y)) t <= total (fun y => Qn K * (1 * tu y - 1 * pu y)) t).
    { apply total_le. intros y Hy. unfold tk, tu, pk, pu.
      assert (X := one_category (cvalues (cat_at m' (tindex y))) K (uses D y) (kept D y) (nth (tindex y) (prices_of s') 0) (DM _) K1).
      assert (A1 : (kept D y <= uses D y <= length (cvalues (cat_at m' (tindex y))))%nat).
      { split; [unfold kept; lia|]. apply (sub_bag_length _ _ (SB (tindex y))). }
      assert (A2 : (K * (uses D y - kept D y) <= uses D y)%nat).
      { assert (Y := one_le D y (SHS y Hy)). replace (uses D y - kept D y)%nat with (leaves_used D y) by (unfold kept; lia). apply KK. assumption. }
      specialize (X A1 A2). 
      assert (A3 : forall x, In x (firstn (kept D y) (cvalues (cat_at m' (tindex y)))) -> nth (tindex y) (prices_of s') 0 <= x).
      { intros x Hx. rewrite <- (pfx_firstn _ _ _ (ia_pfx _ _ _ _ I (tindex y)) (KS y Hy)) in Hx.
        apply IR. rewrite EC. rewrite <- (firstn_skipn (kept D y)). apply in_app_iff. left. exact Hx. }
      specialize (X A3). lra. }
    assert (L1 := total_lin (fun y => 1 * tk y - 1 * pk y) (fun _ => 0) (Qn K - 1) 0 t).
    assert (L2 := total_lin (fun y => 1 * tu y - 1 * pu y) (fun _ => 0) (Qn K) 0 t).
    assert (L3 := total_lin tk pk 1 1 t). assert (L4 := total_lin tu pu 1 1 t).
    assert (E1 : total (fun y => (Qn K - 1) * (1 * tk y - 1 * pk y)) t == (Qn K - 1) * total tk t).
    { rewrite (total_ext _ (fun y => (Qn K - 1) * (1 * tk y - 1 * pk y) - 0 * 0) t) by (intros; lra). rewrite L1, L3, PK. lra. }
    assert (E2 : total (fun y => Qn K * (1 * tu y - 1 * pu y)) t == Qn K * total tu t).
    { rewrite (total_ext _ (fun y => Qn K * (1 * tu y - 1 * pu y) - 0 * 0) t) by (intros; lra). rewrite L2, L4, PU. lra. }
    rewrite E1, E2 in NODE. clearbody tk tu pk pu.
    assert (B1 : (Qn K - 1) * tree_gain D <= (Qn K - 1) * total tk t) by nra.
    assert (B2 : Qn K * total tu t <= Qn K * tt_gft r) by nra.
    lra.
Qed.

(** In terms of what optimal_trade_with_counters returns. *)
Theorem tree_competitive : forall M B p0 fuel m st r rs opt count g kmin kmax, 0 < M ->
  tree_auction M p0 fuel m st = Ok r -> recipes (length m) (tt_tree r) = Ok rs ->
  distinct_categories (tt_tree r) -> initial_prices_ok (length m) rs (- M) p0 ->
  values_within B m -> 2 * B * Qn (height (tt_tree r)) <= M -> no_ties m ->
  (forall i, In i (node_indices (tt_tree r)) -> (0 < csize (cat_at m i))%nat) ->
  optimal_trade_with_counters (clone_market m) (tt_tree r) = (opt, (count, g, kmin, kmax)) ->
  (1 - 1 / inject_Z (Z.of_N kmin)) * g <= tt_gft r.
Proof.
  intros M B p0 fuel m st r rs opt count g kmin kmax HM H Hrs HD HP HV HMB NT NE HO.
  destruct (tree_ratio _ _ _ _ _ _ _ _ HM H Hrs HD HP HV HMB NT NE) as [_ TR].
  destruct (with_counters_spec _ _ _ _ _ _ _ (clone_sorted m) HD HO) as (_ & _ & EG & E0 & E1).
  set (D := map to_deal (opt_master (clone_market m) (tt_tree r))) in *.
  assert (GE : g == tree_gain D) by (rewrite EG; apply gft_master). rewrite GE. clear GE EG.
  assert (KP : (1 <= N.to_nat kmin)%nat /\ forall d, In d D -> (N.to_nat kmin <= deals_on (fst d) D)%nat).
  { destruct (list_eq_nil_dec D) as [DN|DN].
    - destruct (E0 DN) as [-> _]. split; [|intros d Hd; rewrite DN in Hd; destruct Hd].
      lia.
    - destruct (E1 DN) as ((d0 & H0 & K0) & _ & KK). split.
      + rewrite K0, Nat2N.id.
        assert (X : In d0 (filter (fun d => if list_eq_dec Nat.eq_dec (fst d) (fst d0) then true else false) D)).
        { apply filter_In. split; [assumption|]. destruct (list_eq_dec Nat.eq_dec (fst d0) (fst d0)); [reflexivity|congruence]. }
        unfold deals_on. destruct (filter (fun d => if list_eq_dec Nat.eq_dec (fst d) (fst d0) then true else false) D); [destruct X|simpl; lia].
      + intros d Hd. destruct (KK d Hd). lia. }
  destruct KP as [K1 KD]. specialize (TR _ K1 KD).
  assert (EK : inject_Z (Z.of_N kmin) == Qn (N.to_nat kmin)) by (unfold Qn; rewrite N_nat_Z; reflexivity).
  rewrite EK. set (K := Qn (N.to_nat kmin)) in *.
  assert (QK : 1 <= K) by (unfold K; rewrite <- Qn_1; apply Qn_mono; assumption). clearbody K.
  apply Qmult_le_l with (z := K); [lra|].
  assert (X : K * ((1 - 1 / K) * tree_gain D) == (K - 1) * tree_gain D) by (field; lra).
  rewrite X. assumption.
Qed.

(** The number of lost deals: at most one per recipe that the optimal trade uses. *)
Theorem tree_used_recipes : forall M B p0 fuel m st r rs opt count g kmin kmax, 0 < M ->
  tree_auction M p0 fuel m st = Ok r -> recipes (length m) (tt_tree r) = Ok rs ->
  distinct_categories (tt_tree r) -> initial_prices_ok (length m) rs (- M) p0 ->
  values_within B m -> 2 * B * Qn (height (tt_tree r)) <= M -> no_ties m ->
  (forall i, In i (node_indices (tt_tree r)) -> (0 < csize (cat_at m i))%nat) ->
  optimal_trade_with_counters (clone_market m) (tt_tree r) = (opt, (count, g, kmin, kmax)) ->
  (N.to_nat count <= tt_deals r + length (nodup Nat.eq_dec (map snd opt)))%nat.
Proof.
  intros M B p0 fuel m st r rs opt count g kmin kmax HM H Hrs HD HP HV HMB NT NE HO.
  destruct (tree_ratio _ _ _ _ _ _ _ _ HM H Hrs HD HP HV HMB NT NE) as [LE _].
  destruct (with_counters_spec _ _ _ _ _ _ _ (clone_sorted m) HD HO) as (_ & EC & _).
  set (t := tt_tree r) in *. set (D := map to_deal (opt_master (clone_market m) t)) in *. rewrite EC, Nat2N.id.
  enough (X : (leaves_used D t <= length (nodup Nat.eq_dec (map snd opt)))%nat) by lia.
  assert (EO : map snd opt = map md_leaf (opt_master (clone_market m) t)).
  { assert (R := opt_counted_rel (clone_market m) t (clone_sorted m)). unfold optimal_trade_with_counters in HO.
    injection HO; intros _ <-. fold (opt_counted (clone_market m) t). clear -R. induction R as [|a b l l' [_ E] R IH]; [reflexivity|]. cbn [map]. congruence. }
  rewrite EO. set (ls := nodup Nat.eq_dec (map md_leaf (opt_master (clone_market m) t))).
  unfold leaves_used.
  rewrite <- (map_length (fun k => last (nth k (root_leaf_paths t) []) 0%nat) ls). apply NoDup_incl_length.
  - apply NoDup_filter. apply leaf_nodup. assumption.
  - intros l Hl. apply filter_In in Hl. destruct Hl as [Hl Hu]. unfold used_leaf in Hu. apply Nat.ltb_lt in Hu.
    destruct (used_in l D) as [|v vs] eqn:E; [simpl in Hu; lia|].
    destruct (used_val l v D) as [d [Hd Hc]]; [rewrite E; left; reflexivity|].
    unfold D in Hd. apply in_map_iff in Hd. destruct Hd as [d0 [<- Hd]]. cbn [to_deal fst snd] in Hc.
    apply in_map_iff. exists (md_leaf d0). split.
    + apply filter_In in Hd. destruct Hd as [Hd _]. destruct (master_path _ _ _ _ Hd) as [_ P]. rewrite Nat.sub_0_r in P.
      rewrite (nth_error_nth _ _ _ P). assert (MO := master_ok (clone_market m) t 0). rewrite Forall_forall in MO. destruct (MO d0 Hd) as [Py _].
      apply (leaf_last t l (md_path d0) HD Hl Py). eapply combine_In_l; exact Hc.
    + apply nodup_In. apply in_map. assumption.
Qed.
