(** * Further facts about the tree auction (C34, C38, C41) *)

From Coq Require Import String List Arith Lia QArith Lqa Permutation Sorted Bool.
From Verif Require Import Base Model_Agents Model_Trade Model_Prices Model_Market Model_RecipeTree Model_TreeAuction
  Spec_Market Spec_RecipeTree Spec_TreeAuction Proof_Tree Proof_Tree2 Proof_Tree3 Proof_TA1 Proof_TA2 Proof_TA3 Proof_TA4
  Proof_TA6.
Import ListNotations.
Open Scope Q_scope.

(** ** C34 *)

Theorem increase_prices_spec : forall sp incs bound n S,
  Forall (binary_recipe n) (sp_recipes sp) -> In (pv_recipe (sp_vector sp)) (sp_recipes sp) ->
  length (map_category_index_to_price sp) = n ->
  equal_sums (sp_recipes sp) (map_category_index_to_price sp) S -> S <= bound ->
  NoDup (map fst incs) -> (forall i x, In (i, x) incs -> (i < n)%nat) ->
  ((exists r, In r (sp_recipes sp) /\ categories_in r (map fst incs) <> 1%nat) ->
     increase_prices sp incs bound = Raise ValueError)
  /\ ((forall r, In r (sp_recipes sp) -> categories_in r (map fst incs) = 1%nat) ->
     exists sp' d, increase_prices sp incs bound = Ok sp'
       /\ sp_recipes sp' = sp_recipes sp
       /\ length (map_category_index_to_price sp') = n
       /\ (forall i, nth i (map_category_index_to_price sp') 0
                     == nth i (map_category_index_to_price sp) 0 + (if existsb (Nat.eqb i) (map fst incs) then d else 0))
       /\ equal_sums (sp_recipes sp) (map_category_index_to_price sp') (S + d) /\ S + d <= bound
       /\ (forall i x, In (i, x) incs -> nth i (map_category_index_to_price sp') 0 <= x)
       /\ (S + d == bound \/ exists i x, In (i, x) incs /\ nth i (map_category_index_to_price sp') 0 == x)
       /\ ((sp_status sp' = Some STOPPED_AT_ZERO_SUM <-> S + d == bound)
           /\ (sp_status sp' = Some STOPPED_AT_AGENT_VALUE <-> S + d < bound))).
Proof.
  intros sp incs bound n S HB HR HL HS HSb ND HI.
  assert (RN : sp_recipes sp <> []) by (intros E; rewrite E in HR; destruct HR).
  assert (RL : forall r, In r (sp_recipes sp) -> length r = length (map_category_index_to_price sp)).
  { rewrite Forall_forall in HB. intros r Hr. destruct (HB r Hr). congruence. }
  destruct (increase_ok sp incs bound) as [K1 K2]; [rewrite HL; exact HI|assumption|assumption|].
  split; [apply K2|]. intros H1. apply K1 in H1. destruct H1 as [sp' H]. destruct (increase_inv _ _ _ _ H) as [d ID].
  destruct (increased_sums _ _ _ _ _ n S ID HB HL RN HS) as [S' L'].
  assert (PS : price_sum (sp_vector sp) == S) by (apply HS; exact HR).
  destruct (raise_prices_ok d incs (map_category_index_to_price sp)) as (p' & E & _ & _ & N1 & N2); [rewrite HL; exact HI|].
  rewrite (inc_raise _ _ _ _ _ ID) in E. injection E; intros <-. clear E. specialize (N2 ND).
  exists sp', d. split; [assumption|]. split; [apply (inc_recipes _ _ _ _ _ ID)|]. split; [assumption|].
  assert (IN : forall i x, In (i, x) incs -> In i (map fst incs)).
  { intros i x Hi. apply in_map_iff. exists (i, x). auto. }
  split.
  { intros i. destruct (existsb (Nat.eqb i) (map fst incs)) eqn:Ei.
    - apply existsb_eqb_In in Ei. rewrite (N2 i Ei). reflexivity.
    - rewrite N1; [lra|]. intros X. apply existsb_eqb_In in X. congruence. }
  split; [assumption|]. assert (BD := inc_bound _ _ _ _ _ ID). split; [lra|]. split.
  { intros i x Hi. rewrite (N2 i (IN i x Hi)). assert (X := inc_target _ _ _ _ _ ID i x Hi). lra. }
  split.
  { destruct (inc_min _ _ _ _ _ ID) as [X|[i [x [Hi X]]]]; [left; lra|]. right. exists i, x. split; [assumption|].
    rewrite (N2 i (IN i x Hi)). lra. }
  assert (ST := inc_stop _ _ _ _ _ ID).
  assert (ST' : sp_status sp' = Some STOPPED_AT_ZERO_SUM <-> S + d == bound).
  { rewrite ST. split; intros X; lra. }
  split; [assumption|]. destruct (inc_status _ _ _ _ _ ID) as [T|T]; rewrite T in *.
  - split; [discriminate|]. intros X. assert (S + d == bound) by (apply ST'; reflexivity). lra.
  - split; [|reflexivity]. intros _. assert (~ S + d == bound); [|lra]. intros X. apply ST' in X. discriminate.
Qed.

(** ** C38: runs without end *)

Lemma loop_never_step : forall M t s s', tree_round M t s = Ok (false, s') ->
  (forall fuel, tree_loop M fuel t s' = Timeout) -> forall fuel, tree_loop M fuel t s = Timeout.
Proof. intros M t s s' H K [|fuel]; [reflexivity|]. cbn [tree_loop]. rewrite H. cbn [bind fst snd]. apply K. Qed.

Lemma loop_never_fix : forall M t s, tree_round M t s = Ok (false, s) -> forall fuel, tree_loop M fuel t s = Timeout.
Proof. intros M t s H. induction fuel as [|fuel IH]; [reflexivity|]. cbn [tree_loop]. rewrite H. exact IH. Qed.

Lemma auction_never : forall M p0 m st t rs o sp, new_tree (clone_market m) st = Ok t -> recipes (length (clone_market m)) t = Ok rs ->
  tree_optimal_trade (clone_market m) t = Ok o -> new_sim_prices rs p0 = Ok sp ->
  (forall fuel, tree_loop M fuel t (clone_market m, sp) = Timeout) -> forall fuel, tree_auction M p0 fuel m st = Timeout.
Proof.
  intros M p0 m st t rs o sp H1 H2 H3 H4 H5 fuel. unfold tree_auction. rewrite H1. cbn [bind]. rewrite H2. cbn [bind].
  rewrite H3. cbn [bind]. rewrite H4. cbn [bind]. unfold market in *. rewrite H5. reflexivity.
Qed.

(** A round that neither stops nor removes an agent is repeated forever: the chosen categories and their targets are
    the same again, and the increase is zero. *)
Lemma stuck_forever : forall M n t rs m s s', setup n t rs -> distinct_categories t -> invA n rs m s -> invB M m s ->
  tree_round M t s = Ok (false, s') -> cats_of s' = cats_of s ->
  forall fuel, tree_loop M fuel t s' = Timeout.
Proof.
  intros M n t rs m s s' SU HD IA IB HR EC.
  destruct (ia_good _ _ _ _ IA) as [S [G NS]].
  destruct (round_inv _ _ _ _ _ _ _ _ SU G HR) as [[X _]|[d [MV [G' [[X _]|[_ [Hd HC]]]]]]]; try discriminate.
  assert (CH : forall x, cats_of x = cats_of s -> chosen t x = chosen t s) by (intros x E; unfold chosen; rewrite E; reflexivity).
  assert (NB : forall i v, In v (cvalues (cat_at (cats_of s) i)) -> beaten (cat_at (cats_of s) i) (pr s' i) = false).
  { intros i v Hv. destruct (beaten (cat_at (cats_of s) i) (pr s' i)) eqn:B; [|reflexivity]. exfalso.
    specialize (HC i). rewrite EC in HC. unfold beat in HC. rewrite B in HC.
    assert (L : csize (cat_at (cats_of s) i) = csize (mkCat (cname (cat_at (cats_of s) i)) (removelast (cvalues (cat_at (cats_of s) i)))))
      by (rewrite <- HC; reflexivity).
    unfold csize in L. simpl in L. rewrite removelast_firstn_len, firstn_length in L.
    destruct (cvalues (cat_at (cats_of s) i)); [destruct Hv|simpl in L; lia]. }
  (* the target that was reached belongs to an empty category *)
  assert (EM : exists i, In i (chosen t s) /\ sz s i = 0%nat /\ pr s' i == M).
  { destruct (mv_min _ _ _ _ _ _ MV) as [E|[i [Hi E]]]; [lra|]. exists i. split; [assumption|].
    assert (P := mv_chosen _ _ _ _ _ _ MV i Hi). unfold sz, csize. unfold tgt in E.
    destruct (cvalues (cat_at (cats_of s) i)) as [|a l] eqn:Ev.
    - split; [reflexivity|]. rewrite P. lra.
    - exfalso. assert (B := NB i a). rewrite Ev in B. specialize (B (or_introl eq_refl)). unfold beaten in B. rewrite Ev in B.
      apply Qle_bool_false in B. rewrite P in B. lra. }
  destruct EM as [i0 [Hi0 [Hz Hp]]].
  (* states with these categories and prices *)
  assert (K : forall fuel x, cats_of x = cats_of s -> (forall i, pr x i == pr s' i) -> (exists S1, good n rs x S1 /\ S1 < 0) ->
     tree_loop M fuel t x = Timeout).
  { induction fuel as [|fuel IH]; intros x Ex Px [S1 [G1 N1]]; [reflexivity|]. cbn [tree_loop].
    destruct (round_total M _ _ _ _ _ SU HD G1) as [b [x' HR1]]. rewrite HR1. cbn [bind fst snd].
    assert (ZERO : forall d1, moved M t x x' S1 d1 -> d1 == 0).
    { intros d1 MV1. apply Qle_antisym.
      - assert (T := mv_target _ _ _ _ _ _ MV1 i0). rewrite (CH x Ex) in T. specialize (T Hi0). rewrite Ex in T.
        unfold tgt, sz, csize in *. destruct (cvalues (cat_at (cats_of s) i0)); [|discriminate]. rewrite (Px i0) in T. lra.
      - destruct (mv_min _ _ _ _ _ _ MV1) as [E|[j [Hj E]]]; [lra|]. rewrite E, Ex, (Px j). rewrite (CH x Ex) in Hj.
        assert (T := mv_target _ _ _ _ _ _ MV j Hj). rewrite (mv_chosen _ _ _ _ _ _ MV j Hj). lra. }
    destruct (round_inv _ _ _ _ _ _ _ _ SU G1 HR1) as [(E1 & E2 & Z)|[d1 [MV1 [G1' [(E1 & E2 & E3)|(E1 & E2 & E3)]]]]].
    - exfalso. assert (R := mv_root _ _ _ _ _ _ MV). unfold sz in *. rewrite Ex in Z. lia.
    - exfalso. specialize (ZERO d1 MV1). lra.
    - subst b. specialize (ZERO d1 MV1).
      assert (PX : forall i, pr x' i == pr s' i).
      { intros i. rewrite <- (Px i). destruct (in_dec Nat.eq_dec i (chosen t x)) as [C|C].
        - rewrite (mv_chosen _ _ _ _ _ _ MV1 i C). lra.
        - rewrite (mv_other _ _ _ _ _ _ MV1 i C). reflexivity. }
      apply IH.
      + apply nth_ext with (d := mkCat "" []) (d' := mkCat "" []).
        * rewrite (g_cats _ _ _ _ G1'), (g_cats _ _ _ _ G). reflexivity.
        * intros j _. change (cat_at (cats_of x') j = cat_at (cats_of s) j). rewrite E3, Ex. unfold beat.
          destruct (beaten (cat_at (cats_of s) j) (pr x' j)) eqn:B; [|reflexivity]. exfalso.
          assert (B' : beaten (cat_at (cats_of s) j) (pr s' j) = true).
          { unfold beaten in *. destruct (cvalues (cat_at (cats_of s) j)); [discriminate|]. apply Qle_bool_iff in B. apply Qle_bool_iff.
            rewrite <- (PX j). assumption. }
          assert (Hn : exists v, In v (cvalues (cat_at (cats_of s) j))).
          { unfold beaten in B. destruct (cvalues (cat_at (cats_of s) j)) as [|v l]; [discriminate|]. exists v. left. reflexivity. }
          destruct Hn as [v Hv]. rewrite (NB j v Hv) in B'. discriminate.
      + exact PX.
      + exists (S1 + d1). split; [assumption|lra]. }
  intros fuel. apply K; [assumption|reflexivity|]. exists (S + d). split; [assumption|lra].
Qed.

(** The same, from the start of an auction. *)
Theorem stuck_auction : forall M p0 m st t rs sp s s', 0 < M -> new_tree (clone_market m) st = Ok t ->
  distinct_categories t -> recipes (length m) t = Ok rs -> new_sim_prices rs p0 = Ok sp ->
  initial_prices_ok (length m) rs (- M) p0 -> values_within M m ->
  tree_visited M t (clone_market m, sp) s -> tree_round M t s = Ok (false, s') -> fst s' = fst s ->
  forall fuel, tree_loop M fuel t s' = Timeout.
Proof.
  intros M p0 m st t rs sp s s' HM Ht HD Hrs Hsp [HL [HF [S HS]]] HV V HR EC.
  destruct (new_tree_setup _ _ _ Ht) as [rs' [E' SU]]. rewrite Hrs in E'. injection E'; intros <-. clear E'.
  assert (VA : values_above (- M) m) by (intros c v Hc Hv; apply (HV c v Hc Hv)).
  assert (VB : values_below M m) by (intros c v Hc Hv; apply (HV c v Hc Hv)).
  assert (I0 := invA_start M _ _ _ _ _ m S HM SU Hsp eq_refl HL HF HS VA).
  destruct (start_good _ _ _ _ _ (clone_market m) SU Hsp) with (S := S) as [G EP]; [apply map_length|assumption|assumption|].
  assert (J0 := invB_start M (length m) p0 sp m HM HL HF EP).
  destruct (invAB_visited _ _ _ _ _ _ _ SU (clone_sorted m) (values_below_clone _ _ VB) I0 J0 V) as (IA & IB & _).
  eapply stuck_forever; eassumption.
Qed.

(** Either the loop ends after at most one round per agent and one more, or never. *)
Lemma beat_same_size : forall c p, csize (beat c p) = csize c -> beat c p = c.
Proof.
  intros c p H. destruct (beat_cases c p) as [[_ E]|(_ & Hn & _ & E)]; rewrite E in *; [reflexivity|]. exfalso.
  unfold csize in H. simpl in H. rewrite removelast_firstn_len, firstn_length in H. destruct (cvalues c); [congruence|simpl in H; lia].
Qed.

Lemma loop_dichotomy : forall M n t rs m, setup n t rs -> distinct_categories t -> sorted_cats m -> values_below M m ->
  forall k s, invA n rs m s -> invB M m s -> (agents_number (cats_of s) <= k)%nat ->
  (exists s', tree_loop M (k + 1) t s = Ok s') \/ forall fuel, tree_loop M fuel t s = Timeout.
Proof.
  intros M n t rs m SU HD HS HV. induction k as [k IH] using lt_wf_ind. intros s IA IB Hk.
  destruct (ia_good _ _ _ _ IA) as [S [G NS]].
  destruct (round_total M _ _ _ _ _ SU HD G) as [b [s' HR]]. destruct b.
  { left. exists s'. rewrite Nat.add_comm. cbn [Nat.add tree_loop]. rewrite HR. reflexivity. }
  assert (IA' := invA_step _ _ _ _ _ _ _ SU HS IA HR).
  destruct (invB_step _ _ _ _ _ _ _ SU IA IB HV HR) as [IB' _].
  destruct (round_inv _ _ _ _ _ _ _ _ SU G HR) as [[X _]|[d [MV [G' [[X _]|[_ [Hd HC]]]]]]]; try discriminate.
  assert (LE : (agents_number (cats_of s') <= agents_number (cats_of s))%nat).
  { apply nsum_le_nth; [rewrite !map_length, (g_cats _ _ _ _ G), (g_cats _ _ _ _ G'); reflexivity|].
    intros j. rewrite !agents_nth, HC. apply beat_size'. }
  destruct (Nat.eq_dec (agents_number (cats_of s')) (agents_number (cats_of s))) as [E|NE].
  - right. apply (loop_never_step _ _ _ _ HR). apply (stuck_forever M n t rs m s s' SU HD IA IB HR).
    apply nth_ext with (d := mkCat "" []) (d' := mkCat "" []).
    + rewrite (g_cats _ _ _ _ G), (g_cats _ _ _ _ G'). reflexivity.
    + intros j _. change (cat_at (cats_of s') j = cat_at (cats_of s) j). rewrite HC. apply beat_same_size.
      assert (LJ := beat_size' (cat_at (cats_of s) j) (pr s' j)).
      destruct (Nat.eq_dec (csize (beat (cat_at (cats_of s) j) (pr s' j))) (csize (cat_at (cats_of s) j))) as [Y|Y]; [assumption|].
      exfalso. assert (LT : (agents_number (cats_of s') < agents_number (cats_of s))%nat); [|lia].
      apply (nsum_lt_nth _ _ j).
      * rewrite !map_length, (g_cats _ _ _ _ G), (g_cats _ _ _ _ G'). reflexivity.
      * intros l. rewrite !agents_nth, HC. apply beat_size'.
      * rewrite !agents_nth, HC. lia.
  - destruct k as [|k]; [lia|]. destruct (IH k (Nat.lt_succ_diag_r k) s' IA' IB' ltac:(lia)) as [[x Hx]|K].
    + left. exists x. cbn [Nat.add tree_loop]. rewrite HR. cbn [bind fst snd]. assumption.
    + right. apply (loop_never_step _ _ _ _ HR). assumption.
Qed.

Theorem ends_or_never : forall M p0 m st t rs, 0 < M -> new_tree (clone_market m) st = Ok t ->
  distinct_categories t -> tchildren t <> [] -> recipes (length m) t = Ok rs ->
  initial_prices_ok (length m) rs (- M) p0 -> values_within M m ->
  (exists r, tree_auction M p0 (agents_number m + 1) m st = Ok r)
  \/ forall fuel, tree_auction M p0 fuel m st = Timeout.
Proof.
  intros M p0 m st t rs HM Ht HD HN Hrs [HL [HF [S HS]]] HV.
  destruct (new_tree_setup _ _ _ Ht) as [rs' [E' SU]]. rewrite Hrs in E'. injection E'; intros <-. clear E'.
  assert (VA : values_above (- M) m) by (intros c v Hc Hv; apply (HV c v Hc Hv)).
  assert (VB : values_below M m) by (intros c v Hc Hv; apply (HV c v Hc Hv)).
  destruct (new_sim_ok _ _ _ p0 SU) as [sp Hsp].
  assert (I0 := invA_start M _ _ _ _ _ m S HM SU Hsp eq_refl HL HF HS VA).
  destruct (start_good _ _ _ _ _ (clone_market m) SU Hsp) with (S := S) as [G EP]; [apply map_length|assumption|assumption|].
  assert (J0 := invB_start M (length m) p0 sp m HM HL HF EP).
  destruct (loop_dichotomy M (length m) t rs (clone_market m) SU HD (clone_sorted m) (values_below_clone _ _ VB)
     (agents_number m) (clone_market m, sp) I0 J0) as [K|K].
  - enough (X : (agents_number (clone_market m) <= agents_number m)%nat) by exact X. rewrite clone_agents. lia.
  - left. apply (auction_ends M p0 _ m st t rs Ht HD Hrs HL (ex_intro _ S HS)); [intros [X _]; contradiction|].
    intros sp' Hsp'. rewrite Hsp in Hsp'. injection Hsp'; intros <-. exact K.
  - right. destruct (tree_optimal_trade_errors (clone_market m) t) as [[o [Ho _]]|[_ [X1 _]]]; [|contradiction].
    eapply auction_never; try eassumption. unfold clone_market. rewrite map_length. assumption.
Qed.

(** ** C41 *)

Theorem single_node : forall M p0 fuel m st i, new_tree (clone_market m) st = Ok (Node i []) -> length p0 = length m ->
  ((0 < csize (cat_at m i))%nat -> tree_auction M p0 fuel m st = Raise TypeError)
  /\ (csize (cat_at m i) = 0%nat -> (0 < fuel)%nat -> exists r, tree_auction M p0 fuel m st = Ok r /\ tt_deals r = 0%nat).
Proof.
  intros M p0 fuel m st i Ht HL.
  assert (L : length (clone_market m) = length m) by apply map_length.
  destruct (new_tree_setup _ _ _ Ht) as [rs [Hrs SU]].
  assert (EC : csize (cat_at (clone_market m) i) = csize (cat_at m i)).
  { rewrite clone_at. unfold csize, clone, new_category. simpl. apply sort_desc_length. }
  unfold tree_auction. rewrite Ht. cbn [bind]. rewrite L, Hrs. cbn [bind].
  unfold tree_optimal_trade. cbn [tchildren detailed_values]. split.
  - intros H. rewrite <- EC in H. unfold csize in H. destruct (cvalues (cat_at (clone_market m) i)); [simpl in H; lia|]. reflexivity.
  - intros H Hf. rewrite <- EC in H. assert (H' := H). unfold csize in H. destruct (cvalues (cat_at (clone_market m) i)); [|discriminate].
    cbn [map bind filter]. destruct (new_sim_ok _ _ _ p0 SU) as [sp Hsp]. rewrite Hsp. cbn [bind].
    assert (EP : pv_prices (sp_vector sp) = p0).
    { unfold new_sim_prices in Hsp. destruct rs; [discriminate|]. destruct (forallb _ _); [|discriminate]. injection Hsp; intros <-. reflexivity. }
    destruct fuel as [|fuel]; [lia|]. cbn [tree_loop]. rewrite round_eq. cbn [tindex]. rewrite H'. cbn [Nat.eqb bind fst snd].
    unfold new_tree_trade, map_category_index_to_price.
    destruct (deals_explained_ok (clone_market m) (pv_prices (sp_vector sp)) (Node i [])) as (k1 & k2 & Y & _).
    { rewrite EP, HL. apply SU. }
    rewrite Y. cbn [bind fst snd]. eexists. split; [reflexivity|]. simpl. exact H'.
Qed.
