(** * A root with several leaves against the single-recipe auction on the merged leaves (for C72) *)

From Coq Require Import String List Arith Lia QArith Lqa Permutation Sorted Bool.
From Verif Require Import Base Model_Agents Model_Trade Model_Prices Model_Market Model_Ascending Model_RecipeTree Model_TreeAuction
  Spec_Market Spec_RecipeTree Spec_TreeAuction Spec_Path Spec_Regroup Proof_Agents Proof_Tree Proof_TA2 Proof_TA3
  Proof_TA4 Proof_TA6 Proof_TA7 Proof_TA8 Proof_Path2 Proof_Path4 Proof_Path5 Proof_Rg1 Proof_Rg2 Proof_Rg3.
Import ListNotations.
Open Scope Q_scope.

Definition star_tree (i : nat) (J : list nat) : rtree := Node i (map (fun j => Node j []) J).

Lemma star_describes : forall i J t, describes (SInt i) (SList (concat (map (fun j => [SInt j; SNone]) J))) t -> t = star_tree i J.
Proof.
  intros i J t H. inversion H as [|k l ts F]; subst. unfold star_tree. f_equal. clear H. revert ts F.
  induction J as [|j J IH]; intros ts F; cbn [map concat app pairs] in F; inversion F as [|a b l l' H1 H2]; subst; [reflexivity|].
  cbn [map]. f_equal; [|apply IH; assumption]. cbn [fst snd] in H1. inversion H1. reflexivity.
Qed.

Lemma new_tree_star : forall cats i J t, new_tree cats (star_struct i J) = Ok t -> t = star_tree i J.
Proof.
  intros cats i J t H. unfold star_struct in H. cbn [new_tree length Nat.even] in H.
  apply build_node_ok in H. destruct H as [H _]. apply star_describes. assumption.
Qed.

Lemma star_nodes : forall i J, node_indices (star_tree i J) = i :: J.
Proof. intros. unfold star_tree. cbn [node_indices]. rewrite leaf_nodes. reflexivity. Qed.

Lemma star_paths : forall i J p, is_path (star_tree i J) p -> J <> [] -> exists j, In j J /\ p = [i; j].
Proof.
  intros i J p H HN. unfold star_tree in H. inversion H as [k E|k ch c q Hc Hq]; subst.
  - destruct J; [contradiction|discriminate].
  - apply in_map_iff in Hc. destruct Hc as [j [<- Hj]]. inversion Hq as [k E|k ch' c' q' Hc' Hq']; subst; [eauto|destruct Hc'].
Qed.

Lemma star_height : forall i J, J <> [] -> height (star_tree i J) = 2%nat.
Proof.
  intros i J H. unfold star_tree. cbn [height]. rewrite map_map. f_equal. destruct J as [|j J]; [contradiction|].
  clear H. cbn [map fold_right].
  assert (X : forall k : list nat, (fold_right Nat.max 0 (map (fun x : nat => height (Node x [])) k) <= 1)%nat).
  { induction k as [|x k IH]; [apply Nat.le_0_l|]. cbn [map fold_right]. change (height (Node x [])) with 1%nat. lia. }
  specialize (X J). change (height (Node j [])) with 1%nat in *. change (fun x : nat => S (fold_right Nat.max 0%nat [])) with (fun x : nat => height (Node x [])). lia.
Qed.

(** All optimal initial prices of the tree are - M. *)
Lemma star_prices : forall M (m : market) i J rs p0, 0 < M -> J <> [] -> NoDup (i :: J) -> indices_in_range (length m) (star_tree i J) ->
  recipes (length m) (star_tree i J) = Ok rs -> initial_prices_optimal (length m) rs (- M) p0 ->
  forall k, In k (i :: J) -> nth k p0 0 == - M.
Proof.
  intros M m i J rs p0 HM HN ND RG Hrs HO.
  assert (HD : distinct_categories (star_tree i J)) by (unfold distinct_categories; rewrite star_nodes; assumption).
  destruct (initial_prices_exist M _ _ _ HM RG HD Hrs) as [_ U]. destruct HO as [[HL [HF [S HS]]] HO].
  assert (SV := U p0 S (conj (conj HL (conj HF (ex_intro _ S HS))) HO) HS). rewrite (star_height i J HN) in SV.
  assert (SU : setup (length m) (star_tree i J) rs).
  { destruct (recipes_spec _ _ RG) as [rs' [E F]]. rewrite Hrs in E. injection E; intros <-. split; assumption. }
  assert (LE : forall k, In k (i :: J) -> nth k p0 0 <= - M).
  { intros k Hk. rewrite Forall_forall in HF. apply HF. apply nth_In. rewrite HL.
    unfold indices_in_range in RG. rewrite Forall_forall in RG. apply RG. rewrite star_nodes. assumption. }
  assert (PS : forall j, In j J -> nth i p0 0 + nth j p0 0 == - M + - M).
  { intros j Hj. assert (X := sums_paths _ _ _ _ _ SU HD HL HS [i; j]).
    assert (P : is_path (star_tree i J) [i; j]).
    { unfold star_tree. apply path_down with (c := Node j []); [apply in_map_iff; exists j; auto|constructor]. }
    specialize (X P). rewrite path_sum_cons, path_sum_one in X. rewrite SV in X. rewrite X. unfold Qn. simpl. ring. }
  intros k [<-|Hk].
  - destruct J as [|j J]; [contradiction|]. assert (X := PS j (or_introl eq_refl)).
    assert (Y := LE i (or_introl eq_refl)). assert (Z := LE j (or_intror (or_introl eq_refl))). lra.
  - assert (X := PS k Hk). assert (Y := LE i (or_introl eq_refl)). assert (Z := LE k (or_intror Hk)). lra.
Qed.

Lemma star_regrouped : forall i J i' j', J <> [] -> regrouped (star_tree i J) (star_tree i' [j']) [([i], i'); (J, j')].
Proof.
  intros i J i' j' H. unfold star_tree. apply rg_node. rewrite <- (app_nil_r (map _ J)). cbn [map].
  apply rg_leaves; [assumption|constructor].
Qed.

(** The merged market: the leaves' agents first, then the root's. *)
Definition merged_market (m : market) (i : nat) (J : list nat) (name : string) : market :=
  [mkCat name (agents_of m J); cat_at m i].

Theorem star_same : forall M p0 fuel fuel' m i J name rs r t, 0 < M -> J <> [] -> NoDup (i :: J) ->
  all_different (agents_of m J) -> all_different (cvalues (cat_at m i)) ->
  (forall v, In v (agents_of m (i :: J)) -> - M < v /\ v <= M) ->
  tree_auction M p0 fuel m (star_struct i J) = Ok r -> recipes (length m) (tt_tree r) = Ok rs ->
  initial_prices_optimal (length m) rs (- M) p0 ->
  ascending_auction_M M fuel' (merged_market m i J name) [1; 1]%nat = Ok t ->
  tt_deals r = num_of_deals t
  /\ ((forall v, In v (agents_of m (i :: J)) -> v < M) -> agents_of m J <> [] -> cvalues (cat_at m i) <> [] ->
      exists ps pb, tprices t = Some [ps; pb]
        /\ (exists p, nth_error (tt_prices r) i = Some p /\ p == pb)
        /\ (forall j, In j J -> exists p, nth_error (tt_prices r) j = Some p /\ p == ps)
        /\ Permutation (cvalues (cat_at (tt_cats r) i)) (cvalues (cat_at (tcats t) 1))
        /\ Permutation (agents_of (tt_cats r) J) (cvalues (cat_at (tcats t) 0))).
Proof.
  intros M p0 fuel fuel' m i J name rs r t HM HN ND AJ AI VB HT Hrs HO HA.
  destruct (auction_returned _ _ _ _ _ _ HT) as (rs0 & sp & s' & R).
  assert (ET := new_tree_star _ _ _ _ (rt_tree _ _ _ _ _ _ _ _ _ R)). rewrite ET in Hrs.
  assert (SU := rt_setup _ _ _ _ _ _ _ _ _ R). rewrite ET in SU.
  assert (RG := su_range _ _ _ SU).
  assert (PP := star_prices M m i J rs p0 HM HN ND RG Hrs HO).
  set (m2 := merged_market m i J name) in *. set (p2 := [- M; - M]).
  assert (O2 : initial_prices_optimal (length m2) [[1; 1]%nat] (- M) p2).
  { apply (optimal_intro _ _ (star_tree 1 [0%nat])).
    - repeat constructor.
    - unfold distinct_categories. rewrite star_nodes. repeat constructor; simpl; intuition discriminate.
    - reflexivity.
    - split; [reflexivity|]. split; [repeat constructor; apply Qle_refl|]. exists (- M + - M). intros q [<-|[]].
      unfold p2, dot. simpl. unfold Qn. simpl. ring.
    - intros q [<-|[]]. unfold p2, dot. simpl. unfold Qn. simpl. ring. }
  assert (NT2 : new_tree (clone_market m2) (path_struct 1 [0%nat]) = Ok (star_tree 1 [0%nat])) by reflexivity.
  assert (SA : forall K k', In (K, k') [([i], 1%nat); (J, 0%nat)] -> same_agents M m m2 K k').
  { intros K k' [E|[E|[]]]; injection E; intros <- <-.
    - left. exists i. split; reflexivity.
    - right. split; [reflexivity|]. split; [assumption|]. intros v Hv. apply VB. unfold agents_of. cbn [map concat].
      apply in_app_iff. right. exact Hv. }
  assert (PE : forall K k' x, In (K, k') [([i], 1%nat); (J, 0%nat)] -> In x K -> nth x p0 0 == nth k' p2 0).
  { intros K k' x [E|[E|[]]] Hx; injection E; intros <- <-; cbn [p2 nth].
    - destruct Hx as [<-|[]]. apply PP. left. reflexivity.
    - apply PP. right. exact Hx. }
  assert (RR := regrouped_same M fuel m m2 (star_struct i J) (path_struct 1 [0%nat]) (star_tree i J) (star_tree 1 [0%nat])
    rs [[1; 1]%nat] p0 p2 [([i], 1%nat); (J, 0%nat)] HM).
  rewrite HT in RR.
  specialize (RR ltac:(rewrite <- ET; apply (rt_tree _ _ _ _ _ _ _ _ _ R)) NT2).
  specialize (RR ltac:(unfold distinct_categories; rewrite star_nodes; exact ND)).
  specialize (RR ltac:(unfold distinct_categories; rewrite star_nodes; repeat constructor; simpl; intuition discriminate)).
  specialize (RR (star_regrouped i J 1%nat 0%nat HN) Hrs eq_refl (proj1 HO) (proj1 O2) PE SA).
  destruct (tree_auction M p2 fuel m2 (path_struct 1 [0%nat])) as [r'| |] eqn:HT2; [|destruct RR|destruct RR].
  destruct RR as [RD RX].
  assert (B2 : Forall (fun x => x = 0%nat \/ x = 1%nat) [1; 1]%nat) by (repeat (apply Forall_cons; [auto|]); constructor).
  assert (NTs : no_ties m2).
  { intros c l1 x l2 y l3 [<-|[<-|[]]] E; [eapply AJ; exact E|eapply AI; exact E]. }
  assert (IV : forall c v, In c m2 -> In v (cvalues c) -> In v (agents_of m (i :: J))).
  { intros c v [<-|[<-|[]]] Hv; unfold agents_of; cbn [map concat]; apply in_app_iff; [right|left]; exact Hv. }
  assert (VO : values_over (- M) m2) by (intros c v Hc Hv; apply VB; eapply IV; eassumption).
  split.
  - rewrite RD. eapply (path_same_deals M p2 fuel fuel' m2 [1; 1]%nat 1%nat [0%nat]); try eassumption.
    + apply perm_swap.
    + reflexivity.
  - intros VM NJ NI.
    destruct (path_same_outcome M p2 fuel fuel' m2 [1; 1]%nat 1%nat [0%nat] r' t) as (_ & EC & prices & EP & PX); try eassumption; try reflexivity.
    + intros j Hj. simpl in Hj. destruct Hj as [<-|[<-|[]]]; unfold cat_at, m2, merged_market, csize; cbn [nth cvalues].
      * destruct (agents_of m J); [contradiction|simpl; lia].
      * unfold cat_at in NI. destruct (cvalues _); [contradiction|simpl; lia].
    + intros c v Hc Hv. change (Qn (length [0%nat])) with 1. assert (X := VM v (IV c v Hc Hv)). lra.
    + destruct (PX 0%nat) as (q0 & ps & A1 & A2 & A3); [left; reflexivity|].
      destruct (PX 1%nat) as (q1 & pb & B1 & B2' & B3); [right; left; reflexivity|].
      assert (LP : length prices = 2%nat).
      { destruct (Proof_Ascending2.auction_outcome _ _ _ _ _ HA) as (Hl & _ & ns & stop & _ & _ & Et & _).
        rewrite Et in EP. cbn [tprices] in EP. injection EP; intros <-. rewrite Proof_Ascending2.final_length. exact (clone_length' m2). }
      destruct prices as [|x [|y [|z l]]]; try discriminate. cbn [nth_error] in A2, B2'. injection A2; intros ->. injection B2'; intros ->.
      exists ps, pb. split; [exact EP|].
      destruct (RX [i] 1%nat (or_introl eq_refl)) as [RP RA]. destruct (RX J 0%nat (or_intror (or_introl eq_refl))) as [RP' RA'].
      split; [|split; [|split]].
      * destruct (RP i (or_introl eq_refl)) as (p & p' & C1 & C2 & C3). exists p. split; [exact C1|].
        rewrite B1 in C2. injection C2; intros ->. rewrite C3. exact B3.
      * intros j Hj. destruct (RP' j Hj) as (p & p' & C1 & C2 & C3). exists p. split; [exact C1|].
        rewrite A1 in C2. injection C2; intros ->. rewrite C3. exact A3.
      * rewrite <- EC. unfold agents_of in RA. cbn [map concat] in RA. rewrite app_nil_r in RA. exact RA.
      * rewrite <- EC. exact RA'.
Qed.
