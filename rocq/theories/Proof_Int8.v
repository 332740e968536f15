(** * largest_categories of the integer tree (C61) *)

From Coq Require Import String List Arith Lia QArith Lqa Permutation Bool.
From Verif Require Import Base Model_Agents Model_Prices Model_RecipeTree Model_IntPrices Model_IntTree
  Spec_Market Spec_RecipeTree Spec_Int Spec_Int2 Proof_Tree Proof_Tree2 Proof_Tree3 Proof_TA1 Proof_TA2 Proof_TA6 Proof_Int1 Proof_Int2 Proof_Int3 Proof_Int4 Proof_Int5 Proof_Int6.
Import ListNotations.
Open Scope Q_scope.

Lemma ceil_needed : forall a b, (0 < b)%nat -> deals_needed a b (ceil_div a b).
Proof.
  intros a b Hb. unfold ceil_div. split.
  - assert (X := Nat.div_mod (a + (b - 1)) b ltac:(lia)). assert (Y := Nat.mod_upper_bound (a + (b - 1)) b ltac:(lia)). nia.
  - intros k Hk. apply Nat.lt_succ_r. apply Nat.div_lt_upper_bound; nia.
Qed.

Lemma ratio_lt : forall n a c, (0 < c)%nat -> (Qlt_bool (Qn n) (Qn a / Qn c) = true <-> (n * c < a)%nat).
Proof.
  intros n a c Hc. assert (C := Qn_pos c Hc). rewrite Qlt_bool_iff, Qn_lt, Qn_mult. split; intros H.
  - apply (Qmult_lt_r _ _ (Qn c) C) in H. setoid_replace (Qn a / Qn c * Qn c) with (Qn a) in H by (field; lra). assumption.
  - apply (Qmult_lt_r _ _ (Qn c) C). setoid_replace (Qn a / Qn c * Qn c) with (Qn a) by (field; lra). assumption.
Qed.

Lemma int_largest_node : forall cats counts i ch a b l, positive_counts counts (Node i ch) ->
  int_largest_categories cats counts (Node i ch) = Ok (a, b, l) ->
  b = Qn (csize (cat_at cats i)) / Qn (count_at counts i) /\
  exists n, children_deals cats counts ch n /\
  ((l = [i] /\ a = b /\ (n * count_at counts i < csize (cat_at cats i) \/ n = 0)%nat)
   \/ (exists rs, map_result (int_largest_categories cats counts) ch = Ok rs /\ l = concat (map snd rs)
        /\ a = fold_left (fun m r => Qmax2 m (fst (fst r))) rs 0
        /\ (csize (cat_at cats i) <= n * count_at counts i)%nat /\ (0 < n)%nat)).
Proof.
  intros cats counts i ch a b l HP H. assert (Hi : (0 < count_at counts i)%nat) by (apply HP; left; reflexivity).
  cbn [int_largest_categories] in H. unfold size_ratio in H. destruct (Nat.eqb_spec (count_at counts i) 0); [lia|]. cbn [bind] in H.
  assert (HC : forall c, In c ch -> (0 < count_at counts (tindex c))%nat).
  { intros c Hc. apply (positive_child _ _ _ _ HP Hc). destruct c; left; reflexivity. }
  rewrite (map_result_ok_all _ _ _ (fun c => ceil_div (csize (cat_at cats (tindex c))) (count_at counts (tindex c)))) in H.
  2: { intros c Hc. unfold size_ceil. assert (X := HC c Hc). destruct (Nat.eqb_spec (count_at counts (tindex c)) 0); [lia|reflexivity]. }
  cbn [bind] in H. set (ks := map (fun c => ceil_div (csize (cat_at cats (tindex c))) (count_at counts (tindex c))) ch) in *.
  assert (CD : children_deals cats counts ch (nsum ks)).
  { exists ks. split; [|reflexivity]. unfold ks. clear - HC. induction ch as [|c ch IH]; constructor.
    - apply ceil_needed. apply HC. left. reflexivity.
    - apply IH. intros; apply HC; right; assumption. }
  destruct (Qlt_bool (Qn (nsum ks)) (Qn (csize (cat_at cats i)) / Qn (count_at counts i)) || (nsum ks =? 0)%nat) eqn:E.
  - injection H; intros <- <- <-. split; [reflexivity|]. exists (nsum ks). split; [assumption|]. left. split; [reflexivity|]. split; [reflexivity|].
    apply orb_true_iff in E. destruct E as [E|E]; [left; apply ratio_lt in E; assumption|right; apply Nat.eqb_eq; assumption].
  - apply orb_false_iff in E. destruct E as [E1 E2]. apply Nat.eqb_neq in E2.
    apply bind_Ok in H. destruct H as [rs [Hr H]]. injection H; intros <- <- <-. split; [reflexivity|]. exists (nsum ks). split; [assumption|].
    right. exists rs. split; [assumption|]. split; [reflexivity|]. split; [reflexivity|]. split; [|lia].
    apply Nat.nlt_ge. intros X. apply ratio_lt in X; [|assumption]. congruence.
Qed.

Lemma deals_needed_unique : forall a b k k', deals_needed a b k -> deals_needed a b k' -> k = k'.
Proof. intros a b k k' [A B] [C D]. assert (X := B _ C). assert (Y := D _ A). lia. Qed.

Lemma children_deals_unique : forall cats counts ch n n', children_deals cats counts ch n -> children_deals cats counts ch n' -> n = n'.
Proof.
  intros cats counts ch n n' (ks & H & ->) (ks' & H' & ->). f_equal. revert ks' H'. induction H as [|c k ch ks Hk H IH]; intros ks' H'.
  - inversion H'. reflexivity.
  - inversion H'; subst. f_equal; [eapply deals_needed_unique; eassumption|]. apply IH. assumption.
Qed.

Lemma int_restrict : forall cats counts t a b l x, positive_counts counts t -> distinct_categories t ->
  int_largest_categories cats counts t = Ok (a, b, l) -> subtree t x ->
  (forall j, In j (node_indices x) -> ~ In j l)
  \/ (exists a' b' l', int_largest_categories cats counts x = Ok (a', b', l') /\ forall j, In j (node_indices x) -> (In j l <-> In j l')).
Proof.
  intros cats counts t a b l x HP HD HL H. induction H as [|i ch c H IH Hc]; [right; exists a, b, l; split; [assumption|tauto]|].
  assert (HDn := subtree_distinct _ _ HD H). destruct (distinct_inv _ _ HDn) as [Hi HDc].
  assert (HPn : positive_counts counts (Node i ch)) by (intros j Hj; apply HP; eapply subtree_nodes; eassumption).
  destruct IH as [IH|(a' & b' & l' & E & IH)].
  - left. intros j Hj. apply IH. eapply child_node; eassumption.
  - destruct (int_largest_node _ _ _ _ _ _ _ HPn E) as (_ & n & _ & [(-> & _ & _)|(rs & Hr & -> & _ & _)]).
    + left. intros j Hj Hin. apply IH in Hin; [|eapply child_node; eassumption].
      destruct Hin as [<-|[]]. apply Hi. apply in_concat. exists (node_indices c). split; [apply in_map|]; assumption.
    + right. destruct (map_result_fwd _ _ _ _ _ _ Hr Hc) as ([[a1 b1] l1] & E1 & In1). exists a1, b1, l1.
      split; [assumption|]. intros j Hj. rewrite (IH j) by (eapply child_node; eassumption). rewrite in_concat. split.
      * intros [lj [Hl Hjl]]. apply in_map_iff in Hl. destruct Hl as [[[a2 b2] l2] [<- H2]].
        destruct (map_result_inv _ _ _ _ _ _ Hr H2) as (c' & Hc' & E2).
        assert (c' = c).
        { eapply (NoDup_concat_same _ node_indices); [exact HDc|exact Hc'|exact Hc| |exact Hj].
          eapply cut_incl; [eapply int_largest_cut; exact E2|assumption]. }
        subst. rewrite E1 in E2. injection E2; intros -> _ _. assumption.
      * intros Hjl. exists l1. split; [|assumption]. change l1 with (snd (a1, b1, l1)). apply in_map. assumption.
Qed.

Theorem int_choice : forall cats counts t a b l i ch n, positive_counts counts t -> distinct_categories t ->
  int_largest_categories cats counts t = Ok (a, b, l) -> subtree t (Node i ch) -> children_deals cats counts ch n ->
  (In i l -> (n * count_at counts i < csize (cat_at cats i) \/ n = 0)%nat)
  /\ (forall c j, In c ch -> In j (node_indices c) -> In j l -> (csize (cat_at cats i) <= n * count_at counts i /\ 0 < n)%nat).
Proof.
  intros cats counts t a b l i ch n HP HD HL HS HN.
  assert (HDn := subtree_distinct _ _ HD HS). destruct (distinct_inv _ _ HDn) as [Hi HDc].
  assert (HPn : positive_counts counts (Node i ch)) by (intros j Hj; apply HP; eapply subtree_nodes; eassumption).
  destruct (int_restrict _ _ _ _ _ _ _ HP HD HL HS) as [K|(a' & b' & l' & E & K)].
  - split; [intros X; exfalso; apply (K i); [left; reflexivity|assumption]|].
    intros c j Hc Hj X. exfalso. apply (K j); [eapply child_node; eassumption|assumption].
  - destruct (int_largest_node _ _ _ _ _ _ _ HPn E) as (_ & n' & HN' & C).
    rewrite <- (children_deals_unique _ _ _ _ _ HN HN') in C. destruct C as [(-> & _ & C)|(rs & Hr & -> & _ & C)].
    + split; [intros _; assumption|]. intros c j Hc Hj X. apply K in X; [|eapply child_node; eassumption].
      destruct X as [<-|[]]. exfalso. apply Hi. apply in_concat. exists (node_indices c). split; [apply in_map|]; assumption.
    + split; [|auto]. intros X. apply K in X; [|left; reflexivity]. exfalso. apply in_concat in X. destruct X as [lj [Hl Hjl]].
      apply in_map_iff in Hl. destruct Hl as [[[a2 b2] l2] [<- H2]]. destruct (map_result_inv _ _ _ _ _ _ Hr H2) as (c' & Hc' & E2).
      apply Hi. apply in_concat. exists (node_indices c'). split; [apply in_map; assumption|].
      eapply cut_incl; [eapply int_largest_cut; exact E2|assumption].
Qed.

Lemma Qmax2_ge : forall a b, a <= Qmax2 a b /\ b <= Qmax2 a b /\ (Qmax2 a b = a \/ Qmax2 a b = b).
Proof.
  intros a b. unfold Qmax2. destruct (Qlt_bool a b) eqn:E.
  - apply Qlt_bool_iff in E. repeat split; [lra|lra|auto].
  - assert (~ a < b) by (intros X; apply Qlt_bool_iff in X; congruence). repeat split; [lra|lra|auto].
Qed.

Lemma fold_max : forall (rs : list (Q * Q * list nat)) m,
  let r := fold_left (fun m r => Qmax2 m (fst (fst r))) rs m in
  m <= r /\ (forall x, In x rs -> fst (fst x) <= r) /\ (r = m \/ exists x, In x rs /\ r = fst (fst x)).
Proof.
  induction rs as [|x rs IH]; intros m; cbn [fold_left].
  - split; [lra|]. split; [intros ? []|left; reflexivity].
  - destruct (IH (Qmax2 m (fst (fst x)))) as (A & B & C). destruct (Qmax2_ge m (fst (fst x))) as (G1 & G2 & G3).
    cbv zeta in *. set (r := fold_left _ rs _) in *. split; [lra|]. split.
    + intros y [<-|Hy]; [lra|auto].
    + destruct C as [C|(y & Hy & C)]; [|right; exists y; split; [right; assumption|assumption]].
      rewrite C. destruct G3 as [G3|G3]; rewrite G3; [left; reflexivity|right; exists x; split; [left; reflexivity|reflexivity]].
Qed.

Theorem int_sizes : forall cats counts t a b l, positive_counts counts t -> int_largest_categories cats counts t = Ok (a, b, l) ->
  b = Qn (csize (cat_at cats (tindex t))) / Qn (count_at counts (tindex t))
  /\ (exists i, In i l /\ a == Qn (csize (cat_at cats i)) / Qn (count_at counts i))
  /\ (forall i, In i l -> Qn (csize (cat_at cats i)) / Qn (count_at counts i) <= a).
Proof.
  intros cats counts t. induction t as [i ch IH] using rtree_ind'. intros a b l HP HL.
  destruct (int_largest_node _ _ _ _ _ _ _ HP HL) as (-> & n & HN & [(-> & -> & _)|(rs & Hr & -> & -> & Hs & H0)]).
  - split; [reflexivity|]. split; [exists i; split; [left; reflexivity|cbn [tindex]; reflexivity]|].
    intros j [<-|[]]. cbn [tindex]. lra.
  - split; [reflexivity|]. destruct (fold_max rs 0) as (A & B & C). cbv zeta in *. set (r := fold_left _ rs 0) in *.
    assert (P : forall c, In c ch -> positive_counts counts c) by (intros; eapply positive_child; eassumption).
    rewrite Forall_forall in IH. split.
    + destruct C as [C|(x & Hx & C)].
      * (* all are zero *)
        destruct HN as (ks & F2 & ->). destruct ch as [|c0 ch0]; [inversion F2; subst; simpl in H0; lia|].
        destruct (map_result_fwd _ _ _ _ _ c0 Hr (or_introl eq_refl)) as ([[a1 b1] l1] & E1 & In1).
        destruct (IH c0 (or_introl eq_refl) _ _ _ (P c0 (or_introl eq_refl)) E1) as (_ & (j & Hj & Ej) & _).
        exists j. split; [apply in_concat; exists l1; split; [change l1 with (snd (a1, b1, l1)); apply in_map; assumption|assumption]|].
        assert (B1 := B _ In1). cbn [fst] in B1. rewrite C in *.
        assert (0 <= Qn (csize (cat_at cats j)) / Qn (count_at counts j)).
        { unfold Qdiv. apply Qmult_le_0_compat; [apply Qn_nonneg|]. apply Qinv_le_0_compat. apply Qn_nonneg. }
        lra.
      * destruct (map_result_inv _ _ _ _ _ _ Hr Hx) as (c & Hc & E). destruct x as [[a1 b1] l1].
        destruct (IH c Hc _ _ _ (P c Hc) E) as (_ & (j & Hj & Ej) & _). exists j.
        split; [apply in_concat; exists l1; split; [change l1 with (snd (a1, b1, l1)); apply in_map; assumption|assumption]|].
        rewrite C. exact Ej.
    + intros j Hj. apply in_concat in Hj. destruct Hj as [lj [Hl Hj]]. apply in_map_iff in Hl. destruct Hl as [[[a1 b1] l1] [<- Hx]].
      destruct (map_result_inv _ _ _ _ _ _ Hr Hx) as (c & Hc & E). destruct (IH c Hc _ _ _ (P c Hc) E) as (_ & _ & U).
      assert (B1 := B _ Hx). cbn [fst snd] in *. specialize (U j Hj). lra.
Qed.
