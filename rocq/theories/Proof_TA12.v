(** * Counting deals in the subtrees of a recipe tree (for C63) *)

From Coq Require Import String List Arith NArith Lia QArith Lqa Permutation Sorted Bool.
From Verif Require Import Base Model_Agents Model_Trade Model_RecipeTree
  Spec_Market Spec_RecipeTree Proof_Strategy Proof_Tree Proof_Tree2 Proof_Tree3 Proof_TA4 Proof_TA6 Proof_TA7 Proof_TA10.
Import ListNotations.
Open Scope Q_scope.

(** All subtrees, from the root. *)
Fixpoint subs (x : rtree) : list rtree := match x with Node i ch => x :: concat (map subs ch) end.

Lemma subs_self : forall x, In x (subs x).
Proof. intros [i ch]. left. reflexivity. Qed.

Lemma subs_child : forall i ch c y, In c ch -> In y (subs c) -> In y (subs (Node i ch)).
Proof. intros i ch c y Hc Hy. right. apply in_concat. exists (subs c). split; [apply in_map; assumption|assumption]. Qed.

Lemma subs_subtree : forall x y, In y (subs x) -> subtree x y.
Proof.
  intros x. induction x as [i ch IH] using rtree_ind'. intros y [<-|Hy]; [constructor|]. rewrite Forall_forall in IH.
  apply in_concat in Hy. destruct Hy as [l [Hl Hy]]. apply in_map_iff in Hl. destruct Hl as [c [<- Hc]].
  eapply subtree_trans; [|apply (IH c Hc y Hy)]. econstructor; [constructor|assumption].
Qed.

(** A number for every subtree that is shared out among the children. *)
Definition shared (f : rtree -> nat) (x : rtree) : Prop :=
  forall i ch, In (Node i ch) (subs x) -> ch <> [] -> f (Node i ch) = nsum (map f ch).

Lemma shared_child : forall f i ch c, shared f (Node i ch) -> In c ch -> shared f c.
Proof. intros f i ch c H Hc j chj Hj. apply H. eapply subs_child; eassumption. Qed.

Definition total (g : rtree -> Q) (x : rtree) : Q := Qsum (map g (subs x)).

Lemma total_node : forall g i ch, total g (Node i ch) == g (Node i ch) + Qsum (map (total g) ch).
Proof.
  intros g i ch. unfold total at 1. cbn [subs map]. rewrite Qsum_cons. apply Qplus_inj_l.
  induction ch as [|c ch IH]; [reflexivity|]. cbn [map concat]. rewrite map_app, Qsum_app, IH, Qsum_cons. reflexivity.
Qed.

Lemma Qsum_map_ext_in : forall A (f g : A -> Q) l, (forall a, In a l -> f a == g a) -> Qsum (map f l) == Qsum (map g l).
Proof.
  intros A f g. induction l as [|a l IH]; intros H; [reflexivity|]. cbn [map]. rewrite !Qsum_cons, IH, (H a (or_introl eq_refl)); [reflexivity|].
  intros b Hb. apply H. right. assumption.
Qed.

Lemma Qsum_map_le : forall A (f g : A -> Q) l, (forall a, In a l -> f a <= g a) -> Qsum (map f l) <= Qsum (map g l).
Proof.
  intros A f g. induction l as [|a l IH]; intros H; [simpl; lra|]. cbn [map]. rewrite !Qsum_cons.
  assert (X := H a (or_introl eq_refl)). specialize (IH (fun b Hb => H b (or_intror Hb))). lra.
Qed.

Lemma Qsum_map_lin : forall A (f g : A -> Q) a b l, Qsum (map (fun x => a * f x - b * g x) l) == a * Qsum (map f l) - b * Qsum (map g l).
Proof. intros A f g a b. induction l as [|x l IH]; [simpl; lra|]. cbn [map]. rewrite !Qsum_cons, IH. lra. Qed.

Lemma Qn_add : forall a b, Qn (a + b) == Qn a + Qn b.
Proof. intros a b. unfold Qn. rewrite Nat2Z.inj_add, inject_Z_plus. reflexivity. Qed.

Lemma Qn_nsum : forall l, Qn (nsum l) == Qsum (map Qn l).
Proof. induction l as [|a l IH]; [reflexivity|]. cbn [nsum fold_right map]. rewrite Qn_add, Qsum_cons. unfold nsum in IH. rewrite IH. reflexivity. Qed.

(** The prices of a shared number of deals. *)
Lemma price_total : forall f (p : list Q) x, shared f x -> balanced p x -> forall q, is_path x q ->
  total (fun y => Qn (f y) * nth (tindex y) p 0) x == Qn (f x) * path_sum p q.
Proof.
  intros f p x. induction x as [i ch IH] using rtree_ind'. intros HF BAL q Hq. rewrite Forall_forall in IH.
  rewrite total_node. cbn [tindex]. inversion Hq as [k|k chk c q' Hc Hq']; subst.
  - simpl. rewrite path_sum_one. lra.
  - assert (NE : ch <> []) by (intros ->; destruct Hc).
    assert (BC : forall c, In c ch -> balanced p c) by (intros c0 Hc0; eapply balanced_sub; [exact BAL|]; econstructor; [constructor|assumption]).
    rewrite path_sum_cons.
    assert (E : Qsum (map (total (fun y => Qn (f y) * nth (tindex y) p 0)) ch) == Qn (f (Node i ch)) * path_sum p q').
    { rewrite (HF i ch (subs_self _) NE), Qn_nsum, map_map.
      transitivity (Qsum (map (fun c => Qn (f c) * path_sum p q') ch)).
      - apply Qsum_map_ext_in. intros c0 Hc0. destruct (path_exists c0) as [q0 Hq0].
        rewrite (IH c0 Hc0 (shared_child _ _ _ _ HF Hc0) (BC c0 Hc0) q0 Hq0).
        rewrite (balanced_siblings _ _ _ _ _ q0 q' BAL Hc0 Hc Hq0 Hq'). reflexivity.
      - clear. induction ch as [|a ch IHc]; [simpl; lra|]. cbn [map]. rewrite !Qsum_cons, IHc. lra. }
    rewrite E. lra.
Qed.

(** The best agents of every subtree can be combined into deals. *)
Lemma top_combined : forall cats f x, (forall i, desc (cvalues (cat_at cats i))) -> shared f x ->
  (forall y, In y (subs x) -> (f y <= csize (cat_at cats (tindex y)))%nat) ->
  (f x <= length (combined_values cats x))%nat
  /\ total (fun y => Qsum (firstn (f y) (cvalues (cat_at cats (tindex y))))) x <= Qsum (firstn (f x) (combined_values cats x)).
Proof.
  intros cats f x DC. induction x as [i ch IH] using rtree_ind'. intros HF HC. rewrite Forall_forall in IH.
  rewrite total_node. cbn [tindex]. assert (SI := HC _ (subs_self _)). cbn [tindex] in SI. unfold csize in SI.
  destruct (list_eq_nil_dec ch) as [->|NE].
  - cbn [combined_values]. split; [assumption|]. simpl. lra.
  - rewrite combined_node by assumption. set (b := sort_desc (concat (map (combined_values cats) ch))).
    assert (K : forall c, In c ch -> (f c <= length (combined_values cats c))%nat
      /\ total (fun y => Qsum (firstn (f y) (cvalues (cat_at cats (tindex y))))) c <= Qsum (firstn (f c) (combined_values cats c))).
    { intros c Hc. apply (IH c Hc); [eapply shared_child; eassumption|]. intros y Hy. apply HC. eapply subs_child; eassumption. }
    assert (X : exists X, sub_bag X (concat (map (combined_values cats) ch)) /\ length X = nsum (map f ch)
      /\ Qsum (map (total (fun y => Qsum (firstn (f y) (cvalues (cat_at cats (tindex y)))))) ch) <= Qsum X).
    { clear -K. induction ch as [|c ch IHc].
      - exists []. split; [apply sub_bag_nil|]. split; [reflexivity|simpl; lra].
      - destruct IHc as (X & SB & L & S); [intros c0 Hc0; apply K; right; assumption|].
        destruct (K c (or_introl eq_refl)) as [L0 S0].
        exists (firstn (f c) (combined_values cats c) ++ X). split; [|split].
        + cbn [map concat]. apply sub_bag_app2; [apply sub_bag_firstn|assumption].
        + rewrite app_length, firstn_length_le by assumption. cbn [map nsum fold_right]. unfold nsum in L. lia.
        + cbn [map]. rewrite Qsum_cons, Qsum_app. lra. }
    destruct X as (X & SB & L & S). assert (EF := HF i ch (subs_self _) NE).
    assert (SB' : sub_bag X b).
    { destruct SB as [r Hr]. exists r. eapply perm_trans; [exact Hr|]. apply Permutation_sym, sort_desc_perm. }
    assert (LB := sub_bag_length _ _ SB'). rewrite L, <- EF in LB.
    split; [rewrite zip_add_length; lia|].
    rewrite zip_add_firstn_sum by lia.
    assert (Y := sub_bag_sum _ _ (sort_desc_desc _) SB'). rewrite L, <- EF in Y. fold b in Y. lra.
Qed.

(** ** The deals that use the agents of a subtree *)

Lemma used_concat_none : forall ch Ds j, Forall2 (fun c D => Forall (tree_deal_ok c) D) ch Ds ->
  ~ In j (concat (map node_indices ch)) -> used_in j (concat Ds) = [].
Proof.
  intros ch Ds j H. induction H as [|c D0 ch Ds H0 H IH]; intros HN; [reflexivity|]. cbn [concat map] in *. rewrite used_app.
  rewrite (used_none j c D0 H0), IH; [reflexivity| |]; intros X; apply HN; apply in_app_iff; [right|left]; assumption.
Qed.

Lemma split_used : forall ch Ds, Forall2 (fun c D => Forall (tree_deal_ok c) D) ch Ds -> NoDup (concat (map node_indices ch)) ->
  Forall2 (fun c Dc => Forall (tree_deal_ok c) Dc /\ forall j, In j (node_indices c) -> used_in j (concat Ds) = used_in j Dc) ch Ds.
Proof.
  intros ch Ds H. induction H as [|c D0 ch Ds H0 H IH]; intros ND; [constructor|]. cbn [concat map] in *.
  apply NoDup_app_inv in ND. destruct ND as [N1 [N2 N3]]. specialize (IH N2). constructor.
  - split; [assumption|]. intros j Hj. rewrite used_app, (used_concat_none ch Ds j H (N3 j Hj)). apply app_nil_r.
  - assert (K : Forall (fun c' => forall j, In j (node_indices c') -> used_in j D0 = []) ch).
    { rewrite Forall_forall. intros c' Hc' j Hj. apply (used_none j c D0 H0). intros X. apply (N3 j X).
      apply in_concat. exists (node_indices c'). split; [apply in_map; assumption|assumption]. }
    clear -IH K. set (C := concat Ds) in *. clearbody C. induction IH as [|a b la lb [A1 A2] IH IHH]; [constructor|].
    inversion K; subst. constructor; [|auto]. split; [assumption|]. intros j Hj. rewrite used_app, (H1 j Hj). apply A2. assumption.
Qed.

Lemma feasible_shared : forall x D, distinct_categories x -> Forall (tree_deal_ok x) D ->
  length (used_in (tindex x) D) = length D
  /\ shared (fun y => length (used_in (tindex y) D)) x
  /\ tree_gain D == total (fun y => Qsum (used_in (tindex y) D)) x.
Proof.
  intros x. induction x as [i ch IH] using rtree_ind'. intros D HD HF. rewrite Forall_forall in IH.
  destruct (list_eq_nil_dec ch) as [->|NE].
  - cbn [tindex].
    assert (X : length (used_in i D) = length D /\ tree_gain D == Qsum (used_in i D)).
    { clear -HF. unfold tree_gain, used_in. induction HF as [|[p vs] D [Hp Hl] HF [IH1 IH2]]; [split; reflexivity|].
      simpl in Hp, Hl. inversion Hp as [k E1 E2|? ? c q Hc]; subst; [|destruct Hc].
      destruct vs as [|v [|]]; try (simpl in Hl; lia). cbn [map concat fst snd combine filter]. rewrite Nat.eqb_refl.
      cbn [map snd app length]. split; [congruence|]. rewrite !Qsum_cons, IH2. unfold tree_deal_gain. simpl. lra. }
    destruct X as [X1 X2]. split; [assumption|]. split.
    + intros k chk [E|[]] NE. injection E; intros <- _. congruence.
    + rewrite X2. unfold total. simpl. lra.
  - destruct (split_deals i ch D NE HF) as [Ds [FD PD]]. assert (HC := fun c Hc => distinct_child i ch c HD Hc).
    apply distinct_inv in HD. destruct HD as [N1 N2].
    assert (SU := split_used ch Ds FD N2).
    assert (NI := used_concat_none ch Ds i FD N1).
    assert (UI : Permutation (used_in i D) (map head_value D)).
    { eapply perm_trans; [apply (node_used i ch D i HF)|]. rewrite Nat.eqb_refl.
      assert (Z : used_in i (map tail_deal D) = []).
      { assert (P := used_perm i _ _ PD). rewrite NI in P. apply Permutation_sym, Permutation_nil in P. exact P. }
      rewrite Z, app_nil_r. apply Permutation_refl. }
    assert (LD : length (used_in i D) = length D) by (rewrite (Permutation_length UI); apply map_length).
    assert (UJ : forall j, In j (concat (map node_indices ch)) -> Permutation (used_in j D) (used_in j (concat Ds))).
    { intros j Hj. eapply perm_trans; [apply (node_used i ch D j HF)|]. destruct (Nat.eqb_spec i j) as [<-|_]; [contradiction|].
      simpl. apply used_perm. assumption. }
    assert (UC : forall c Dc, In (c, Dc) (combine ch Ds) -> Forall (tree_deal_ok c) Dc /\ forall j, In j (node_indices c) -> Permutation (used_in j D) (used_in j Dc)).
    { intros c Dc HI. assert (Hc := in_combine_l _ _ _ _ HI).
      assert (X : Forall (tree_deal_ok c) Dc /\ forall j, In j (node_indices c) -> used_in j (concat Ds) = used_in j Dc).
      { clear -SU HI. set (C := concat Ds) in *. clearbody C. induction SU as [|a b la lb A SU IHS]; [destruct HI|]. destruct HI as [E|HI]; [injection E; intros <- <-; exact A|auto]. }
      destruct X as [X1 X2]. split; [assumption|]. intros j Hj. rewrite <- (X2 j Hj). apply UJ. apply in_concat.
      exists (node_indices c). split; [apply in_map; assumption|assumption]. }
    assert (LC := Forall2_length _ _ _ _ _ FD).
    assert (CO : forall c, In c ch -> exists Dc, In (c, Dc) (combine ch Ds)).
    { clear -LC. revert Ds LC. induction ch as [|a ch IHc]; intros [|b Ds] LC c Hc; try (destruct Hc; fail); [discriminate|].
      destruct Hc as [<-|Hc]; [exists b; left; reflexivity|]. injection LC; intros LC'. destruct (IHc Ds LC' c Hc) as [Dc H]. exists Dc. right. assumption. }
    assert (UL : forall c Dc y, In (c, Dc) (combine ch Ds) -> In y (subs c) -> length (used_in (tindex y) D) = length (used_in (tindex y) Dc)).
    { intros c Dc y HI Hy. apply Permutation_length. destruct (UC c Dc HI) as [_ X]. apply X.
      eapply subtree_nodes; [apply subs_subtree; exact Hy|apply tindex_node]. }
    split; [exact LD|]. split.
    + intros k chk [E|Hk] NEk.
      * injection E; intros <- <-. cbn [tindex]. rewrite LD.
        assert (E1 : length D = length (concat Ds)) by (rewrite <- (Permutation_length PD); symmetry; apply map_length).
        rewrite E1, concat_length. clear -IH UL UC LC HC. f_equal.
        assert (G : forall a b, (forall c Dc, In (c, Dc) (combine a b) -> length (used_in (tindex c) D) = length Dc) -> length a = length b ->
          map (@length tree_deal) b = map (fun y => length (used_in (tindex y) D)) a).
        { induction a as [|x a IHa]; intros [|y b] HG HL; try discriminate; [reflexivity|]. cbn [map]. f_equal.
          - symmetry. apply HG. left. reflexivity.
          - apply IHa; [|injection HL; auto]. intros c Dc HI. apply HG. right. assumption. }
        apply G; [|assumption]. intros c Dc HI. rewrite (UL c Dc c HI (subs_self c)).
        apply (IH c (in_combine_l _ _ _ _ HI)); [apply HC; eapply in_combine_l; eassumption|apply (UC c Dc HI)].
      * apply in_concat in Hk. destruct Hk as [l [Hl Hk]]. apply in_map_iff in Hl. destruct Hl as [c [<- Hc]].
        destruct (CO c Hc) as [Dc HI]. destruct (IH c Hc Dc (HC c Hc) (proj1 (UC c Dc HI))) as (_ & SH & _).
        rewrite (UL c Dc _ HI Hk). rewrite (SH k chk Hk NEk). f_equal. apply map_ext_in. intros c' Hc'. symmetry. apply (UL c Dc c' HI).
        clear -Hk Hc'. revert Hk. induction c as [j chj IHj] using rtree_ind'. intros [E|Hk].
        -- injection E; intros <- <-. eapply subs_child; [exact Hc'|apply subs_self].
        -- rewrite Forall_forall in IHj. apply in_concat in Hk. destruct Hk as [l [Hl Hk]]. apply in_map_iff in Hl. destruct Hl as [c0 [<- Hc0]].
           eapply subs_child; [exact Hc0|]. apply IHj; assumption.
    + rewrite (node_gain i ch D HF), total_node. cbn [tindex]. rewrite (Qsum_perm _ _ UI). apply Qplus_inj_l.
      assert (E1 : tree_gain (map tail_deal D) == tree_gain (concat Ds)).
      { unfold tree_gain. apply Qsum_perm, Permutation_map. assumption. }
      rewrite E1. clear E1.
      assert (G : forall a b, (forall c Dc, In (c, Dc) (combine a b) -> tree_gain Dc == total (fun y => Qsum (used_in (tindex y) D)) c) -> length a = length b ->
        tree_gain (concat b) == Qsum (map (total (fun y => Qsum (used_in (tindex y) D))) a)).
      { induction a as [|x a IHa]; intros [|y b] HG HL; try discriminate; [reflexivity|]. cbn [map concat].
        unfold tree_gain in *. rewrite map_app, Qsum_app, Qsum_cons. rewrite (HG x y (or_introl eq_refl)). apply Qplus_inj_l.
        apply IHa; [|injection HL; auto]. intros c Dc HI. apply HG. right. assumption. }
      apply G; [|assumption]. intros c Dc HI. assert (Hc := in_combine_l _ _ _ _ HI).
      destruct (IH c Hc Dc (HC c Hc) (proj1 (UC c Dc HI))) as (_ & _ & TG). rewrite TG. unfold total.
      apply Qsum_map_ext_in. intros y Hy. symmetry. apply Qsum_perm. apply (UC c Dc HI).
      eapply subtree_nodes; [apply subs_subtree; exact Hy|apply tindex_node].
Qed.
