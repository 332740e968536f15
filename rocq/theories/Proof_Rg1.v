(** * Trees that differ by names, order of siblings and merging of leaves: nodes, choices, deals, paths (for C72) *)

From Coq Require Import String List Arith Lia QArith Lqa Permutation Sorted Bool.
From Verif Require Import Base Model_Agents Model_Market Model_RecipeTree Model_TreeAuction
  Spec_Market Spec_RecipeTree Spec_TreeAuction Spec_Regroup Proof_Tree Proof_TA2 Proof_TA6 Proof_TA7 Proof_TA8.
Import ListNotations.
Open Scope Q_scope.

Scheme rg_ind := Minimality for regrouped Sort Prop
  with rgl_ind := Minimality for regrouped_list Sort Prop.
Combined Scheme rg_mutind from rg_ind, rgl_ind.

Lemma perm_concat : forall A (l l' : list (list A)), Permutation l l' -> Permutation (concat l) (concat l').
Proof.
  intros A l l' H. induction H; cbn [concat]; auto.
  - apply Permutation_app_head. assumption.
  - rewrite !app_assoc. apply Permutation_app_tail. apply Permutation_app_comm.
  - eapply perm_trans; eassumption.
Qed.

Lemma perm_nsum : forall l l', Permutation l l' -> nsum l = nsum l'.
Proof. intros l l' H. induction H; unfold nsum in *; simpl in *; lia. Qed.

Lemma nsum_app' : forall l l', nsum (l ++ l') = (nsum l + nsum l')%nat.
Proof. unfold nsum. induction l as [|x l IH]; intros l'; simpl; [reflexivity|]. rewrite IH. lia. Qed.

Lemma leaf_nodes : forall J, concat (map node_indices (map (fun j => Node j []) J)) = J.
Proof. induction J as [|j J IH]; [reflexivity|]. cbn [map node_indices concat]. rewrite IH. reflexivity. Qed.

Lemma rg_nodes :
  (forall t t' G, regrouped t t' G ->
     Permutation (node_indices t) (concat (map fst G)) /\ Permutation (node_indices t') (map snd G))
  /\ (forall ch ch' G, regrouped_list ch ch' G ->
     Permutation (concat (map node_indices ch)) (concat (map fst G))
     /\ Permutation (concat (map node_indices ch')) (map snd G)).
Proof.
  apply rg_mutind.
  - intros i i' ch ch' G _ [A B]. cbn [node_indices map concat fst snd app]. split; constructor; assumption.
  - split; constructor.
  - intros c c' ch ch' G G' _ [A B] _ [A' B']. cbn [map concat]. rewrite !map_app, concat_app.
    split; apply Permutation_app; assumption.
  - intros J j' ch ch' G _ _ [A B]. rewrite map_app, concat_app, leaf_nodes. cbn [map concat fst snd node_indices app].
    split; [apply Permutation_app_head; assumption|constructor; assumption].
  - intros ch1 ch2 ch' G HP _ [A B]. split; [|assumption].
    eapply perm_trans; [|exact A]. apply perm_concat. apply Permutation_map. assumption.
Qed.

Lemma rg_root : forall t t' G, regrouped t t' G -> In ([tindex t], tindex t') G.
Proof. intros t t' G H. inversion H; subst. left. reflexivity. Qed.

Lemma rg_nonempty :
  (forall t t' G, regrouped t t' G -> forall J j', In (J, j') G -> J <> [])
  /\ (forall ch ch' G, regrouped_list ch ch' G -> forall J j', In (J, j') G -> J <> []).
Proof.
  apply rg_mutind.
  - intros i i' ch ch' G _ IH J j' [H|H]; [injection H; intros _ <-; discriminate|eauto].
  - intros J j' [].
  - intros c c' ch ch' G G' _ A _ B J j' H. apply in_app_iff in H. destruct H; eauto.
  - intros J j' ch ch' G HN _ IH K k' [H|H]; [injection H; intros _ <-; assumption|eauto].
  - intros ch1 ch2 ch' G _ _ IH. exact IH.
Qed.

Lemma rg_nil_iff : forall ch ch' G, regrouped_list ch ch' G -> ch = [] <-> ch' = [].
Proof.
  intros ch ch' G H. induction H as [|c c' ch ch' G G' _ _ _|J j' ch ch' G HN _ _|ch1 ch2 ch' G HP _ IH].
  - tauto.
  - split; discriminate.
  - split; [|discriminate]. destruct J; [contradiction|discriminate].
  - rewrite <- IH. split; intros ->; [apply Permutation_nil; assumption|apply Permutation_nil; symmetry; assumption].
Qed.

(** ** Sizes, choices and deals *)
Section Sizes.
  Variables cats cats' : list category.
  Definition size_match (G : list (list nat * nat)) : Prop :=
    forall J j', In (J, j') G -> csize (cat_at cats' j') = nsum (map (fun i => csize (cat_at cats i)) J).

  Lemma match_app : forall G G', size_match (G ++ G') -> size_match G /\ size_match G'.
  Proof. intros G G' H. split; intros J j' HI; apply H; apply in_app_iff; auto. Qed.

  Lemma match_cons : forall g G, size_match (g :: G) -> size_match [g] /\ size_match G.
  Proof. intros g G. apply (match_app [g] G). Qed.

  Lemma rg_child_sizes : forall ch ch' G, regrouped_list ch ch' G -> size_match G ->
    nsum (map (fun c => csize (cat_at cats' (tindex c))) ch') = nsum (map (fun c => csize (cat_at cats (tindex c))) ch).
  Proof.
    intros ch ch' G H. induction H as [|c c' ch ch' G G' H1 _ IH|J j' ch ch' G HN _ IH|ch1 ch2 ch' G HP _ IH]; intros HM.
    - reflexivity.
    - apply match_app in HM. destruct HM as [M1 M2]. specialize (IH M2).
      assert (X := M1 _ _ (rg_root _ _ _ H1)). unfold nsum in *. simpl in *. lia.
    - apply match_cons in HM. destruct HM as [M1 M2]. specialize (IH M2).
      assert (X := M1 _ _ (or_introl eq_refl)). rewrite map_app, nsum_app', map_map. cbn [map tindex].
      unfold nsum in *. simpl in *. lia.
    - rewrite IH by assumption. apply perm_nsum. apply Permutation_map. symmetry. assumption.
  Qed.

  Lemma largest_unfold : forall cs i ch, snd (largest_categories cs (Node i ch)) =
    if (nsum (map (fun c => csize (cat_at cs (tindex c))) ch) <? csize (cat_at cs i))%nat
       || (nsum (map (fun c => csize (cat_at cs (tindex c))) ch) =? 0)%nat
    then [i] else concat (map (fun c => snd (largest_categories cs c)) ch).
  Proof.
    intros. cbn [largest_categories]. destruct (_ || _); [reflexivity|]. cbn [snd]. rewrite map_map. reflexivity.
  Qed.

  Lemma largest_leaf : forall cs j, snd (largest_categories cs (Node j [])) = [j].
  Proof. intros. rewrite largest_unfold. cbn [map nsum fold_right]. rewrite orb_true_r. reflexivity. Qed.

  Lemma rg_chosen :
    (forall t t' G, regrouped t t' G -> size_match G ->
       exists H, incl H G /\ Permutation (snd (largest_categories cats t)) (concat (map fst H))
         /\ Permutation (snd (largest_categories cats' t')) (map snd H))
    /\ (forall ch ch' G, regrouped_list ch ch' G -> size_match G ->
       exists H, incl H G
         /\ Permutation (concat (map (fun c => snd (largest_categories cats c)) ch)) (concat (map fst H))
         /\ Permutation (concat (map (fun c => snd (largest_categories cats' c)) ch')) (map snd H)).
  Proof.
    apply rg_mutind.
    - intros i i' ch ch' G HL IH HM. apply match_cons in HM. destruct HM as [M1 M2].
      assert (E1 := M1 _ _ (or_introl eq_refl)). cbn [map nsum fold_right] in E1. unfold nsum in E1. simpl in E1. rewrite Nat.add_0_r in E1.
      assert (E2 := rg_child_sizes _ _ _ HL M2). rewrite !largest_unfold, E2, E1.
      destruct (_ || _).
      + exists [([i], i')]. split; [intros x [<-|[]]; left; reflexivity|]. split; reflexivity.
      + destruct (IH M2) as (H & A & B & C). exists H. split; [intros x Hx; right; apply A; assumption|auto].
    - intros _. exists []. split; [intros x []|]. split; reflexivity.
    - intros c c' ch ch' G G' _ IH1 _ IH2 HM. apply match_app in HM. destruct HM as [M1 M2].
      destruct (IH1 M1) as (H & A & B & C). destruct (IH2 M2) as (H' & A' & B' & C').
      exists (H ++ H'). split; [intros x Hx; apply in_app_iff in Hx; apply in_app_iff; destruct Hx; auto|].
      cbn [map concat]. rewrite !map_app, concat_app. split; apply Permutation_app; assumption.
    - intros J j' ch ch' G HN _ IH HM. apply match_cons in HM. destruct HM as [M1 M2].
      destruct (IH M2) as (H & A & B & C). exists ((J, j') :: H).
      split; [intros x [<-|Hx]; [left; reflexivity|right; apply A; assumption]|].
      rewrite map_app, concat_app. cbn [map concat fst snd]. rewrite largest_leaf. cbn [app].
      replace (concat (map (fun c => snd (largest_categories cats c)) (map (fun j => Node j []) J))) with J.
      + split; [apply Permutation_app_head; assumption|constructor; assumption].
      + clear. induction J as [|j J IH]; [reflexivity|]. cbn [map concat]. rewrite largest_leaf, <- IH. reflexivity.
    - intros ch1 ch2 ch' G HP _ IH HM. destruct (IH HM) as (H & A & B & C). exists H. split; [assumption|]. split; [|assumption].
      eapply perm_trans; [|exact B]. apply perm_concat. apply Permutation_map. assumption.
  Qed.

  Lemma rg_deals :
    (forall t t' G, regrouped t t' G -> size_match G -> tree_num_of_deals cats' t' = tree_num_of_deals cats t)
    /\ (forall ch ch' G, regrouped_list ch ch' G -> size_match G ->
       nsum (map (tree_num_of_deals cats') ch') = nsum (map (tree_num_of_deals cats) ch)).
  Proof.
    apply rg_mutind.
    - intros i i' ch ch' G HL IH HM. apply match_cons in HM. destruct HM as [M1 M2]. specialize (IH M2).
      assert (E1 := M1 _ _ (or_introl eq_refl)). unfold nsum in E1. simpl in E1. rewrite Nat.add_0_r in E1.
      assert (NI := rg_nil_iff _ _ _ HL).
      destruct ch as [|c ch], ch' as [|c' ch']; [cbn [tree_num_of_deals]; assumption| | |].
      + exfalso. assert (X := proj1 NI eq_refl). discriminate.
      + exfalso. assert (X := proj2 NI eq_refl). discriminate.
      + cbn [tree_num_of_deals]. rewrite IH, E1. reflexivity.
    - reflexivity.
    - intros c c' ch ch' G G' _ IH1 _ IH2 HM. apply match_app in HM. destruct HM as [M1 M2].
      specialize (IH1 M1). specialize (IH2 M2). unfold nsum in *. simpl. lia.
    - intros J j' ch ch' G HN _ IH HM. apply match_cons in HM. destruct HM as [M1 M2]. specialize (IH M2).
      assert (E1 := M1 _ _ (or_introl eq_refl)). rewrite map_app, nsum_app', map_map. cbn [map tree_num_of_deals].
      unfold nsum in *. simpl. lia.
    - intros ch1 ch2 ch' G HP _ IH HM. rewrite (IH HM). apply perm_nsum. apply Permutation_map. symmetry. assumption.
  Qed.
End Sizes.

(** ** Paths *)

Definition pair_in (G : list (list nat * nat)) (i i' : nat) : Prop := exists J, In (J, i') G /\ In i J.

Lemma rg_path :
  (forall t t' G, regrouped t t' G -> exists p p', is_path t p /\ is_path t' p' /\ Forall2 (pair_in G) p p')
  /\ (forall ch ch' G, regrouped_list ch ch' G -> ch <> [] -> exists c c' p p', In c ch /\ In c' ch'
        /\ is_path c p /\ is_path c' p' /\ Forall2 (pair_in G) p p').
Proof.
  apply rg_mutind.
  - intros i i' ch ch' G HL IH. assert (NI := rg_nil_iff _ _ _ HL).
    assert (H0 : pair_in (([i], i') :: G) i i') by (exists [i]; split; left; reflexivity).
    destruct ch as [|c ch].
    + rewrite (proj1 NI eq_refl). exists [i], [i']. split; [constructor|]. split; [constructor|]. repeat constructor. assumption.
    + destruct IH as (d & d' & p & p' & Hd & Hd' & Hp & Hp' & F); [discriminate|].
      exists (i :: p), (i' :: p'). split; [econstructor; eassumption|]. split; [econstructor; eassumption|].
      constructor; [assumption|]. clear -F. induction F as [|x y l l' [J [A B]] _ IHF]; constructor; [|assumption].
      exists J. split; [right; assumption|assumption].
  - intros X; contradiction.
  - intros c c' ch ch' G G' _ (p & p' & Hp & Hp' & F) _ _ _. exists c, c', p, p'.
    split; [left; reflexivity|]. split; [left; reflexivity|]. split; [assumption|]. split; [assumption|].
    clear -F. induction F as [|x y l l' [J [A B]] _ IHF]; constructor; [|assumption].
    exists J. split; [apply in_app_iff; left; assumption|assumption].
  - intros [|j J] j' ch ch' G HN _ _ _; [contradiction|]. exists (Node j []), (Node j' []), [j], [j'].
    split; [left; reflexivity|]. split; [left; reflexivity|]. split; [constructor|]. split; [constructor|].
    constructor; [|constructor]. exists (j :: J). split; left; reflexivity.
  - intros ch1 ch2 ch' G HP _ IH HN. destruct IH as (c & c' & p & p' & Hc & Hc' & R).
    + intros ->. apply HN. apply Permutation_nil. symmetry. assumption.
    + exists c, c', p, p'. split; [eapply Permutation_in; [symmetry; exact HP|assumption]|]. split; assumption.
Qed.

(** ** Groups are disjoint *)

Lemma group_unique : forall G, NoDup (concat (map fst G)) -> forall (i : nat) J (j' : nat) K k', In (J, j') G -> In (K, k') G ->
  In i J -> In i K -> (J, j') = (K, k').
Proof.
  induction G as [|[A a] G IH]; [intros _ i J j' K k' []|]. cbn [map concat fst]. intros ND i J j' K k' H1 H2 I1 I2.
  assert (D : forall x, In x A -> ~ In x (concat (map fst G))).
  { intros x Hx HC. clear -ND Hx HC. induction A as [|y A IHA]; [destruct Hx|]. cbn [app] in ND. inversion ND; subst.
    destruct Hx as [<-|Hx]; [apply H1; apply in_app_iff; right; assumption|auto]. }
  assert (ND' : NoDup (concat (map fst G))) by (clear -ND; induction A as [|y A IHA]; [assumption|inversion ND; auto]).
  assert (W : forall B b, In (B, b) G -> In i B -> In i (concat (map fst G))).
  { intros B b HB HI. apply in_concat. exists B. split; [|assumption]. apply in_map_iff. exists (B, b). auto. }
  destruct H1 as [H1|H1], H2 as [H2|H2].
  - congruence.
  - injection H1; intros -> ->. exfalso. eapply D; [exact I1|]. eapply W; eassumption.
  - injection H2; intros -> ->. exfalso. eapply D; [exact I2|]. eapply W; eassumption.
  - eapply IH; eassumption.
Qed.

Lemma target_unique : forall (G : list (list nat * nat)), NoDup (map snd G) -> forall J K j', In (J, j') G -> In (K, j') G -> J = K.
Proof.
  induction G as [|[A a] G IH]; [intros _ J K j' []|]. cbn [map snd]. intros ND J K j' H1 H2. inversion ND as [|? ? N ND']; subst.
  assert (W : forall B, In (B, j') G -> In j' (map snd G)) by (intros B HB; apply in_map_iff; exists (B, j'); auto).
  destruct H1 as [H1|H1], H2 as [H2|H2].
  - congruence.
  - injection H1; intros -> ->. exfalso. eauto.
  - injection H2; intros -> ->. exfalso. eauto.
  - eauto.
Qed.
