(** * Renumbering the categories of a tree and shuffling the children (C110) *)

From Coq Require Import String List Arith Lia QArith Lqa Permutation Sorted Bool.
From Verif Require Import Base Model_Agents Model_Trade Model_Prices Model_Market Model_RecipeTree Model_TreeAuction
  Spec_Market Spec_RecipeTree Spec_TreeAuction Spec_Reorder Spec_Renumber Proof_Market Proof_Tree Proof_Tree2 Proof_Tree3 Proof_TA1 Proof_TA2 Proof_TA3
  Proof_Units Proof_Reorder Proof_Reorder2.
Import ListNotations.
Open Scope Q_scope.

Notation dcat := (mkCat "" []).
Definition old (o : list nat) (i : nat) : nat := nth i o 0%nat.

Lemma nsum_perm : forall l l', Permutation l l' -> nsum l = nsum l'.
Proof. induction 1; simpl; lia. Qed.

Lemma max_list_perm : forall l l', Permutation l l' -> max_list l = max_list l'.
Proof.
  induction 1; simpl; [reflexivity|rewrite IHPermutation; reflexivity| |congruence].
  destruct (max_list l); f_equal; lia.
Qed.

Lemma min_list_perm : forall l l', Permutation l l' -> min_list l = min_list l'.
Proof.
  induction 1; simpl; [reflexivity|rewrite IHPermutation; reflexivity| |congruence].
  destruct (min_list l); f_equal; lia.
Qed.

Lemma Forall2_turn : forall A B (R : A -> B -> Prop) l l', Forall2 R l l' -> Forall2 (fun b a => R a b) l' l.
Proof. induction 1; constructor; assumption. Qed.

Lemma concat_perm : forall A (U V : list (list A)), Permutation U V -> Permutation (concat U) (concat V).
Proof.
  induction 1; simpl; [constructor|apply Permutation_app_head; assumption| |eapply perm_trans; eassumption].
  rewrite !app_assoc. apply Permutation_app_tail. apply Permutation_app_comm.
Qed.

Section Renumber.
  Variable o : list nat.
  Variable n : nat.
  Hypothesis Ho : is_order n o.

  Lemma o_len : length o = n.
  Proof. apply order_length. exact Ho. Qed.

  Lemma o_inj : forall i j, (i < n)%nat -> (j < n)%nat -> old o i = old o j -> i = j.
  Proof.
    intros i j Hi Hj E. assert (ND : NoDup o) by (eapply Permutation_NoDup; [symmetry; exact Ho|apply seq_NoDup]).
    apply (proj1 (NoDup_nth o 0%nat) ND); rewrite ?o_len; assumption.
  Qed.

  Lemma children_ind : forall (P : rtree -> rtree -> Prop),
    (forall i ch sh ch', (i < n)%nat -> Permutation ch sh -> Forall2 (renumbered o) sh ch' ->
       Forall2 P sh ch' -> P (Node (old o i) ch) (Node i ch')) ->
    forall t t', renumbered o t t' -> P t t'.
  Proof.
    intros P HP t. induction t as [j ch IH] using rtree_ind'. intros t' H. inversion H as [i ch0 sh ch' Hi Hp HF]; subst.
    apply (HP i ch sh ch'); [rewrite <- o_len; assumption|assumption|assumption|].
    assert (Hs : forall c, In c sh -> forall c', renumbered o c c' -> P c c').
    { rewrite Forall_forall in IH. intros c Hc. apply IH. eapply Permutation_in; [symmetry; exact Hp|exact Hc]. }
    clear -Hs HF. induction HF as [|c c' l l' Hc HF IH]; constructor.
    - apply Hs; [left; reflexivity|exact Hc].
    - apply IH. intros. apply Hs; [right; assumption|assumption].
  Qed.

  Lemma renumbered_root : forall t t', renumbered o t t' -> tindex t = old o (tindex t') /\ (tindex t' < n)%nat.
  Proof. intros t t' H. inversion H; subst. simpl. rewrite <- o_len. auto. Qed.

  Lemma renumbered_leaf : forall t t', renumbered o t t' -> (tchildren t = [] <-> tchildren t' = []).
  Proof.
    intros t t' H. inversion H as [i ch sh ch' Hi Hp HF]; subst. simpl. split; intros ->.
    - apply Permutation_nil in Hp. subst. inversion HF. reflexivity.
    - inversion HF; subst. symmetry in Hp. apply Permutation_nil in Hp. assumption.
  Qed.

  Lemma renumbered_indices : forall t t', renumbered o t t' -> Permutation (map (old o) (node_indices t')) (node_indices t).
  Proof.
    apply children_ind. intros i ch sh ch' Hi Hp _ HF. cbn [node_indices map]. apply perm_skip.
    rewrite concat_map. symmetry. eapply perm_trans; [apply concat_perm; apply Permutation_map; exact Hp|].
    clear -HF. induction HF as [|c c' l l' Hc _ IH]; simpl; [constructor|]. apply Permutation_app; [symmetry; exact Hc|exact IH].
  Qed.

  Lemma renumbered_range : forall t t', renumbered o t t' -> indices_in_range n t'.
  Proof.
    apply children_ind. intros i ch sh ch' Hi _ _ HF. unfold indices_in_range. cbn [node_indices]. constructor; [assumption|].
    induction HF as [|c c' l l' Hc _ IH]; simpl; [constructor|]. apply Forall_app. split; assumption.
  Qed.

  Lemma renumbered_distinct : forall t t', renumbered o t t' -> distinct_categories t -> distinct_categories t'.
  Proof.
    intros t t' H HD. unfold distinct_categories in *. apply (NoDup_map_inv (old o)).
    eapply Permutation_NoDup; [symmetry; apply renumbered_indices; exact H|exact HD].
  Qed.

  Lemma renumbered_path : forall t t', renumbered o t t' -> forall p', is_path t' p' -> is_path t (map (old o) p').
  Proof.
    apply (children_ind (fun t t' => forall p', is_path t' p' -> is_path t (map (old o) p'))).
    intros i ch sh ch' Hi Hp _ HF p' Hpath. inversion Hpath as [j|j ch0 c' q Hc Hq]; subst.
    - inversion HF; subst. symmetry in Hp. apply Permutation_nil in Hp. subst. constructor.
    - cbn [map]. apply Forall2_turn in HF. destruct (Forall2_In_ex _ _ _ _ _ _ HF Hc) as [c [Hin Hc2]].
      econstructor; [|apply Hc2; exact Hq]. eapply Permutation_in; [symmetry; exact Hp|exact Hin].
  Qed.

  Section Cats.
    Variables cats cats' : list category.
    Hypothesis Hcats : forall i, (i < n)%nat -> cat_at cats' i = cat_at cats (old o i).

    Lemma ren_largest : forall t t', renumbered o t t' ->
      Permutation (map (old o) (snd (largest_categories cats' t'))) (snd (largest_categories cats t)).
    Proof.
      apply children_ind. intros i ch sh ch' Hi Hp HR HF. cbn [largest_categories].
      rewrite Hcats by assumption.
      assert (ES : nsum (map (fun c => csize (cat_at cats' (tindex c))) ch') = nsum (map (fun c => csize (cat_at cats (tindex c))) ch)).
      { rewrite (nsum_perm _ _ (Permutation_map (fun c => csize (cat_at cats (tindex c))) Hp)).
        clear -HR Hcats Ho. induction HR as [|c c' l l' Hc _ IH]; [reflexivity|]. cbn [map nsum fold_right]. unfold nsum in *. cbn [fold_right].
        rewrite IH. destruct (renumbered_root _ _ Hc) as [-> L]. rewrite Hcats by assumption. reflexivity. }
      rewrite ES. destruct (_ || _)%bool; [cbn [snd map]; apply Permutation_refl|]. cbn [snd].
      rewrite !map_map, concat_map, map_map. symmetry.
      eapply perm_trans; [apply concat_perm; apply Permutation_map; exact Hp|].
      clear -HF. induction HF as [|c c' l l' Hc _ IH]; simpl; [constructor|]. apply Permutation_app; [symmetry; exact Hc|exact IH].
    Qed.

    Lemma sort_desc_alike : forall l l', (exists k, Permutation l k /\ Forall2 Qeq k l') -> Forall2 Qeq (sort_desc l) (sort_desc l').
    Proof.
      intros l l' (k & Hp & HF).
      assert (A : Forall2 Qeq (sort_desc l) (sort_desc k)).
      { apply desc_perm_eq; try apply sort_desc_desc. rewrite sort_desc_perm, sort_desc_perm. exact Hp. }
      assert (B : Forall2 Qeq (sort_desc k) (sort_desc l')).
      { apply F2_isort; [exact HF|]. intros x x' y y' Hx Hy. apply eq_true_iff_eq. rewrite !Qle_bool_iff. rewrite Hx, Hy. tauto. }
      clear -A B. revert B. generalize (sort_desc l'). induction A; intros u B; inversion B; subst; constructor.
      - rewrite H. assumption.
      - apply IHA. assumption.
    Qed.

    Lemma zip_add_eq : forall x x' y y', Forall2 Qeq x x' -> Forall2 Qeq y y' -> Forall2 Qeq (zip_add x y) (zip_add x' y').
    Proof.
      intros x x' y y' H. revert y y'. induction H as [|a a' x x' Ha _ IH]; intros y y' Hy; [constructor|].
      destruct Hy as [|b b' y y' Hb Hy]; [constructor|]. cbn [zip_add]. constructor; [rewrite Ha, Hb; reflexivity|apply IH; exact Hy].
    Qed.

    Lemma qeq_refl : forall l, Forall2 Qeq l l.
    Proof. induction l; constructor; [reflexivity|assumption]. Qed.

    Lemma ren_combined : forall t t', renumbered o t t' -> Forall2 Qeq (combined_values cats t) (combined_values cats' t').
    Proof.
      apply children_ind. intros i ch sh ch' Hi Hp HR HF. destruct ch as [|c0 ch0] eqn:E.
      - apply Permutation_nil in Hp. subst. inversion HF; subst. cbn [combined_values]. rewrite Hcats by assumption. apply qeq_refl.
      - rewrite <- E in *. assert (NE : ch <> []) by (rewrite E; discriminate).
        assert (NE' : ch' <> []).
        { intros ->. inversion HF; subst. symmetry in Hp. apply Permutation_nil in Hp. discriminate. }
        rewrite !combined_node by assumption. rewrite Hcats by assumption. apply zip_add_eq; [apply qeq_refl|].
        apply sort_desc_alike. exists (concat (map (combined_values cats) sh)). split.
        + apply concat_perm. apply Permutation_map. exact Hp.
        + clear -HF. induction HF as [|c c' l l' Hc _ IH]; simpl; [constructor|]. apply Forall2_app; assumption.
    Qed.

    Lemma ren_gft : forall t t', renumbered o t t' -> optimal_trade_GFT cats t == optimal_trade_GFT cats' t'.
    Proof.
      intros t t' H. assert (X := ren_combined _ _ H). unfold optimal_trade_GFT. induction X as [|a b l l' Hab _ IH]; [reflexivity|].
      cbn [filter]. assert (E : Qle_bool 0 a = Qle_bool 0 b) by (apply eq_true_iff_eq; rewrite !Qle_bool_iff, Hab; tauto).
      rewrite E. destruct (Qle_bool 0 b); [rewrite !Qsum_cons, Hab, IH; reflexivity|exact IH].
    Qed.

    Lemma map_result_perm : forall A B (f : A -> result B) (g : A -> B) l, (forall a, In a l -> f a = Ok (g a)) -> map_result f l = Ok (map g l).
    Proof. intros. apply map_result_ok_all. assumption. Qed.

    Lemma explained_children : forall prices i ch, ch <> [] -> deals_explained cats prices (Node i ch) =
      (_ <- get prices i ;; rs <- map_result (deals_explained cats prices) ch ;;
       match min_list (map (fun r => snd (fst r)) rs), max_list (map snd rs) with
       | Some kmin, Some kmax => Ok (Nat.min (nsum (map (fun r => fst (fst r)) rs)) (csize (cat_at cats i)), kmin, kmax)
       | _, _ => Raise ValueError
       end).
    Proof.
      intros prices i ch NE. destruct ch as [|c ch]; [congruence|]. reflexivity.
    Qed.
  End Cats.

  Lemma ren_explained : forall cats cats' prices prices',
    (forall i, (i < n)%nat -> cat_at cats' i = cat_at cats (old o i)) -> length prices = n -> length prices' = n ->
    forall t t', renumbered o t t' -> indices_in_range n t -> deals_explained cats' prices' t' = deals_explained cats prices t.
  Proof.
    intros cats cats' prices prices' Hcats L L'.
    apply (children_ind (fun t t' => indices_in_range n t -> deals_explained cats' prices' t' = deals_explained cats prices t)).
    intros i ch sh ch' Hi Hp HR HF RG.
    assert (Hoi : (old o i < n)%nat) by (apply order_lt; assumption).
    destruct ch as [|c0 ch0] eqn:E.
    - apply Permutation_nil in Hp. subst. inversion HF; subst. cbn [deals_explained].
      rewrite (get_lt _ _ _ 0) by lia. rewrite (get_lt _ _ _ 0) by lia. cbn [bind]. rewrite Hcats by assumption. reflexivity.
    - rewrite <- E in *. assert (NE : ch <> []) by (rewrite E; discriminate).
      assert (NE' : ch' <> []).
      { intros ->. inversion HF; subst. symmetry in Hp. apply Permutation_nil in Hp. discriminate. }
      rewrite !explained_children by assumption.
      rewrite (get_lt _ _ _ 0) by lia. rewrite (get_lt _ _ _ 0) by lia. cbn [bind]. rewrite Hcats by assumption.
      assert (RC : forall c, In c ch -> indices_in_range n c).
      { intros c Hc. unfold indices_in_range in *. rewrite Forall_forall in *. intros x Hx. apply RG. cbn [node_indices]. right.
        apply in_concat. exists (node_indices c). split; [apply in_map; exact Hc|exact Hx]. }
      set (g := fun c => match deals_explained cats prices c with Ok r => r | _ => (0%nat, 0%nat, 0%nat) end).
      assert (G : forall c, In c ch -> deals_explained cats prices c = Ok (g c)).
      { intros c Hc. unfold g. destruct (deals_explained_ok cats prices c) as (k1 & k2 & Y & _); [rewrite L; apply RC; exact Hc|].
        rewrite Y. reflexivity. }
      assert (G1 := map_result_ok_all _ _ (deals_explained cats prices) g ch G).
      assert (G' : map_result (deals_explained cats' prices') ch' = Ok (map g sh)).
      { assert (Gs : forall c, In c sh -> indices_in_range n c /\ deals_explained cats prices c = Ok (g c)).
        { intros c Hc. assert (In c ch) by (eapply Permutation_in; [symmetry; exact Hp|exact Hc]). auto. }
        clear -HF Gs. induction HF as [|c c' l l' Hc _ IH]; [reflexivity|]. cbn [map_result map].
        destruct (Gs c (or_introl eq_refl)) as [R1 R2]. rewrite Hc by exact R1. rewrite R2. cbn [bind]. rewrite IH; [reflexivity|].
        intros x Hx. apply Gs. right. exact Hx. }
      rewrite G', G1. cbn [bind]. rewrite !map_map.
      rewrite (min_list_perm _ _ (Permutation_map (fun x => snd (fst (g x))) Hp)).
      rewrite (max_list_perm _ _ (Permutation_map (fun x => snd (g x)) Hp)).
      rewrite (nsum_perm _ _ (Permutation_map (fun x => fst (fst (g x))) Hp)). reflexivity.
  Qed.

  (** ** Sums of the prices *)
  Lemma dot_seq : forall p r, length p = length r ->
    dot p r == Qsum (map (fun i => nth i p 0 * Qn (nth i r 0%nat)) (seq 0 (length p))).
  Proof.
    induction p as [|x p IH]; intros [|k r] H; simpl in H; try discriminate; [reflexivity|].
    cbn [length seq map dot]. rewrite Qsum_cons. cbn [nth]. rewrite IH by lia. rewrite <- seq_shift, map_map. reflexivity.
  Qed.

  Lemma dot_renumber : forall p p' r r', length p = n -> length p' = n -> length r = n -> length r' = n ->
    (forall i, (i < n)%nat -> nth i p' 0 == nth (old o i) p 0) -> (forall i, (i < n)%nat -> nth i r' 0%nat = nth (old o i) r 0%nat) ->
    dot p' r' == dot p r.
  Proof.
    intros p p' r r' L1 L2 L3 L4 HP HR. rewrite !dot_seq by lia. rewrite L1, L2.
    set (f := fun i => nth i p 0 * Qn (nth i r 0%nat)).
    assert (E : Qsum (map f (seq 0 n)) == Qsum (map f (map (old o) (seq 0 n)))).
    { apply Qsum_perm. apply Permutation_map. symmetry.
      assert (X : map (old o) (seq 0 n) = o).
      { unfold old. rewrite <- o_len at 1. symmetry. rewrite <- (map_id o) at 1. rewrite (map_seq_nth nat nat 0%nat (fun x => x) o) at 1.
        reflexivity. }
      rewrite X. exact Ho. }
    rewrite E, map_map. apply Qsum_map_ext. intros i Hi. apply in_seq in Hi. unfold f. rewrite HP, HR by lia. reflexivity.
  Qed.

  Lemma sums_renumber : forall t t' rs rs' p p' S, renumbered o t t' -> setup n t rs -> setup n t' rs' -> length p = n -> length p' = n ->
    (forall i, (i < n)%nat -> nth i p' 0 == nth (old o i) p 0) -> equal_sums rs p S -> equal_sums rs' p' S.
  Proof.
    intros t t' rs rs' p p' S HT SU SU' L L' HP HS r' Hr'.
    assert (SB := setup_binary _ _ _ SU). assert (SB' := setup_binary _ _ _ SU'). rewrite Forall_forall in SB, SB'.
    assert (X := su_recipes _ _ _ SU'). apply Forall2_turn in X. destruct (Forall2_In_ex _ _ _ _ _ _ X Hr') as [q' [Hq' [_ HI']]].
    apply root_leaf_paths_In in Hq'. assert (Hq := renumbered_path _ _ HT _ Hq'). apply root_leaf_paths_In in Hq.
    destruct (Forall2_In_ex _ _ _ _ _ _ (su_recipes _ _ _ SU) Hq) as [r [Hr [_ HI]]].
    rewrite <- (HS r Hr). apply dot_renumber; try assumption.
    - apply (SB r Hr).
    - apply (SB' r' Hr').
    - intros i Hi. assert (Hoi : (old o i < n)%nat) by (apply order_lt; assumption).
      destruct (HI' i Hi) as [A' B']. destruct (HI (old o i) Hoi) as [A B].
      destruct (in_dec Nat.eq_dec i q') as [Y|Y].
      + rewrite (nth_error_nth _ _ _ (A' Y)). symmetry. apply nth_error_nth. apply A. apply in_map. exact Y.
      + rewrite (nth_error_nth _ _ _ (B' Y)). symmetry. apply nth_error_nth. apply B. intros Z. apply Y.
        apply in_map_iff in Z. destruct Z as [j [Ej Hj]]. assert (Hjn : (j < n)%nat).
        { assert (RG := renumbered_range _ _ HT). unfold indices_in_range in RG. rewrite Forall_forall in RG. apply RG.
          eapply is_path_indices; [exact Hq'|exact Hj]. }
        apply o_inj in Ej; [subst; exact Hj|assumption|assumption].
  Qed.

  (** ** The loop *)
  Record paired (s s' : tree_state) : Prop := mkPaired {
    pa_cats : forall i, (i < n)%nat -> cat_at (cats_of s') i = cat_at (cats_of s) (old o i);
    pa_prices : forall i, (i < n)%nat -> pr s' i == pr s (old o i)
  }.

  Lemma beat_proper : forall c p q, p == q -> beat c p = beat c q.
  Proof.
    intros c p q H. unfold beat, beaten. destruct (cvalues c); [reflexivity|].
    assert (E : Qle_bool (last (q0 :: l) 0) p = Qle_bool (last (q0 :: l) 0) q) by (apply eq_true_iff_eq; rewrite !Qle_bool_iff, H; tauto).
    rewrite E. reflexivity.
  Qed.

  Lemma chosen_paired : forall t t' s s', renumbered o t t' -> paired s s' ->
    Permutation (map (old o) (chosen t' s')) (chosen t s) /\ (forall i, In i (chosen t' s') -> (i < n)%nat)
    /\ (forall i, (i < n)%nat -> (In i (chosen t' s') <-> In (old o i) (chosen t s))).
  Proof.
    intros t t' s s' HT [HC HP]. assert (X := ren_largest _ _ HC _ _ HT). fold (chosen t' s') in X. fold (chosen t s) in X.
    assert (RG := renumbered_range _ _ HT). unfold indices_in_range in RG. rewrite Forall_forall in RG.
    assert (R : forall i, In i (chosen t' s') -> (i < n)%nat) by (intros i Hi; apply RG; eapply chosen_incl; exact Hi).
    split; [exact X|]. split; [exact R|]. intros i Hi. split; intros H.
    - eapply Permutation_in; [exact X|]. apply in_map. exact H.
    - eapply Permutation_in in H; [|symmetry; exact X]. apply in_map_iff in H. destruct H as [j [Ej Hj]].
      apply o_inj in Ej; [subst; exact Hj|apply R; exact Hj|exact Hi].
  Qed.

  Lemma round_paired : forall M t t' rs rs' s s' S S' b b' u u', renumbered o t t' -> setup n t rs -> setup n t' rs' ->
    good n rs s S -> good n rs' s' S' -> S == S' -> paired s s' ->
    tree_round M t s = Ok (b, u) -> tree_round M t' s' = Ok (b', u') ->
    b' = b /\ paired u u' /\ exists T T', good n rs u T /\ good n rs' u' T' /\ T == T'.
  Proof.
    intros M t t' rs rs' s s' S S' b b' u u' HT SU SU' G G' HS PA H H'.
    destruct (renumbered_root _ _ HT) as [RT RI].
    assert (Sz : sz s' (tindex t') = sz s (tindex t)).
    { unfold sz. rewrite (pa_cats _ _ PA) by assumption. rewrite RT. reflexivity. }
    destruct (chosen_paired _ _ _ _ HT PA) as (CP & CR & CI).
    destruct (round_inv _ _ _ _ _ _ _ _ SU G H) as [(-> & -> & Z)|(d & MV & GD & E)];
    destruct (round_inv _ _ _ _ _ _ _ _ SU' G' H') as [(-> & -> & Z')|(d' & MV' & GD' & E')].
    - split; [reflexivity|]. split; [exact PA|]. exists S, S'. auto.
    - exfalso. assert (X := mv_root _ _ _ _ _ _ MV'). lia.
    - exfalso. assert (X := mv_root _ _ _ _ _ _ MV). lia.
    - assert (TG : forall i, (i < n)%nat -> tgt M (cat_at (cats_of s') i) - pr s' i == tgt M (cat_at (cats_of s) (old o i)) - pr s (old o i)).
      { intros i Hi. rewrite (pa_cats _ _ PA) by assumption. rewrite (pa_prices _ _ PA) by assumption. reflexivity. }
      assert (D1 : d <= d').
      { destruct (mv_min _ _ _ _ _ _ MV') as [X|(i & Hi & X)].
        - assert (Y := mv_bound _ _ _ _ _ _ MV). lra.
        - rewrite X, TG by (apply CR; exact Hi). apply (mv_target _ _ _ _ _ _ MV). apply CI; [apply CR|]; exact Hi. }
      assert (D2 : d' <= d).
      { destruct (mv_min _ _ _ _ _ _ MV) as [X|(j & Hj & X)].
        - assert (Y := mv_bound _ _ _ _ _ _ MV'). lra.
        - eapply Permutation_in in Hj; [|symmetry; exact CP]. apply in_map_iff in Hj. destruct Hj as [i [<- Hi]].
          rewrite X, <- TG by (apply CR; exact Hi). apply (mv_target _ _ _ _ _ _ MV'). exact Hi. }
      assert (D : d == d') by lra.
      assert (PR : forall i, (i < n)%nat -> pr u' i == pr u (old o i)).
      { intros i Hi. destruct (in_dec Nat.eq_dec i (chosen t' s')) as [Y|Y].
        - rewrite (mv_chosen _ _ _ _ _ _ MV') by exact Y. rewrite (mv_chosen _ _ _ _ _ _ MV) by (apply CI; assumption).
          rewrite (pa_prices _ _ PA) by assumption. rewrite D. reflexivity.
        - rewrite (mv_other _ _ _ _ _ _ MV') by exact Y. rewrite (mv_other _ _ _ _ _ _ MV) by (intros Z; apply Y; apply CI; assumption).
          apply (pa_prices _ _ PA). assumption. }
      destruct E as [(-> & Ed & EC)|(-> & Ed & EC)]; destruct E' as [(-> & Ed' & EC')|(-> & Ed' & EC')]; try (exfalso; lra).
      + split; [reflexivity|]. split; [|exists (S + d), (S' + d'); split; [exact GD|]; split; [exact GD'|lra]].
        split; [|exact PR]. intros i Hi. rewrite EC, EC'. apply (pa_cats _ _ PA). assumption.
      + split; [reflexivity|]. split; [|exists (S + d), (S' + d'); split; [exact GD|]; split; [exact GD'|lra]].
        split; [|exact PR]. intros i Hi. rewrite EC, EC', (pa_cats _ _ PA) by assumption. apply beat_proper. apply PR. assumption.
  Qed.

  Lemma loop_paired : forall M t t' rs rs' fuel s s' S S' u u', renumbered o t t' -> setup n t rs -> setup n t' rs' ->
    good n rs s S -> good n rs' s' S' -> S == S' -> paired s s' ->
    tree_loop M fuel t s = Ok u -> tree_loop M fuel t' s' = Ok u' ->
    paired u u' /\ exists T T', good n rs u T /\ good n rs' u' T'.
  Proof.
    intros M t t' rs rs'. induction fuel as [|fuel IH]; intros s s' S S' u u' HT SU SU' G G' HS PA H H'; [discriminate|].
    cbn [tree_loop] in H, H'. apply bind_Ok in H. destruct H as [[b v] [Hr H]]. apply bind_Ok in H'. destruct H' as [[b' v'] [Hr' H']].
    cbn [fst snd] in *. destruct (round_paired _ _ _ _ _ _ _ _ _ _ _ _ _ HT SU SU' G G' HS PA Hr Hr') as (-> & PV & T & T' & GT & GT' & ET).
    destruct b.
    - injection H; intros <-. injection H'; intros <-. split; [exact PV|]. eauto.
    - eapply IH; [exact HT|exact SU|exact SU'|exact GT|exact GT'|exact ET|exact PV|exact H|exact H'].
  Qed.

  (** With distinct categories the second loop runs as long as the first. *)
  Lemma loop_paired_total : forall M t t' rs rs' fuel s s' S S' u, renumbered o t t' -> setup n t rs -> setup n t' rs' ->
    distinct_categories t -> good n rs s S -> good n rs' s' S' -> S == S' -> paired s s' ->
    tree_loop M fuel t s = Ok u -> exists u', tree_loop M fuel t' s' = Ok u'.
  Proof.
    intros M t t' rs rs'. induction fuel as [|fuel IH]; intros s s' S S' u HT SU SU' HD G G' HS PA H; [discriminate|].
    cbn [tree_loop] in *. apply bind_Ok in H. destruct H as [[b v] [Hr H]].
    destruct (round_total M n t' rs' s' S' SU') as (b' & v' & Hr'); [eapply renumbered_distinct; eassumption|exact G'|].
    rewrite Hr'. cbn [bind fst snd] in *. destruct (round_paired _ _ _ _ _ _ _ _ _ _ _ _ _ HT SU SU' G G' HS PA Hr Hr') as (-> & PV & T & T' & GT & GT' & ET).
    destruct b; [eauto|]. eapply IH; [exact HT|exact SU|exact SU'|exact HD|exact GT|exact GT'|exact ET|exact PV|exact H].
  Qed.

  Lemma cats_from_paired : forall cats cats', length cats = n -> length cats' = n ->
    (forall i, (i < n)%nat -> cat_at cats' i = cat_at cats (old o i)) -> cats' = reorder no_category o cats.
  Proof.
    intros cats cats' L L' H. apply (nth_ext _ _ no_category no_category).
    - rewrite reorder_length, o_len. exact L'.
    - intros i Hi. rewrite reorder_nth by (rewrite o_len; lia). apply H. lia.
  Qed.
End Renumber.

Theorem tree_renumber : forall M p0 p0' fuel m o st st' r r' rs, is_order (length m) o ->
  tree_auction M p0 fuel m st = Ok r -> tree_auction M p0' fuel (reorder no_category o m) st' = Ok r' ->
  renumbered o (tt_tree r) (tt_tree r') ->
  recipes (length m) (tt_tree r) = Ok rs -> length p0 = length m -> Forall2 Qeq p0' (reorder 0 o p0) -> (exists S, equal_sums rs p0 S) ->
  tt_cats r' = reorder no_category o (tt_cats r) /\ Forall2 Qeq (tt_prices r') (reorder 0 o (tt_prices r))
  /\ tt_deals r' = tt_deals r /\ tt_kmin r' = tt_kmin r /\ tt_kmax r' = tt_kmax r /\ tt_gft r' == tt_gft r.
Proof.
  intros M p0 p0' fuel m o st st' r r' rs Ho H H' HT Hrs Lp HP [S0 HS].
  destruct (auction_returned _ _ _ _ _ _ H) as (rs1 & sp & u & R). destruct (auction_returned _ _ _ _ _ _ H') as (rs' & sp' & u' & R').
  assert (rs1 = rs) by (rewrite (rt_recipes _ _ _ _ _ _ _ _ _ R) in Hrs; congruence). subst rs1.
  set (n := length m) in *. assert (Lo := order_length _ _ Ho).
  assert (Lm : length (reorder no_category o m) = n) by (rewrite reorder_length; exact Lo).
  assert (SU := rt_setup _ _ _ _ _ _ _ _ _ R). assert (SU' := rt_setup _ _ _ _ _ _ _ _ _ R'). rewrite Lm in SU'.
  assert (Lp' : length p0' = n) by (rewrite (Forall2_length _ _ _ _ _ HP), reorder_length; exact Lo).
  assert (HP' : forall i, (i < n)%nat -> nth i p0' 0 == nth (old o i) p0 0).
  { intros i Hi. unfold old. rewrite <- (reorder_nth _ 0 o p0) by lia. clear -HP. revert i. induction HP as [|x y l l' Hxy _ IH]; intros [|i]; simpl; auto; reflexivity. }
  assert (HS' : equal_sums rs' p0' S0) by (eapply (sums_renumber o n Ho (tt_tree r) (tt_tree r') rs rs' p0 p0'); eassumption).
  assert (Lc : length (clone_market m) = n) by apply map_length.
  assert (Lc' : length (clone_market (reorder no_category o m)) = n) by (unfold clone_market; rewrite map_length; exact Lm).
  destruct (start_good n _ rs p0 sp (clone_market m) SU (rt_sp _ _ _ _ _ _ _ _ _ R) Lc Lp S0 HS) as [G Ep].
  destruct (start_good n _ rs' p0' sp' (clone_market (reorder no_category o m)) SU' (rt_sp _ _ _ _ _ _ _ _ _ R') Lc' Lp' S0 HS') as [G' Ep'].
  assert (PA : paired o n (clone_market m, sp) (clone_market (reorder no_category o m), sp')).
  { split.
    - intros i Hi. unfold cats_of. cbn [fst]. change no_category with dcat. rewrite clone_reorder. unfold cat_at, old. apply reorder_nth. lia.
    - intros i Hi. unfold pr, prices_of in *. cbn [snd] in *. rewrite Ep, Ep'. apply HP'. exact Hi. }
  destruct (loop_paired o n Ho M _ _ rs rs' fuel _ _ S0 S0 u u' HT SU SU' G G' (Qeq_refl _) PA (rt_loop _ _ _ _ _ _ _ _ _ R) (rt_loop _ _ _ _ _ _ _ _ _ R'))
    as ([PC PP] & T & T' & GT & GT').
  rewrite (rt_cats _ _ _ _ _ _ _ _ _ R), (rt_cats _ _ _ _ _ _ _ _ _ R'), (rt_prices _ _ _ _ _ _ _ _ _ R), (rt_prices _ _ _ _ _ _ _ _ _ R'),
    (rt_gft _ _ _ _ _ _ _ _ _ R), (rt_gft _ _ _ _ _ _ _ _ _ R').
  split; [apply (cats_from_paired o n Ho); [apply (g_cats _ _ _ _ GT)|apply (g_cats _ _ _ _ GT')|exact PC]|].
  split.
  { apply qeq_from_nth; [rewrite reorder_length, Lo; apply (g_prices _ _ _ _ GT')|]. intros i Hi. rewrite (g_prices _ _ _ _ GT') in Hi.
    rewrite reorder_nth by lia. apply PP. exact Hi. }
  assert (EX : deals_explained (cats_of u') (prices_of u') (tt_tree r') = deals_explained (cats_of u) (prices_of u) (tt_tree r)).
  { apply (ren_explained o n Ho); [exact PC|apply (g_prices _ _ _ _ GT)|apply (g_prices _ _ _ _ GT')|exact HT|exact (su_range _ _ _ SU)]. }
  rewrite (rt_explained _ _ _ _ _ _ _ _ _ R), (rt_explained _ _ _ _ _ _ _ _ _ R') in EX. injection EX; intros -> -> ->.
  split; [reflexivity|]. split; [reflexivity|]. split; [reflexivity|]. symmetry. apply (ren_gft o n Ho); [exact PC|exact HT].
Qed.

Theorem tree_renumber_returns : forall M p0 p0' fuel m o st st' r t' rs, is_order (length m) o ->
  tree_auction M p0 fuel m st = Ok r -> new_tree (reorder no_category o m) st' = Ok t' ->
  renumbered o (tt_tree r) t' -> distinct_categories (tt_tree r) ->
  recipes (length m) (tt_tree r) = Ok rs -> length p0 = length m -> Forall2 Qeq p0' (reorder 0 o p0) -> (exists S, equal_sums rs p0 S) ->
  exists r', tree_auction M p0' fuel (reorder no_category o m) st' = Ok r' /\ tt_tree r' = t'.
Proof.
  intros M p0 p0' fuel m o st st' r t' rs Ho H Ht' HT HD Hrs Lp HP [S0 HS].
  destruct (auction_returned _ _ _ _ _ _ H) as (rs1 & sp & u & R).
  assert (rs1 = rs) by (rewrite (rt_recipes _ _ _ _ _ _ _ _ _ R) in Hrs; congruence). subst rs1.
  set (n := length m) in *. assert (Lo := order_length _ _ Ho).
  assert (Lm : length (reorder no_category o m) = n) by (rewrite reorder_length; exact Lo).
  assert (SU := rt_setup _ _ _ _ _ _ _ _ _ R).
  assert (Lc : length (clone_market m) = n) by apply map_length.
  assert (Lc' : length (clone_market (reorder no_category o m)) = n) by (unfold clone_market; rewrite map_length; exact Lm).
  assert (Ht : new_tree (clone_market (reorder no_category o m)) st' = Ok t').
  { unfold new_tree in *. rewrite Lc'. rewrite Lm in Ht'. exact Ht'. }
  destruct (new_tree_setup _ _ _ Ht) as (rs' & Hrs' & SU'). rewrite Lm in Hrs', SU'.
  assert (Lp' : length p0' = n) by (rewrite (Forall2_length _ _ _ _ _ HP), reorder_length; exact Lo).
  assert (HP' : forall i, (i < n)%nat -> nth i p0' 0 == nth (old o i) p0 0).
  { intros i Hi. unfold old. rewrite <- (reorder_nth _ 0 o p0) by lia. clear -HP. revert i. induction HP as [|x y l l' Hxy _ IH]; intros [|i]; simpl; auto; reflexivity. }
  assert (HS' : equal_sums rs' p0' S0) by (eapply (sums_renumber o n Ho (tt_tree r) t' rs rs' p0 p0'); eassumption).
  destruct (new_sim_ok n t' rs' p0' SU') as [sp' Hsp'].
  destruct (start_good n _ rs p0 sp (clone_market m) SU (rt_sp _ _ _ _ _ _ _ _ _ R) Lc Lp S0 HS) as [G Ep].
  destruct (start_good n _ rs' p0' sp' (clone_market (reorder no_category o m)) SU' Hsp' Lc' Lp' S0 HS') as [G' Ep'].
  assert (PA : paired o n (clone_market m, sp) (clone_market (reorder no_category o m), sp')).
  { split.
    - intros i Hi. unfold cats_of. cbn [fst]. change no_category with dcat. rewrite clone_reorder. unfold cat_at, old. apply reorder_nth. lia.
    - intros i Hi. unfold pr, prices_of in *. cbn [snd] in *. rewrite Ep, Ep'. apply HP'. exact Hi. }
  destruct (loop_paired_total o n Ho M _ _ rs rs' fuel _ _ S0 S0 u HT SU SU' HD G G' (Qeq_refl _) PA (rt_loop _ _ _ _ _ _ _ _ _ R)) as [u' Hu'].
  destruct (loop_paired o n Ho M _ _ rs rs' fuel _ _ S0 S0 u u' HT SU SU' G G' (Qeq_refl _) PA (rt_loop _ _ _ _ _ _ _ _ _ R) Hu')
    as ([PC PP] & T & T' & GT & GT').
  destruct (rt_opt _ _ _ _ _ _ _ _ _ R) as [op Hop].
  assert (Hop' : exists op', tree_optimal_trade (clone_market (reorder no_category o m)) t' = Ok op').
  { unfold tree_optimal_trade in *. destruct (tchildren t') as [|c' ch'] eqn:E'; [|eauto].
    assert (E := proj2 (renumbered_leaf _ _ _ HT) E'). rewrite E in Hop.
    destruct (detailed_values (clone_market (reorder no_category o m)) t') as [|dv dvs] eqn:Ed; [eauto|]. exfalso.
    destruct (renumbered_root o n Ho _ _ HT) as [RI RL]. destruct (tt_tree r) as [i ch], t' as [i' ch']. cbn [tchildren tindex] in *. subst ch ch'.
    cbn [detailed_values] in *. assert (X := pa_cats _ _ _ _ PA i' RL). unfold cats_of in X. cbn [fst] in X. rewrite X, <- RI in Ed.
    rewrite Ed in Hop. discriminate. }
  destruct Hop' as [op' Hop'].
  destruct (deals_explained_ok (cats_of u') (prices_of u') t') as (k1 & k2 & Y & _).
  { rewrite (g_prices _ _ _ _ GT'). exact (su_range _ _ _ SU'). }
  eexists. split.
  - unfold tree_auction. rewrite Ht. cbn [bind]. rewrite Lc', Hrs'. cbn [bind]. rewrite Hop'. cbn [bind]. rewrite Hsp'. cbn [bind].
    match goal with |- context [tree_loop M fuel t' ?s] => replace (tree_loop M fuel t' s) with (Ok u') by (symmetry; exact Hu') end. cbn [bind].
    unfold new_tree_trade. unfold cats_of, prices_of in Y. rewrite Y. cbn [bind]. reflexivity.
  - reflexivity.
Qed.
