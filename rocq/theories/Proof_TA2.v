(** * One round of the tree auction *)

From Coq Require Import String List Arith Lia QArith Lqa Permutation Sorted Bool.
From Verif Require Import Base Model_Agents Model_Trade Model_Prices Model_Market Model_RecipeTree Model_TreeAuction
  Spec_Market Spec_RecipeTree Spec_TreeAuction Proof_Tree Proof_TA1.
Import ListNotations.
Open Scope Q_scope.

Definition cats_of (s : tree_state) : list category := fst s.
Definition prices_of (s : tree_state) : list Q := map_category_index_to_price (snd s).
Definition sz (s : tree_state) (i : nat) : nat := csize (cat_at (cats_of s) i).
Definition pr (s : tree_state) (i : nat) : Q := nth i (prices_of s) 0.
Definition chosen (t : rtree) (s : tree_state) : list nat := snd (largest_categories (cats_of s) t).

(** The planned price of a category. *)
Definition tgt (M : Q) (c : category) : Q := match cvalues c with [] => M | l => last l 0 end.

(** The category after the removal of its lowest agent, if beaten by the price. *)
Definition beaten (c : category) (p : Q) : bool :=
  match cvalues c with [] => false | l => Qle_bool (last l 0) p end.
Definition beat (c : category) (p : Q) : category :=
  if beaten c p then mkCat (cname c) (removelast (cvalues c)) else c.

Record setup (n : nat) (t : rtree) (rs : list (list nat)) : Prop := mkSetup {
  su_range : indices_in_range n t;
  su_recipes : Forall2 (path_recipe n) (root_leaf_paths t) rs
}.

Record good (n : nat) (rs : list (list nat)) (s : tree_state) (S : Q) : Prop := mkGood {
  g_cats : length (cats_of s) = n;
  g_prices : length (prices_of s) = n;
  g_recipes : sp_recipes (snd s) = rs;
  g_recipe : In (pv_recipe (sp_vector (snd s))) rs;
  g_sums : equal_sums rs (prices_of s) S
}.

Lemma setup_nonempty : forall n t rs, setup n t rs -> rs <> [].
Proof.
  intros n t rs [_ H] ->. inversion H as [E|]. symmetry in E. eapply paths_nonempty. exact E.
Qed.

Lemma setup_binary : forall n t rs, setup n t rs -> Forall (binary_recipe n) rs.
Proof.
  intros n t rs [_ H]. clear -H. induction H as [|p r ps rs [HL HI] _ IH]; constructor; [|assumption].
  split; [assumption|]. rewrite Forall_forall. intros x Hx. apply In_nth_error in Hx. destruct Hx as [i Hi].
  assert (Hl : (i < n)%nat) by (rewrite <- HL; apply nth_error_Some; congruence).
  destruct (HI i Hl) as [A B]. destruct (in_dec Nat.eq_dec i p) as [Y|Y].
  - rewrite (A Y) in Hi. injection Hi; intros <-. auto.
  - rewrite (B Y) in Hi. injection Hi; intros <-. auto.
Qed.

(** Every node is on a root-to-leaf path. *)
Lemma node_on_path : forall t i, In i (node_indices t) -> exists p, is_path t p /\ In i p.
Proof.
  intros t. induction t as [j ch IH] using rtree_ind'. intros i [<-|Hi].
  - destruct (root_leaf_paths (Node j ch)) as [|p ps] eqn:E; [exfalso; eapply paths_nonempty; exact E|].
    assert (Hp : is_path (Node j ch) p) by (apply root_leaf_paths_In; rewrite E; left; reflexivity).
    exists p. split; [assumption|]. inversion Hp; left; reflexivity.
  - apply in_concat in Hi. destruct Hi as [l [Hl Hi]]. apply in_map_iff in Hl. destruct Hl as [c [<- Hc]].
    rewrite Forall_forall in IH. destruct (IH c Hc i Hi) as [p [Hp Hip]].
    exists (j :: p). split; [econstructor; eassumption|right; assumption].
Qed.

Lemma Forall2_In_ex : forall A B (R : A -> B -> Prop) l l' a, Forall2 R l l' -> In a l -> exists b, In b l' /\ R a b.
Proof.
  intros A B R l l' a H. induction H; simpl; [tauto|]. intros [<-|Ha]; [eauto|].
  destruct (IHForall2 Ha) as [b [Hb Hr]]. eauto.
Qed.

Lemma setup_node : forall n t rs i, setup n t rs -> In i (node_indices t) ->
  exists r, In r rs /\ nth i r 0%nat = 1%nat.
Proof.
  intros n t rs i [HR HF] Hi. destruct (node_on_path t i Hi) as [p [Hp Hip]].
  apply root_leaf_paths_In in Hp. destruct (Forall2_In_ex _ _ _ _ _ _ HF Hp) as [r [Hr [_ HI]]].
  unfold indices_in_range in HR. rewrite Forall_forall in HR. specialize (HR i Hi).
  exists r. split; [assumption|]. apply nth_error_nth. apply (HI i HR). assumption.
Qed.

Lemma chosen_incl : forall t s, incl (chosen t s) (node_indices t).
Proof. intros t s. apply cut_incl. apply largest_cut. Qed.


Lemma one_nodup : forall rs l, (forall r, In r rs -> categories_in r l = 1%nat) ->
  (forall i, In i l -> exists r, In r rs /\ nth i r 0%nat = 1%nat) -> NoDup l.
Proof.
  intros rs l H1 H2. assert (K : forall r, In r rs -> (categories_in r l <= 1)%nat) by (intros r Hr; rewrite H1 by assumption; lia).
  clear H1. induction l as [|i l IH]; [constructor|]. constructor.
  - intros Hi. destruct (H2 i (or_introl eq_refl)) as [r [Hr E]]. specialize (K r Hr).
    unfold categories_in in K. cbn [filter] in K. rewrite E in K. cbn [Nat.eqb length] in K.
    assert (X : In i (filter (fun i0 => nth i0 r 0 =? 1)%nat l)) by (apply filter_In; rewrite E; auto).
    destruct (filter _ l); [destruct X|simpl in K; lia].
  - apply IH; [intros j Hj; apply H2; right; assumption|].
    intros r Hr. specialize (K r Hr). unfold categories_in in *. cbn [filter] in K.
    destruct (nth i r 0 =? 1)%nat; simpl in K; lia.
Qed.

Lemma tgt_lowest : forall M c, (if (0 <? csize c)%nat then lowest_agent_value c else Ok M) = Ok (tgt M c).
Proof. intros M c. unfold csize, lowest_agent_value, tgt. destruct (cvalues c); reflexivity. Qed.

Lemma planned_ok : forall M cats l, (forall i, In i l -> (i < length cats)%nat) ->
  planned_increases M cats l = Ok (map (fun i => (i, tgt M (cat_at cats i))) l).
Proof.
  intros M cats l H. unfold planned_increases. apply map_result_ok_all. intros i Hi.
  rewrite (get_lt _ _ _ (mkCat "" [])) by auto. cbn [bind]. fold (cat_at cats i).
  assert (T := tgt_lowest M (cat_at cats i)). destruct (0 <? csize (cat_at cats i))%nat.
  - rewrite T. reflexivity.
  - injection T; intros E. rewrite <- E. reflexivity.
Qed.

Lemma remove_beaten_ok : forall cats prices, length prices = length cats ->
  exists cats', remove_beaten cats prices = Ok cats' /\ length cats' = length cats
    /\ forall i, cat_at cats' i = beat (cat_at cats i) (nth i prices 0).
Proof.
  induction cats as [|c cats IH]; intros [|p prices] HL; simpl in HL; try lia.
  - exists []. split; [reflexivity|]. split; [reflexivity|]. intros [|i]; reflexivity.
  - destruct (IH prices) as (cats' & E & L & N); [lia|].
    assert (X : (if (0 <? csize c)%nat then low <- lowest_agent_value c ;;
                   if Qle_bool low p then remove_lowest_agent c else Ok c else Ok c) = Ok (beat c p)).
    { unfold csize, lowest_agent_value, remove_lowest_agent, beat, beaten.
      destruct (cvalues c) as [|v l] eqn:Ec; [reflexivity|]. cbn [length Nat.ltb Nat.leb bind].
      destruct (Qle_bool (last (v :: l) 0) p); reflexivity. }
    cbn [remove_beaten]. rewrite X. cbn [bind]. rewrite E. cbn [bind].
    exists (beat c p :: cats'). split; [reflexivity|]. split; [simpl; lia|].
    intros [|i]; [reflexivity|]. apply N.
Qed.

Record moved (M : Q) (t : rtree) (s s' : tree_state) (S d : Q) : Prop := mkMoved {
  mv_root : (0 < sz s (tindex t))%nat;
  mv_bound : d <= - S;
  mv_target : forall i, In i (chosen t s) -> d <= tgt M (cat_at (cats_of s) i) - pr s i;
  mv_min : d == - S \/ exists i, In i (chosen t s) /\ d == tgt M (cat_at (cats_of s) i) - pr s i;
  mv_nodup : NoDup (chosen t s);
  mv_chosen : forall i, In i (chosen t s) -> pr s' i = pr s i + d;
  mv_other : forall i, ~ In i (chosen t s) -> pr s' i = pr s i
}.

Lemma largest_eta : forall cats t, largest_categories cats t =
  (fst (fst (largest_categories cats t)), snd (fst (largest_categories cats t)), snd (largest_categories cats t)).
Proof. intros. destruct (largest_categories cats t) as [[a b] c]. reflexivity. Qed.

Lemma round_eq : forall M t cats sp, tree_round M t (cats, sp) =
  if (csize (cat_at cats (tindex t)) =? 0)%nat then Ok (true, (cats, sp))
  else increases <- planned_increases M cats (snd (largest_categories cats t)) ;;
       sp' <- increase_prices sp increases 0 ;;
       match sp_status sp' with
       | Some STOPPED_AT_ZERO_SUM => Ok (true, (cats, sp'))
       | _ => cats' <- remove_beaten cats (map_category_index_to_price sp') ;; Ok (false, (cats', sp'))
       end.
Proof.
  intros M t cats sp. unfold tree_round. rewrite (largest_eta cats t), largest_combined. reflexivity.
Qed.

Lemma round_inv : forall M n t rs s S b s', setup n t rs -> good n rs s S -> tree_round M t s = Ok (b, s') ->
  (b = true /\ s' = s /\ sz s (tindex t) = 0%nat)
  \/ (exists d, moved M t s s' S d /\ good n rs s' (S + d)
      /\ ((b = true /\ d == - S /\ cats_of s' = cats_of s)
          \/ (b = false /\ d < - S /\ forall i, cat_at (cats_of s') i = beat (cat_at (cats_of s) i) (pr s' i)))).
Proof.
  intros M n t rs [cats sp] S b s' SU G H. rewrite round_eq in H.
  destruct (Nat.eqb_spec (csize (cat_at cats (tindex t))) 0) as [Z|Z].
  { injection H; intros <- <-. left. auto. }
  right. assert (GC := g_cats _ _ _ _ G). assert (GP := g_prices _ _ _ _ G). assert (GR := g_recipes _ _ _ _ G).
  assert (GS := g_sums _ _ _ _ G). assert (GR1 := g_recipe _ _ _ _ G). unfold cats_of, prices_of in *. cbn [fst snd] in *.
  assert (CI := chosen_incl t (cats, sp)).
  assert (RG := su_range _ _ _ SU). unfold indices_in_range in RG. rewrite Forall_forall in RG.
  rewrite planned_ok in H.
  2: { intros i Hi. rewrite GC. apply RG. apply CI. exact Hi. }
  cbn [bind] in H. set (incs := map (fun i => (i, tgt M (cat_at cats i))) (snd (largest_categories cats t))) in *.
  assert (EI : map fst incs = chosen t (cats, sp)).
  { unfold incs, chosen, cats_of. rewrite map_map. simpl. apply map_id. }
  apply bind_Ok in H. destruct H as [sp' [Hi H]].
  destruct (increase_inv _ _ _ _ Hi) as [d ID].
  assert (SB := setup_binary _ _ _ SU). assert (SN := setup_nonempty _ _ _ SU).
  assert (PS : price_sum (sp_vector sp) == S) by (apply GS; exact GR1).
  assert (ONE := inc_one _ _ _ _ _ ID). rewrite GR, EI in ONE.
  assert (ND : NoDup (chosen t (cats, sp))).
  { apply (one_nodup rs); [exact ONE|]. intros i Hi'. eapply setup_node; [exact SU|]. apply CI. assumption. }
  destruct (increased_sums _ _ _ _ _ n S ID) as [S' L'];
    [rewrite GR; assumption|assumption|rewrite GR; assumption|rewrite GR; assumption|].
  destruct (raise_prices_ok d incs (map_category_index_to_price sp)) as (p' & E & _ & _ & N1 & N2).
  { intros i x Hin. unfold incs in Hin. apply in_map_iff in Hin. destruct Hin as [j [Ej Hj]].
    injection Ej; intros _ <-. rewrite GP. apply RG. apply CI. exact Hj. }
  rewrite (inc_raise _ _ _ _ _ ID) in E. injection E; intros <-. clear E. rewrite EI in N1, N2. specialize (N2 ND).
  exists d.
  assert (MV : forall cats', moved M t (cats, sp) (cats', sp') S d).
  { intros cats'. split; unfold sz, pr, cats_of, prices_of; cbn [fst snd].
    - lia.
    - assert (X := inc_bound _ _ _ _ _ ID). lra.
    - intros i Hc. apply (inc_target _ _ _ _ _ ID). unfold incs. apply in_map_iff. exists i. split; [reflexivity|exact Hc].
    - destruct (inc_min _ _ _ _ _ ID) as [X|[i [x [Hx X]]]]; [left; lra|]. right.
      unfold incs in Hx. apply in_map_iff in Hx. destruct Hx as [j [Ej Hj]]. injection Ej; intros <- <-.
      exists j. split; [exact Hj|exact X].
    - exact ND.
    - exact N2.
    - exact N1. }
  assert (GD : forall cats', length cats' = n -> good n rs (cats', sp') (S + d)).
  { intros cats' HL. split; unfold cats_of, prices_of; cbn [fst snd].
    - exact HL.
    - exact L'.
    - rewrite (inc_recipes _ _ _ _ _ ID). exact GR.
    - rewrite (inc_recipe _ _ _ _ _ ID). exact GR1.
    - rewrite GR in S'. exact S'. }
  assert (ST := inc_stop _ _ _ _ _ ID).
  destruct (inc_status _ _ _ _ _ ID) as [T|T]; rewrite T in H.
  - injection H; intros <- <-. split; [apply MV|]. split; [apply GD; exact GC|]. left.
    split; [reflexivity|]. split; [|reflexivity]. apply ST in T. lra.
  - destruct (remove_beaten_ok cats (map_category_index_to_price sp')) as (cats' & E & L & N); [congruence|].
    rewrite E in H. cbn [bind] in H. injection H; intros <- <-.
    split; [apply MV|]. split; [apply GD; congruence|]. right. split; [reflexivity|]. split.
    + assert (X := inc_bound _ _ _ _ _ ID). assert (Y : ~ d == 0 - price_sum (sp_vector sp)).
      { intros Y. apply ST in Y. rewrite T in Y. discriminate. } lra.
    + exact N.
Qed.

(** With distinct categories every recipe contains exactly one of the chosen categories. *)
Lemma chosen_one : forall n t rs cats, setup n t rs -> distinct_categories t ->
  forall r, In r rs -> categories_in r (snd (largest_categories cats t)) = 1%nat.
Proof.
  intros n t rs cats SU HD.
  assert (RC : forall i, In i (snd (largest_categories cats t)) -> (i < n)%nat).
  { assert (RG := su_range _ _ _ SU). unfold indices_in_range in RG. rewrite Forall_forall in RG.
    intros i Hi. apply RG. eapply cut_incl; [apply largest_cut|exact Hi]. }
  destruct (cut_distinct t _ HD (largest_cut cats t)) as [ND CU].
    intros r Hr. destruct SU as [_ SR]. clear -SR Hr CU ND RC.
    assert (X : exists p, is_path t p /\ path_recipe n p r).
    { assert (Y : forall p, In p (root_leaf_paths t) -> is_path t p) by (intros; apply root_leaf_paths_In; assumption).
      revert Y Hr. induction SR as [|p r' ps rs HP _ IH]; [intros _ []|]. intros Y [<-|Hr].
      - exists p. split; [apply Y; left; reflexivity|assumption].
      - apply IH; [intros; apply Y; right; assumption|assumption]. }
    destruct X as [p [Hp [HL HI]]]. destruct (CU p Hp) as [x [Hx [Hxp Hu]]].
    assert (Eq : forall i, In i (snd (largest_categories cats t)) -> (nth i r 0 =? 1)%nat = true <-> i = x).
    { intros i Hi. destruct (HI i (RC i Hi)) as [A B]. split.
      - intros E1. apply Hu; [assumption|]. destruct (in_dec Nat.eq_dec i p) as [|Y]; [assumption|].
        apply B in Y. apply (nth_error_nth _ _ 0%nat) in Y. rewrite Y in E1. discriminate.
      - intros ->. apply A in Hxp. apply (nth_error_nth _ _ 0%nat) in Hxp. rewrite Hxp. reflexivity. }
    unfold categories_in. clear -Eq Hx ND. revert Eq Hx ND. generalize (snd (largest_categories cats t)).
    induction l as [|i l IH]; [intros _ []|]. intros Eq Hx ND. inversion ND as [|? ? Hn ND']; subst. cbn [filter].
    destruct (nth i r 0 =? 1)%nat eqn:E.
    - assert (i = x) by (apply Eq; [left; reflexivity|exact E]). subst i. cbn [length].
      assert (Z : filter (fun i => nth i r 0 =? 1)%nat l = []).
      { clear -Eq Hn. induction l as [|j l IH]; [reflexivity|]. cbn [filter].
        destruct (nth j r 0 =? 1)%nat eqn:E.
        - exfalso. apply Hn. left. apply Eq; [right; left; reflexivity|exact E].
        - apply IH.
          + intros X. apply Hn. right. exact X.
          + intros k Hk. apply Eq. destruct Hk as [->|Hk]; [left; reflexivity|right; right; exact Hk]. }
      rewrite Z. reflexivity.
    - apply IH; [|destruct Hx as [->|Hx]; [|assumption]|assumption].
      + intros k Hk. apply Eq. right. assumption.
      + exfalso. assert (X := proj2 (Eq x (or_introl eq_refl)) eq_refl). congruence.
Qed.

(** With distinct categories a round never raises. *)
Lemma round_total : forall M n t rs s S, setup n t rs -> distinct_categories t -> good n rs s S ->
  exists b s', tree_round M t s = Ok (b, s').
Proof.
  intros M n t rs [cats sp] S SU HD G. rewrite round_eq.
  destruct (Nat.eqb_spec (csize (cat_at cats (tindex t))) 0) as [Z|Z]; [eauto|].
  assert (GC := g_cats _ _ _ _ G). assert (GP := g_prices _ _ _ _ G). assert (GR := g_recipes _ _ _ _ G).
  unfold cats_of, prices_of in *. cbn [fst snd] in *.
  assert (CI := chosen_incl t (cats, sp)).
  assert (RG := su_range _ _ _ SU). unfold indices_in_range in RG. rewrite Forall_forall in RG.
  assert (RC : forall i, In i (snd (largest_categories cats t)) -> (i < n)%nat).
  { intros i Hi. apply RG. apply CI. exact Hi. }
  rewrite planned_ok by (intros; rewrite GC; auto). cbn [bind].
  set (incs := map (fun i => (i, tgt M (cat_at cats i))) (snd (largest_categories cats t))) in *.
  assert (EI : map fst incs = snd (largest_categories cats t)).
  { unfold incs. rewrite map_map. simpl. apply map_id. }
  destruct (increase_ok sp incs 0) as [[K _] _].
  { intros i x Hin. rewrite GP. apply RC. rewrite <- EI. apply in_map_iff. exists (i, x). auto. }
  { rewrite GR. eapply setup_nonempty. exact SU. }
  { rewrite GR, GP. assert (SB := setup_binary _ _ _ SU). rewrite Forall_forall in SB. intros r Hr. apply SB. assumption. }
  destruct K as [sp' Hsp].
  { rewrite GR, EI. eapply chosen_one; eassumption. }
  rewrite Hsp. cbn [bind]. destruct (increase_inv _ _ _ _ Hsp) as [d ID].
  assert (L' : length (map_category_index_to_price sp') = n).
  { destruct (increased_sums _ _ _ _ _ n S ID) as [_ X]; [rewrite GR; eapply setup_binary; exact SU|exact GP| | |exact X].
    - rewrite GR. eapply setup_nonempty. exact SU.
    - rewrite GR. exact (g_sums _ _ _ _ G). }
  destruct (remove_beaten_ok cats (map_category_index_to_price sp')) as (cats' & E & _); [congruence|].
  destruct (sp_status sp') as [[|]|]; rewrite ?E; cbn [bind]; eauto.
Qed.
