From Coq Require Import String List Arith Lia QArith Lqa Permutation Sorted Bool.
From Verif Require Import Base Model_Agents Model_Trade Model_Prices Model_Market Spec_Market
  Spec_Agents Proof_Agents.
Import ListNotations.
Open Scope Q_scope.

(** ** Pointwise combination of two lists *)

Fixpoint map2 {A B C} (f : A -> B -> C) (l1 : list A) (l2 : list B) : list C :=
  match l1, l2 with
  | a :: l1', b :: l2' => f a b :: map2 f l1' l2'
  | _, _ => []
  end.

Lemma map2_length : forall A B C (f : A -> B -> C) l1 l2, length l1 = length l2 ->
  length (map2 f l1 l2) = length l1.
Proof. induction l1; destruct l2; simpl; intros; try lia. f_equal. apply IHl1. lia. Qed.

Lemma map2_nth_error : forall A B C (f : A -> B -> C) l1 l2 i a b,
  nth_error l1 i = Some a -> nth_error l2 i = Some b ->
  nth_error (map2 f l1 l2) i = Some (f a b).
Proof.
  induction l1; destruct l2; destruct i; simpl; intros; try discriminate.
  - congruence.
  - eauto.
Qed.

Lemma map2_nth_error_inv : forall A B C (f : A -> B -> C) l1 l2 i c,
  nth_error (map2 f l1 l2) i = Some c ->
  exists a b, nth_error l1 i = Some a /\ nth_error l2 i = Some b /\ c = f a b.
Proof.
  induction l1; destruct l2; destruct i; simpl; intros; try discriminate.
  - inversion H; subst. eauto.
  - eauto.
Qed.

Lemma map2_ext : forall A B C (f g : A -> B -> C) l1 l2,
  (forall a b, f a b = g a b) -> map2 f l1 l2 = map2 g l1 l2.
Proof. induction l1; destruct l2; simpl; intros; auto. rewrite H, IHl1; auto. Qed.

Lemma map2_map2 : forall A B C D (f : C -> B -> D) (g : A -> B -> C) l1 l2,
  map2 f (map2 g l1 l2) l2 = map2 (fun a b => f (g a b) b) l1 l2.
Proof. induction l1; destruct l2; simpl; intros; auto. rewrite IHl1. reflexivity. Qed.

Lemma map_map2 : forall A B C D (h : C -> D) (f : A -> B -> C) l1 l2,
  map h (map2 f l1 l2) = map2 (fun a b => h (f a b)) l1 l2.
Proof. induction l1; destruct l2; simpl; intros; auto. rewrite IHl1. reflexivity. Qed.

Lemma map2_map_l : forall A A' B C (h : A' -> A) (f : A -> B -> C) l1 l2,
  map2 f (map h l1) l2 = map2 (fun a b => f (h a) b) l1 l2.
Proof. induction l1; destruct l2; simpl; intros; auto. rewrite IHl1. reflexivity. Qed.

Lemma map2_id_l : forall A B (f : A -> B -> A) l1 l2, length l1 = length l2 ->
  (forall a b, f a b = a) -> map2 f l1 l2 = l1.
Proof. induction l1; destruct l2; simpl; intros; try lia; auto. rewrite H0, IHl1; auto. Qed.

Lemma Qsum_map2_plus : forall A B (f g : A -> B -> Q) l1 l2,
  Qsum (map2 (fun a b => f a b + g a b) l1 l2) == Qsum (map2 f l1 l2) + Qsum (map2 g l1 l2).
Proof. induction l1; destruct l2; simpl; intros; try ring. rewrite IHl1. ring. Qed.

(** Pairwise reasoning on sums. *)
Lemma Qsum_map2_le : forall A B (f g : A -> B -> Q) l1 l2,
  (forall i a b, nth_error l1 i = Some a -> nth_error l2 i = Some b -> f a b <= g a b) ->
  Qsum (map2 f l1 l2) <= Qsum (map2 g l1 l2).
Proof.
  induction l1; destruct l2; simpl; intros H; try lra.
  assert (f a b <= g a b) by (apply (H 0%nat); reflexivity).
  assert (Qsum (map2 f l1 l2) <= Qsum (map2 g l1 l2)).
  { apply IHl1. intros i x y Hx Hy. apply (H (S i)); assumption. }
  lra.
Qed.

Lemma Qsum_map2_eq : forall A B (f g : A -> B -> Q) l1 l2,
  (forall i a b, nth_error l1 i = Some a -> nth_error l2 i = Some b -> f a b == g a b) ->
  Qsum (map2 f l1 l2) == Qsum (map2 g l1 l2).
Proof.
  intros. apply Qle_antisym; apply Qsum_map2_le; intros; erewrite H by eassumption; lra.
Qed.

(** ** Procurement sets by index *)

(** The t-th block of [r] consecutive values. *)
Definition block (t : nat) (v : list Q) (r : nat) : list Q := firstn r (skipn (t * r) v).

(** The t-th procurement set as a deal. *)
Definition ps_deal (m : market) (recipe : list nat) (t : nat) : deal :=
  map2 (fun c r => block t (cvalues c) r) m recipe.

Definition ps_gain (m : market) (recipe : list nat) (t : nat) : Q := deal_gain (ps_deal m recipe t).

(** Enough agents for n procurement sets. *)
Definition enough (n : nat) (m : market) (recipe : list nat) : Prop :=
  forall i c r, nth_error m i = Some c -> nth_error recipe i = Some r -> (n * r <= csize c)%nat.

Definition drop_ps (n : nat) (m : market) (recipe : list nat) : market :=
  map2 (fun c r => mkCat (cname c) (skipn (n * r) (cvalues c))) m recipe.

Lemma drop_0 : forall m recipe, length recipe = length m -> drop_ps 0 m recipe = m.
Proof.
  intros. unfold drop_ps. apply map2_id_l; [auto|]. intros [n v] r. reflexivity.
Qed.

Lemma skipn_skipn : forall A a b (l : list A), skipn a (skipn b l) = skipn (a + b) l.
Proof.
  induction b; intros l; simpl.
  - rewrite Nat.add_0_r. reflexivity.
  - rewrite Nat.add_succ_r. destruct l; simpl; [apply skipn_nil|apply IHb].
Qed.

Lemma drop_drop : forall a b m recipe, drop_ps a (drop_ps b m recipe) recipe = drop_ps (a + b) m recipe.
Proof.
  intros. unfold drop_ps. rewrite map2_map2. apply map2_ext. intros c r. simpl.
  rewrite skipn_skipn. f_equal. f_equal. lia.
Qed.

Lemma drop_length : forall n m recipe, length recipe = length m ->
  length (drop_ps n m recipe) = length m.
Proof. intros. unfold drop_ps. apply map2_length. auto. Qed.

Lemma ps_deal_drop : forall t n m recipe, ps_deal (drop_ps n m recipe) recipe t = ps_deal m recipe (t + n).
Proof.
  intros. unfold ps_deal, drop_ps. rewrite map2_map2. apply map2_ext. intros c r.
  unfold block. simpl. rewrite skipn_skipn. f_equal. f_equal. lia.
Qed.

Lemma ps_gain_drop : forall t n m recipe, ps_gain (drop_ps n m recipe) recipe t = ps_gain m recipe (t + n).
Proof. intros. unfold ps_gain. rewrite ps_deal_drop. reflexivity. Qed.

Lemma enough_drop : forall k n m recipe, length recipe = length m -> enough n m recipe ->
  (enough k (drop_ps n m recipe) recipe <-> enough (k + n) m recipe).
Proof.
  intros k n m recipe Hl Hn. unfold enough. split; intros H i c r Hc Hr.
  - assert (H1 := map2_nth_error _ _ _ (fun c r => mkCat (cname c) (skipn (n * r) (cvalues c))) _ _ _ _ _ Hc Hr).
    specialize (H _ _ _ H1 Hr). specialize (Hn _ _ _ Hc Hr).
    unfold csize in *. simpl in H. rewrite skipn_length in H. lia.
  - unfold drop_ps in Hc. apply map2_nth_error_inv in Hc. destruct Hc as [c0 [r0 [Hc [Hr0 ->]]]].
    assert (r0 = r) by congruence. subst r0.
    specialize (H _ _ _ Hc Hr). unfold csize in *. simpl. rewrite skipn_length. lia.
Qed.

Lemma enough_le : forall a b m recipe, (a <= b)%nat -> enough b m recipe -> enough a m recipe.
Proof. intros a b m recipe H H1 i c r Hc Hr. specialize (H1 _ _ _ Hc Hr). nia. Qed.

Lemma get_highest_spec : forall m recipe, length recipe = length m ->
  (enough 1 m recipe -> get_highest_agents m recipe = Ok (Some (concat (ps_deal m recipe 0))))
  /\ (~ enough 1 m recipe -> get_highest_agents m recipe = Ok None).
Proof.
  induction m as [|c m IH]; intros [|r recipe] Hl; simpl in Hl; try discriminate.
  - split; intros H; [reflexivity|]. exfalso. apply H. intros i c r Hc. destruct i; discriminate.
  - injection Hl as Hl. destruct (IH _ Hl) as [IH1 IH2]. simpl.
    destruct (Nat.ltb_spec (csize c) r) as [Hlt|Hge].
    + split; intros H; [|reflexivity].
      specialize (H 0%nat c r eq_refl eq_refl). lia.
    + split; intros H.
      * rewrite IH1; [reflexivity|].
        intros i c' r' Hc Hr. apply (H (S i)); assumption.
      * rewrite IH2; [reflexivity|].
        intros H1. apply H. intros [|i] c' r' Hc Hr; simpl in *.
        -- inversion Hc; inversion Hr; subst. lia.
        -- apply (H1 i); assumption.
Qed.

Lemma enough_dec : forall n m recipe, {enough n m recipe} + {~ enough n m recipe}.
Proof.
  intros n m. induction m as [|c m IH]; intros [|r recipe].
  - left. intros i c r Hc. destruct i; discriminate.
  - left. intros i c r' Hc. destruct i; discriminate.
  - left. intros i c' r Hc Hr. destruct i; discriminate.
  - destruct (le_dec (n * r) (csize c)) as [H|H].
    + destruct (IH recipe) as [H1|H1].
      * left. intros [|i] c' r' Hc Hr; simpl in *.
        -- inversion Hc; inversion Hr; subst. assumption.
        -- apply (H1 i); assumption.
      * right. intros H2. apply H1. intros i c' r' Hc Hr. apply (H2 (S i)); assumption.
    + right. intros H2. apply H. apply (H2 0%nat); reflexivity.
Qed.

Lemma remove_highest_spec : forall m recipe, length recipe = length m -> enough 1 m recipe ->
  market_remove_highest m recipe = Ok (drop_ps 1 m recipe).
Proof.
  induction m as [|c m IH]; intros [|r recipe] Hl H; simpl in Hl; try discriminate.
  - reflexivity.
  - injection Hl as Hl. simpl.
    rewrite remove_highest_agents_spec.
    assert (H0 := H 0%nat c r eq_refl eq_refl).
    destruct (Nat.ltb_spec (csize c) r); [lia|]. simpl.
    rewrite IH; auto.
    + simpl. unfold drop_ps. simpl. rewrite Nat.add_0_r. reflexivity.
    + intros i c' r' Hc Hr. apply (H (S i)); assumption.
Qed.

(** ** The loop of optimal_trade *)

Definition acceptable (include_zero : bool) (g : Q) : Prop :=
  if include_zero then 0 <= g else 0 < g.

Lemma acceptable_test : forall z g,
  Qlt_bool g 0 || (Qeq_bool g 0 && negb z) = false <-> acceptable z g.
Proof.
  intros z g. unfold acceptable. rewrite orb_false_iff, Qlt_bool_false, andb_false_iff.
  destruct z; simpl.
  - split; [tauto|]. intros H; split; [assumption|right; reflexivity].
  - split.
    + intros [H [H1|H1]]; [|discriminate].
      destruct (Qeq_bool g 0) eqn:E; [discriminate|].
      apply Qeq_bool_neq in E. apply Qle_lteq in H. destruct H; [assumption|].
      exfalso. apply E. symmetry. assumption.
    + intros H. split; [lra|]. left. destruct (Qeq_bool g 0) eqn:E; [|reflexivity].
      apply Qeq_bool_iff in E. lra.
Qed.

Lemma deal_gain_concat : forall d, Qsum (concat d) == deal_gain d.
Proof. intros. unfold deal_gain. apply Qsum_concat. Qed.

Lemma acceptable_proper : forall z a b, a == b -> acceptable z a -> acceptable z b.
Proof. intros [] a b H; simpl; rewrite H; auto. Qed.

(** The number of accepted procurement sets, and what the loop returns. *)
Definition stops_at (cap k : nat) (m : market) (recipe : list nat) (z : bool) : Prop :=
  (k <= cap)%nat /\ enough k m recipe
  /\ (forall t, (t < k)%nat -> acceptable z (ps_gain m recipe t))
  /\ (k = cap \/ ~ enough (S k) m recipe \/ ~ acceptable z (ps_gain m recipe k)).

Lemma optimal_loop_spec : forall cap m recipe z acc, length recipe = length m ->
  exists k, optimal_loop cap m recipe z acc
            = Ok (acc ++ map (fun t => concat (ps_deal m recipe t)) (seq 0 k), drop_ps k m recipe)
         /\ stops_at cap k m recipe z.
Proof.
  induction cap as [|cap IH]; intros m recipe z acc Hl; simpl.
  - exists 0%nat. split.
    + simpl. rewrite app_nil_r, drop_0 by assumption. reflexivity.
    + repeat split; try lia; auto. intros i c r _ _. lia.
  - destruct (get_highest_spec m recipe Hl) as [G1 G2].
    destruct (enough_dec 1 m recipe) as [He|He].
    + rewrite (G1 He). simpl.
      destruct (Qlt_bool (Qsum (concat (ps_deal m recipe 0))) 0
                || (Qeq_bool (Qsum (concat (ps_deal m recipe 0))) 0 && negb z)) eqn:E.
      * exists 0%nat. split.
        -- simpl. rewrite app_nil_r, drop_0 by assumption. reflexivity.
        -- repeat split; try lia.
           ++ intros i c r _ _. lia.
           ++ right. right. intros H.
              assert (A : acceptable z (Qsum (concat (ps_deal m recipe 0)))).
              { eapply acceptable_proper; [|exact H]. unfold ps_gain.
                symmetry. apply deal_gain_concat. }
              apply acceptable_test in A. congruence.
      * rewrite remove_highest_spec by assumption. simpl.
        assert (Hl' : length recipe = length (drop_ps 1 m recipe)) by (rewrite drop_length; auto).
        destruct (IH (drop_ps 1 m recipe) recipe z (acc ++ [concat (ps_deal m recipe 0)]) Hl')
          as [k [H1 H2]].
        exists (S k). split.
        -- rewrite H1. rewrite drop_drop. rewrite Nat.add_1_r. f_equal. f_equal.
           rewrite <- app_assoc. f_equal. simpl. f_equal.
           rewrite <- (seq_shift k 0), map_map. apply map_ext. intros t.
           rewrite ps_deal_drop, Nat.add_1_r. reflexivity.
        -- destruct H2 as [K1 [K2 [K3 K4]]].
           assert (K2' : enough (S k) m recipe).
           { rewrite <- Nat.add_1_r. apply enough_drop; assumption. }
           repeat split; try lia; auto.
           ++ intros t Ht. destruct t as [|t].
              ** apply acceptable_test in E. eapply acceptable_proper; [|exact E].
                 unfold ps_gain. apply deal_gain_concat.
              ** assert (Ht' : (t < k)%nat) by lia. apply K3 in Ht'.
                 rewrite ps_gain_drop, Nat.add_1_r in Ht'. assumption.
           ++ destruct K4 as [K4|[K4|K4]].
              ** left. lia.
              ** right. left. intros H. apply K4. apply enough_drop; try assumption.
                 rewrite Nat.add_1_r. assumption.
              ** right. right. rewrite ps_gain_drop, Nat.add_1_r in K4. assumption.
    + rewrite (G2 He). simpl. exists 0%nat. split.
      * simpl. rewrite app_nil_r, drop_0 by assumption. reflexivity.
      * repeat split; try lia; auto. intros i c r _ _. lia.
Qed.

Lemma clone_length : forall m, length (clone_market m) = length m.
Proof. intros. unfold clone_market. apply map_length. Qed.

Lemma clone_sorted : forall m, sorted_market (clone_market m).
Proof.
  intros m. unfold sorted_market, clone_market. apply Forall_forall. intros c Hc.
  apply in_map_iff in Hc. destruct Hc as [c0 [<- _]]. apply sort_desc_desc.
Qed.

Lemma clone_id : forall m, sorted_market m -> clone_market m = m.
Proof.
  induction m as [|[n v] m IH]; intros H; [reflexivity|].
  inversion H; subst. simpl. f_equal; [|apply IH; assumption].
  unfold clone, new_category. simpl. rewrite sort_desc_id by assumption. reflexivity.
Qed.

Theorem optimal_trade_spec : forall cap m recipe z, length recipe = length m ->
  let m' := clone_market m in
  exists k, optimal_trade cap m recipe z
            = Ok (sort_by Qsum (map (fun t => concat (ps_deal m' recipe t)) (seq 0 k)), drop_ps k m' recipe)
         /\ stops_at cap k m' recipe z.
Proof.
  intros cap m recipe z Hl m'. unfold optimal_trade. rewrite Hl, Nat.eqb_refl.
  assert (Hl' : length recipe = length m') by (unfold m'; rewrite clone_length; auto).
  destruct (optimal_loop_spec cap m' recipe z [] Hl') as [k [H1 H2]].
  exists k. split; [|assumption]. fold m'. rewrite H1. reflexivity.
Qed.

(** ** Sorted blocks *)

Lemma nth_error_firstn_lt : forall A n (l : list A) i, (i < n)%nat ->
  nth_error (firstn n l) i = nth_error l i.
Proof. induction n; destruct l; destruct i; simpl; intros; try lia; auto. apply IHn. lia. Qed.

Lemma nth_error_skipn_add : forall A n (l : list A) i,
  nth_error (skipn n l) i = nth_error l (n + i).
Proof. induction n; destruct l; simpl; intros; auto. destruct i; auto. Qed.

Lemma block_mono : forall t s v r, desc v -> (t <= s)%nat -> (S s * r <= length v)%nat ->
  Qsum (block s v r) <= Qsum (block t v r).
Proof.
  intros t s v r Hd Hts Hl.
  destruct (Nat.eq_dec t s) as [->|Hne]; [lra|].
  assert (L1 : length (block t v r) = r) by (unfold block; rewrite firstn_length, skipn_length; nia).
  assert (L2 : length (block s v r) = r) by (unfold block; rewrite firstn_length, skipn_length; nia).
  destruct r as [|r]; [unfold block; simpl; lra|].
  set (x := nth (s * S r) v 0).
  assert (A : Forall (fun y => y <= x) (block s v (S r))).
  { apply Forall_forall. intros y Hy. apply In_nth_error in Hy. destruct Hy as [i Hi].
    assert (Hlt : (i < length (block s v (S r)))%nat) by (apply nth_error_Some; congruence).
    unfold block in Hi. rewrite nth_error_firstn_lt, nth_error_skipn_add in Hi by lia.
    apply nth_error_nth with (d := 0) in Hi. rewrite <- Hi. unfold x.
    apply desc_nth; [assumption|lia|nia]. }
  assert (B : Forall (fun y => x <= y) (block t v (S r))).
  { apply Forall_forall. intros y Hy. apply In_nth_error in Hy. destruct Hy as [i Hi].
    assert (Hlt : (i < length (block t v (S r)))%nat) by (apply nth_error_Some; congruence).
    unfold block in Hi. rewrite nth_error_firstn_lt, nth_error_skipn_add in Hi by lia.
    apply nth_error_nth with (d := 0) in Hi. rewrite <- Hi. unfold x.
    apply desc_nth; [assumption|nia|nia]. }
  apply Qsum_upper in A. apply Qsum_lower in B. rewrite L1 in B. rewrite L2 in A. lra.
Qed.

Lemma ps_gain_alt : forall m recipe t,
  ps_gain m recipe t = Qsum (map2 (fun c r => Qsum (block t (cvalues c) r)) m recipe).
Proof. intros. unfold ps_gain, deal_gain, ps_deal. rewrite map_map2. reflexivity. Qed.

Lemma sorted_market_nth : forall m i c, sorted_market m -> nth_error m i = Some c -> desc (cvalues c).
Proof. intros m i c H Hc. apply nth_error_In in Hc. unfold sorted_market in H. rewrite Forall_forall in H. auto. Qed.

Lemma ps_gain_mono : forall m recipe t s, sorted_market m -> (t <= s)%nat -> enough (S s) m recipe ->
  ps_gain m recipe s <= ps_gain m recipe t.
Proof.
  intros m recipe t s Hs Hts He. rewrite !ps_gain_alt. apply Qsum_map2_le.
  intros i c r Hc Hr. apply block_mono; [eapply sorted_market_nth; eassumption|assumption|].
  apply (He i); assumption.
Qed.

(** Sum of the first n blocks = sum of the top n*r values. *)
Lemma blocks_sum : forall n v r, 
  Qsum (map (fun t => Qsum (block t v r)) (seq 0 n)) == Qsum (firstn (n * r) v).
Proof.
  intros n v r. revert v. induction n; intros v; [reflexivity|].
  cbn [seq map]. rewrite <- seq_shift, map_map, Qsum_cons.
  rewrite (Qsum_map_ext _ _ (fun t => Qsum (block t (skipn r v) r))).
  2:{ intros t _. unfold block. rewrite skipn_skipn. replace (t * r + r)%nat with (S t * r)%nat by lia. reflexivity. }
  rewrite IHn. unfold block. simpl (0 * r)%nat. simpl skipn.
  rewrite <- Qsum_app. replace (S n * r)%nat with (r + n * r)%nat by lia.
  rewrite <- (firstn_skipn r (firstn (r + n * r) v)).
  rewrite firstn_firstn, Nat.min_l by lia.
  rewrite skipn_firstn_comm. replace (r + n * r - r)%nat with (n * r)%nat by lia. reflexivity.
Qed.

Lemma Qsum_map_Qsum_map2 : forall A B T (f : T -> A -> B -> Q) (l1 : list A) (l2 : list B) (ts : list T),
  Qsum (map (fun t => Qsum (map2 (f t) l1 l2)) ts)
  == Qsum (map2 (fun a b => Qsum (map (fun t => f t a b) ts)) l1 l2).
Proof.
  induction ts as [|t ts IH]; simpl.
  - clear. revert l2. induction l1; destruct l2; simpl; auto; try reflexivity. rewrite <- IHl1. ring.
  - rewrite IH. rewrite <- Qsum_map2_plus. reflexivity.
Qed.

Definition top_gain (m : market) (recipe : list nat) (n : nat) : Q :=
  Qsum (map (ps_gain m recipe) (seq 0 n)).

Lemma top_gain_alt : forall m recipe n,
  top_gain m recipe n == Qsum (map2 (fun c r => Qsum (firstn (n * r) (cvalues c))) m recipe).
Proof.
  intros. unfold top_gain.
  rewrite (Qsum_map_ext _ _ (fun t => Qsum (map2 (fun c r => Qsum (block t (cvalues c) r)) m recipe))).
  2:{ intros t _. rewrite ps_gain_alt. reflexivity. }
  rewrite Qsum_map_Qsum_map2. apply Qsum_map2_eq. intros i c r _ _. apply blocks_sum.
Qed.

Lemma top_gain_S : forall m recipe n, top_gain m recipe (S n) == top_gain m recipe n + ps_gain m recipe n.
Proof.
  intros. unfold top_gain. rewrite seq_S, map_app, Qsum_app. simpl. ring.
Qed.

(** ** Feasible trades *)

Lemma agents_of_length : forall recipe deals i r, Forall (deal_ok recipe) deals ->
  nth_error recipe i = Some r -> length (agents_of i deals) = (length deals * r)%nat.
Proof.
  intros recipe deals i r H Hr. induction H as [|d deals Hd _ IH]; [reflexivity|].
  unfold agents_of in *. simpl. rewrite app_length, IH. f_equal.
  clear - Hd Hr. revert i Hr. induction Hd; intros i Hr; destruct i; simpl in *; try discriminate.
  - inversion Hr; subst. reflexivity.
  - apply IHHd. assumption.
Qed.

(** Total gain by categories. *)
Lemma gain_by_category : forall recipe deals, Forall (deal_ok recipe) deals ->
  total_gain deals == Qsum (map (fun i => Qsum (agents_of i deals)) (seq 0 (length recipe))).
Proof.
  intros recipe deals H. induction H as [|d deals Hd _ IH].
  - unfold total_gain, agents_of. simpl. clear. induction (seq 0 (length recipe)); simpl; [reflexivity|].
    rewrite <- IHl. ring.
  - unfold total_gain in *. simpl. rewrite IH.
    rewrite (Qsum_map_ext _ (fun i => Qsum (agents_of i (d :: deals)))
               (fun i => Qsum (nth i d []) + Qsum (agents_of i deals))).
    2:{ intros i _. unfold agents_of. simpl. rewrite Qsum_app. reflexivity. }
    rewrite Qsum_map_plus. apply Qplus_comp; [|reflexivity].
    unfold deal_gain. clear - Hd.
    assert (Hl : length recipe = length d) by (eapply Forall2_length; eassumption).
    rewrite Hl. clear. induction d as [|x d IH]; [reflexivity|].
    cbn [length seq map]. rewrite <- seq_shift, map_map. simpl. rewrite IH. reflexivity.
Qed.

Lemma Qsum_seq_map2 : forall A B (f : nat -> Q) (g : A -> B -> Q) l1 l2, length l1 = length l2 ->
  (forall i a b, nth_error l1 i = Some a -> nth_error l2 i = Some b -> f i <= g a b) ->
  Qsum (map f (seq 0 (length l2))) <= Qsum (map2 g l1 l2).
Proof.
  intros A B f g l1. revert f. induction l1 as [|a l1 IH]; destruct l2 as [|b l2]; simpl; intros Hl H; try lia; try lra.
  rewrite <- seq_shift, map_map.
  assert (f 0%nat <= g a b) by (apply H; reflexivity).
  assert (Qsum (map (fun x => f (S x)) (seq 0 (length l2))) <= Qsum (map2 g l1 l2)).
  { apply IH; [lia|]. intros i x y Hx Hy. apply (H (S i)); assumption. }
  lra.
Qed.

Lemma feasible_enough : forall m recipe deals, length recipe = length m ->
  feasible m recipe deals -> enough (length deals) m recipe.
Proof.
  intros m recipe deals Hl [H1 H2] i c r Hc Hr. specialize (H2 i c Hc). destruct H2 as [rest Hp].
  apply Permutation_length in Hp. rewrite app_length, (agents_of_length recipe deals i r) in Hp by assumption.
  unfold csize. lia.
Qed.

Lemma feasible_bound : forall m recipe deals, length recipe = length m -> sorted_market m ->
  feasible m recipe deals -> total_gain deals <= top_gain m recipe (length deals).
Proof.
  intros m recipe deals Hl Hs [H1 H2]. rewrite gain_by_category by eassumption.
  rewrite top_gain_alt. apply Qsum_seq_map2; [auto|].
  intros i c r Hc Hr. destruct (H2 i c Hc) as [rest Hp].
  rewrite <- (agents_of_length recipe deals i r) by assumption.
  eapply top_sum_max; [eapply sorted_market_nth; eassumption|eassumption].
Qed.

(** Sorting a list of deals by gain commutes with flattening. *)
Lemma insert_map : forall A B (f : A -> B) (le : B -> B -> bool) x l,
  map f (insert (fun a b => le (f a) (f b)) x l) = insert le (f x) (map f l).
Proof. induction l; simpl; [reflexivity|]. destruct (le (f x) (f a)); simpl; congruence. Qed.

Lemma isort_map : forall A B (f : A -> B) (le : B -> B -> bool) l,
  map f (isort (fun a b => le (f a) (f b)) l) = isort le (map f l).
Proof. induction l; simpl; [reflexivity|]. rewrite insert_map, IHl. reflexivity. Qed.

Lemma sort_by_map : forall A B (f : A -> B) (key : B -> Q) l,
  map f (sort_by (fun a => key (f a)) l) = sort_by key (map f l).
Proof. intros. unfold sort_by. apply (isort_map _ _ f (fun x y => Qle_bool (key x) (key y))). Qed.

Definition ps_deals (m : market) (recipe : list nat) (k : nat) : list deal :=
  map (ps_deal m recipe) (seq 0 k).

Lemma ps_deal_ok : forall m recipe t, length recipe = length m -> enough (S t) m recipe ->
  deal_ok recipe (ps_deal m recipe t).
Proof.
  unfold deal_ok, ps_deal. induction m as [|c m IH]; intros [|r recipe] t Hl He; simpl in Hl; try discriminate.
  - constructor.
  - simpl. constructor.
    + unfold block. rewrite firstn_length, skipn_length.
      specialize (He 0%nat c r eq_refl eq_refl). unfold csize in He. lia.
    + apply IH; [lia|]. intros i c' r' Hc Hr. apply (He (S i)); assumption.
Qed.

Lemma agents_of_ps : forall m recipe k i c r,
  nth_error m i = Some c -> nth_error recipe i = Some r ->
  agents_of i (ps_deals m recipe k) = firstn (k * r) (cvalues c).
Proof.
  intros m recipe k i c r Hc Hr. unfold agents_of, ps_deals. rewrite map_map.
  rewrite (map_ext _ (fun t => block t (cvalues c) r)).
  2:{ intros t. erewrite nth_error_nth; [reflexivity|]. unfold ps_deal.
      apply (map2_nth_error _ _ _ (fun c r => block t (cvalues c) r)); assumption. }
  generalize (cvalues c). clear. induction k; intros v; [reflexivity|].
  cbn [seq map concat]. rewrite <- seq_shift, map_map.
  rewrite (map_ext _ (fun t => block t (skipn r v) r)).
  2:{ intros t. unfold block. rewrite skipn_skipn. f_equal. f_equal. lia. }
  rewrite IHk. unfold block. simpl (0 * r)%nat. simpl skipn.
  replace (S k * r)%nat with (r + k * r)%nat by lia.
  rewrite <- (firstn_skipn r (firstn (r + k * r) v)).
  rewrite firstn_firstn, Nat.min_l by lia.
  rewrite skipn_firstn_comm. f_equal. f_equal. lia.
Qed.

Lemma agents_of_perm : forall i d d', Permutation d d' -> Permutation (agents_of i d) (agents_of i d').
Proof.
  intros i d d' H. unfold agents_of.
  induction H; simpl.
  - constructor.
  - apply Permutation_app_head. assumption.
  - rewrite !app_assoc. apply Permutation_app_tail, Permutation_app_comm.
  - eapply perm_trans; eassumption.
Qed.

Lemma total_gain_perm : forall d d', Permutation d d' -> total_gain d == total_gain d'.
Proof. intros. unfold total_gain. apply Qsum_perm. apply Permutation_map. assumption. Qed.

(** The deals returned, in structured form. *)
Definition sorted_deals (m : market) (recipe : list nat) (k : nat) : list deal :=
  sort_by (fun d => Qsum (concat d)) (ps_deals m recipe k).

Lemma sorted_deals_flat : forall m recipe k,
  map (@concat Q) (sorted_deals m recipe k)
  = sort_by Qsum (map (fun t => concat (ps_deal m recipe t)) (seq 0 k)).
Proof.
  intros. unfold sorted_deals, ps_deals. rewrite (sort_by_map _ _ (@concat Q) Qsum).
  rewrite map_map. reflexivity.
Qed.

Lemma sorted_deals_perm : forall m recipe k,
  Permutation (sorted_deals m recipe k) (ps_deals m recipe k).
Proof. intros. apply sort_by_perm. Qed.

Lemma drop_values : forall m recipe k i c' , nth_error (drop_ps k m recipe) i = Some c' ->
  exists c r, nth_error m i = Some c /\ nth_error recipe i = Some r
    /\ cvalues c' = skipn (k * r) (cvalues c) /\ cname c' = cname c.
Proof.
  intros m recipe k i c' H. unfold drop_ps in H. apply map2_nth_error_inv in H.
  destruct H as [c [r [H1 [H2 ->]]]]. exists c, r. auto.
Qed.

Lemma clone_nth : forall m i c', nth_error (clone_market m) i = Some c' ->
  exists c, nth_error m i = Some c /\ cname c' = cname c /\ cvalues c' = sort_desc (cvalues c).
Proof.
  intros m i c' H. unfold clone_market in H. rewrite nth_error_map in H.
  destruct (nth_error m i) as [c|]; [|discriminate]. inversion H; subst. exists c. auto.
Qed.

Lemma clone_nth' : forall m i c, nth_error m i = Some c ->
  nth_error (clone_market m) i = Some (clone c).
Proof. intros. unfold clone_market. rewrite nth_error_map, H. reflexivity. Qed.

Lemma feasible_clone : forall m recipe deals,
  feasible m recipe deals <-> feasible (clone_market m) recipe deals.
Proof.
  intros. unfold feasible. split; intros [H1 H2]; split; auto.
  - intros i c Hc. apply clone_nth in Hc. destruct Hc as [c0 [Hc [_ E]]].
    destruct (H2 _ _ Hc) as [rest Hr]. exists rest. rewrite E.
    eapply perm_trans; [exact Hr|apply Permutation_sym, sort_desc_perm].
  - intros i c Hc. apply clone_nth' in Hc. destruct (H2 _ _ Hc) as [rest Hr].
    exists rest. eapply perm_trans; [exact Hr|apply sort_desc_perm].
Qed.

Lemma feasible_deals : forall m recipe k, length recipe = length m -> enough k m recipe ->
  feasible m recipe (sorted_deals m recipe k).
Proof.
  intros m recipe k Hl He. split.
  - eapply Permutation_Forall; [apply Permutation_sym, sorted_deals_perm|].
    unfold ps_deals. apply Forall_forall. intros d Hd. apply in_map_iff in Hd.
    destruct Hd as [t [<- Ht]]. apply in_seq in Ht. apply ps_deal_ok; [assumption|].
    eapply enough_le; [|exact He]. lia.
  - intros i c Hc.
    assert (Hr : exists r, nth_error recipe i = Some r).
    { destruct (nth_error recipe i) eqn:E; [eauto|]. apply nth_error_None in E.
      assert (i < length m)%nat by (apply nth_error_Some; congruence). lia. }
    destruct Hr as [r Hr]. exists (skipn (k * r) (cvalues c)).
    eapply perm_trans; [apply Permutation_app_tail, agents_of_perm, sorted_deals_perm|].
    rewrite (agents_of_ps m recipe k i c r) by assumption. rewrite firstn_skipn.
    apply Permutation_refl.
Qed.

Lemma sorted_deals_gain : forall m recipe k,
  total_gain (sorted_deals m recipe k) == top_gain m recipe k.
Proof.
  intros. rewrite (total_gain_perm _ _ (sorted_deals_perm m recipe k)).
  unfold total_gain, ps_deals, top_gain. rewrite map_map. reflexivity.
Qed.

(** ** C03 *)
Theorem conservation : forall cap m recipe z deals rem,
  optimal_trade cap m recipe z = Ok (deals, rem) ->
  exists D, map (@concat Q) D = deals /\ Forall (deal_ok recipe) D
    /\ length rem = length m
    /\ forall i c c', nth_error m i = Some c -> nth_error rem i = Some c' ->
         cname c' = cname c /\ desc (cvalues c')
         /\ Permutation (agents_of i D ++ cvalues c') (cvalues c).
Proof.
  intros cap m recipe z deals rem H.
  destruct (Nat.eq_dec (length recipe) (length m)) as [Hl|Hl].
  2:{ unfold optimal_trade in H. destruct (Nat.eqb_spec (length recipe) (length m)); [contradiction|discriminate]. }
  destruct (optimal_trade_spec cap m recipe z Hl) as [k [H1 [_ [He _]]]].
  rewrite H1 in H. inversion H; subst. clear H.
  set (m' := clone_market m) in *.
  assert (Hl' : length recipe = length m') by (unfold m'; rewrite clone_length; auto).
  exists (sorted_deals m' recipe k). split; [apply sorted_deals_flat|].
  split; [apply feasible_deals; assumption|].
  split; [unfold m'; rewrite drop_length, clone_length; [reflexivity|rewrite clone_length; auto]|].
  intros i c c' Hc Hc'. apply drop_values in Hc'. destruct Hc' as [c1 [r [Hc1 [Hr [E1 E2]]]]].
  assert (Hd : desc (cvalues c1)) by (eapply sorted_market_nth; [apply clone_sorted|exact Hc1]).
  assert (Hc1' := Hc1). unfold m' in Hc1'. apply clone_nth in Hc1'. destruct Hc1' as [c2 [Hc2 [E3 E4]]].
  assert (c2 = c) by congruence. subst c2.
  split; [congruence|]. split; [rewrite E1; apply desc_skipn; assumption|].
  eapply perm_trans; [apply Permutation_app_tail, agents_of_perm, sorted_deals_perm|].
  rewrite (agents_of_ps m' recipe k i c1 r) by assumption.
  rewrite E1, firstn_skipn, E4. apply sort_desc_perm.
Qed.

(** ** C04 *)
Lemma optimal_trade_acceptable : forall cap m recipe z deals rem,
  optimal_trade cap m recipe z = Ok (deals, rem) ->
  Forall (fun ps => acceptable z (Qsum ps)) deals
  /\ StronglySorted (fun a b => Qsum a <= Qsum b) deals.
Proof.
  intros cap m recipe z deals rem H.
  destruct (Nat.eq_dec (length recipe) (length m)) as [Hl|Hl].
  2:{ unfold optimal_trade in H. destruct (Nat.eqb_spec (length recipe) (length m)); [contradiction|discriminate]. }
  destruct (optimal_trade_spec cap m recipe z Hl) as [k [H1 [_ [He [Ha _]]]]].
  rewrite H1 in H. inversion H; subst. clear H. split.
  - eapply Permutation_Forall; [apply Permutation_sym, sort_by_perm|].
    apply Forall_forall. intros ps Hps. apply in_map_iff in Hps. destruct Hps as [t [<- Ht]].
    apply in_seq in Ht. eapply acceptable_proper; [|apply (Ha t); lia].
    unfold ps_gain. symmetry. apply deal_gain_concat.
  - apply sort_by_sorted.
Qed.

(** Under the cap condition the loop stops because nothing profitable is left. *)
Lemma cap_enough : forall cap m recipe, cap_suffices cap m recipe -> ~ enough (S cap) m recipe.
Proof.
  intros cap m recipe [i [c [r [Hc [Hr [Hpos Hle]]]]]] He.
  specialize (He i c r Hc Hr). nia.
Qed.

Lemma cap_clone : forall cap m recipe, cap_suffices cap m recipe -> cap_suffices cap (clone_market m) recipe.
Proof.
  intros cap m recipe [i [c [r [Hc [Hr [Hpos Hle]]]]]]. exists i, (clone c), r.
  split; [apply clone_nth'; assumption|]. repeat split; auto.
  unfold csize, clone, new_category in *. simpl. rewrite sort_desc_length. assumption.
Qed.

Lemma stop_reason : forall cap k m recipe z, cap_suffices cap m recipe -> stops_at cap k m recipe z ->
  enough (S k) m recipe -> ~ acceptable z (ps_gain m recipe k).
Proof.
  intros cap k m recipe z Hc [H1 [H2 [H3 H4]]] He. destruct H4 as [->|[H4|H4]]; auto.
  - exfalso. eapply cap_enough; eassumption.
Qed.

(** Any procurement set that can be built from a market has at most the gain of its first one. *)
Lemma single_deal_bound : forall m recipe d, length recipe = length m -> sorted_market m ->
  feasible m recipe [d] -> deal_gain d <= ps_gain m recipe 0.
Proof.
  intros m recipe d Hl Hs Hf. assert (H := feasible_bound _ _ _ Hl Hs Hf).
  unfold total_gain, top_gain in H. simpl in H. lra.
Qed.

Lemma drop_sorted : forall k m recipe, sorted_market m -> sorted_market (drop_ps k m recipe).
Proof.
  intros k m recipe H. unfold sorted_market. apply Forall_forall. intros c Hc.
  apply In_nth_error in Hc. destruct Hc as [i Hi]. apply drop_values in Hi.
  destruct Hi as [c0 [r [H1 [H2 [-> _]]]]]. apply desc_skipn. eapply sorted_market_nth; eassumption.
Qed.

Theorem exhaustive : forall cap m recipe z deals rem,
  optimal_trade cap m recipe z = Ok (deals, rem) -> cap_suffices cap m recipe ->
  forall d, feasible rem recipe [d] -> ~ acceptable z (deal_gain d).
Proof.
  intros cap m recipe z deals rem H Hcap d Hf.
  destruct (Nat.eq_dec (length recipe) (length m)) as [Hl|Hl].
  2:{ unfold optimal_trade in H. destruct (Nat.eqb_spec (length recipe) (length m)); [contradiction|discriminate]. }
  destruct (optimal_trade_spec cap m recipe z Hl) as [k [H1 Hst]].
  rewrite H1 in H. inversion H; subst. clear H.
  set (m' := clone_market m) in *.
  assert (Hl' : length recipe = length m') by (unfold m'; rewrite clone_length; auto).
  assert (Hld : length recipe = length (drop_ps k m' recipe)) by (rewrite drop_length; auto).
  assert (He : enough (S k) m' recipe).
  { apply (enough_drop 1 k m' recipe Hl'); [apply Hst|].
    apply feasible_enough in Hf; assumption. }
  assert (Hn : ~ acceptable z (ps_gain m' recipe k))
    by exact (stop_reason _ _ _ _ _ (cap_clone _ _ _ Hcap) Hst He).
  assert (Hb : deal_gain d <= ps_gain m' recipe k).
  { rewrite <- (Nat.add_0_l k), <- ps_gain_drop.
    apply single_deal_bound; auto. apply drop_sorted, clone_sorted. }
  intros Ha. apply Hn. clear Hn. unfold acceptable in *. destruct z; lra.
Qed.

(** ** C05, C06 *)

(** Past the stopping point every procurement set is unacceptable. *)
Lemma later_unacceptable : forall cap k m recipe z, sorted_market m -> cap_suffices cap m recipe ->
  stops_at cap k m recipe z -> forall t, (k <= t)%nat -> enough (S t) m recipe ->
  ~ acceptable z (ps_gain m recipe t).
Proof.
  intros cap k m recipe z Hs Hc Hst t Ht He Ha.
  apply (stop_reason _ _ _ _ _ Hc Hst).
  - eapply enough_le; [|exact He]. lia.
  - assert (H := ps_gain_mono m recipe k t Hs Ht He). destruct z; simpl in *; lra.
Qed.

Lemma top_gain_after : forall cap k m recipe z, sorted_market m -> cap_suffices cap m recipe ->
  stops_at cap k m recipe z -> forall n, enough (k + n) m recipe ->
  top_gain m recipe (k + n) <= top_gain m recipe k
  /\ (z = true -> (0 < n)%nat -> top_gain m recipe (k + n) < top_gain m recipe k).
Proof.
  intros cap k m recipe z Hs Hc Hst. induction n; intros He.
  - rewrite Nat.add_0_r. split; [lra|lia].
  - rewrite Nat.add_succ_r in *.
    assert (Hn := later_unacceptable _ _ _ _ _ Hs Hc Hst (k + n)%nat ltac:(lia) He).
    destruct IHn as [IH1 IH2]; [eapply enough_le; [|exact He]; lia|].
    rewrite top_gain_S. destruct z; simpl in Hn.
    + split; intros; lra.
    + split; [lra|discriminate].
Qed.

Lemma top_gain_before : forall k m recipe z, 
  (forall t, (t < k)%nat -> acceptable z (ps_gain m recipe t)) ->
  forall n, (n <= k)%nat -> top_gain m recipe n <= top_gain m recipe k
  /\ (z = false -> (n < k)%nat -> top_gain m recipe n < top_gain m recipe k).
Proof.
  intros k m recipe z. induction k as [|k IH]; intros Ha n Hn.
  - replace n with 0%nat by lia. split; [lra|lia].
  - assert (A : acceptable z (ps_gain m recipe k)) by (apply Ha; lia).
    rewrite top_gain_S.
    destruct (Nat.eq_dec n (S k)) as [->|Hne].
    + rewrite top_gain_S. split; [lra|lia].
    + destruct (IH ltac:(intros; apply Ha; lia) n ltac:(lia)) as [I1 I2].
      destruct z; simpl in A.
      * split; [lra|discriminate].
      * split; [lra|]. intros _ _. lra.
Qed.

Lemma top_gain_max : forall cap k m recipe z, sorted_market m -> cap_suffices cap m recipe ->
  stops_at cap k m recipe z -> forall n, enough n m recipe -> top_gain m recipe n <= top_gain m recipe k.
Proof.
  intros cap k m recipe z Hs Hc Hst n He.
  destruct (le_lt_dec n k) as [H|H].
  - apply (top_gain_before k m recipe z); [apply Hst|assumption].
  - replace n with (k + (n - k))%nat in * by lia. eapply top_gain_after; eassumption.
Qed.

Lemma mt_gain_flat : forall D, mt_gain_from_trade (map (@concat Q) D) == total_gain D.
Proof.
  intros. unfold mt_gain_from_trade, total_gain. rewrite map_map.
  apply Qsum_map_ext. intros d _. apply deal_gain_concat.
Qed.

Theorem optimality : forall cap m recipe z deals rem,
  optimal_trade cap m recipe z = Ok (deals, rem) -> cap_suffices cap m recipe ->
  (exists D, map (@concat Q) D = deals /\ optimal m recipe D)
  /\ forall D', feasible m recipe D' -> total_gain D' <= mt_gain_from_trade deals.
Proof.
  intros cap m recipe z deals rem H Hcap.
  destruct (Nat.eq_dec (length recipe) (length m)) as [Hl|Hl].
  2:{ unfold optimal_trade in H. destruct (Nat.eqb_spec (length recipe) (length m)); [contradiction|discriminate]. }
  destruct (optimal_trade_spec cap m recipe z Hl) as [k [H1 Hst]].
  rewrite H1 in H. inversion H; subst. clear H.
  set (m' := clone_market m) in *.
  assert (Hl' : length recipe = length m') by (unfold m'; rewrite clone_length; auto).
  assert (Hmax : forall D', feasible m recipe D' -> total_gain D' <= total_gain (sorted_deals m' recipe k)).
  { intros D' Hf. apply feasible_clone in Hf. fold m' in Hf.
    rewrite sorted_deals_gain.
    eapply Qle_trans; [apply (feasible_bound m' recipe); [exact Hl'|apply clone_sorted|exact Hf]|].
    eapply top_gain_max; [apply clone_sorted|apply cap_clone; eassumption|exact Hst|].
    apply feasible_enough; assumption. }
  split.
  - exists (sorted_deals m' recipe k). split; [apply sorted_deals_flat|].
    split; [|exact Hmax]. apply feasible_clone. apply feasible_deals; [assumption|apply Hst].
  - intros D' Hf. rewrite <- sorted_deals_flat, mt_gain_flat. auto.
Qed.

Lemma sorted_deals_length : forall m recipe k, length (sorted_deals m recipe k) = k.
Proof.
  intros. rewrite (Permutation_length (sorted_deals_perm m recipe k)).
  unfold ps_deals. rewrite map_length, seq_length. reflexivity.
Qed.

Theorem zero_flag : forall cap m recipe dealsT remT dealsF remF,
  optimal_trade cap m recipe true = Ok (dealsT, remT) ->
  optimal_trade cap m recipe false = Ok (dealsF, remF) ->
  cap_suffices cap m recipe ->
  mt_gain_from_trade dealsT == mt_gain_from_trade dealsF
  /\ forall D, optimal m recipe D ->
       (mt_num_of_deals dealsF <= length D <= mt_num_of_deals dealsT)%nat.
Proof.
  intros cap m recipe dealsT remT dealsF remF HT HF Hcap.
  destruct (optimality _ _ _ _ _ _ HT Hcap) as [[DT [ET OT]] MT].
  destruct (optimality _ _ _ _ _ _ HF Hcap) as [[DF [EF OF]] MF].
  split.
  - apply Qle_antisym.
    + rewrite <- ET, mt_gain_flat. apply MF. apply OT.
    + rewrite <- EF, mt_gain_flat. apply MT. apply OF.
  - intros D HD.
    destruct (Nat.eq_dec (length recipe) (length m)) as [Hl|Hl].
    2:{ unfold optimal_trade in HT. destruct (Nat.eqb_spec (length recipe) (length m)); [contradiction|discriminate]. }
    destruct (optimal_trade_spec cap m recipe true Hl) as [kT [H1 HstT]].
    destruct (optimal_trade_spec cap m recipe false Hl) as [kF [H2 HstF]].
    set (m' := clone_market m) in *.
    assert (Hl' : length recipe = length m') by (unfold m'; rewrite clone_length; auto).
    assert (HsM : sorted_market m') by apply clone_sorted.
    assert (HcM := cap_clone _ _ _ Hcap). fold m' in HcM.
    rewrite H1 in HT. rewrite H2 in HF. inversion HT; inversion HF; subst.
    unfold mt_num_of_deals.
    rewrite <- !sorted_deals_flat, !map_length, !sorted_deals_length.
    destruct HD as [Hf Hmax].
    assert (Hf' := Hf). apply feasible_clone in Hf'. fold m' in Hf'.
    assert (He := feasible_enough _ _ _ Hl' Hf').
    assert (Hb := feasible_bound _ _ _ Hl' HsM Hf').
    assert (GT : top_gain m' recipe kT <= total_gain D).
    { rewrite <- sorted_deals_gain. apply Hmax. apply feasible_clone. apply feasible_deals; [assumption|apply HstT]. }
    assert (GF : top_gain m' recipe kF <= total_gain D).
    { rewrite <- sorted_deals_gain. apply Hmax. apply feasible_clone. apply feasible_deals; [assumption|apply HstF]. }
    split.
    + destruct (le_lt_dec kF (length D)) as [H|H]; [assumption|exfalso].
      destruct HstF as [F1 [F2 [F3 F4]]].
      destruct (top_gain_before kF m' recipe false F3 (length D) ltac:(lia)) as [_ X].
      specialize (X eq_refl H). lra.
    + destruct (le_lt_dec (length D) kT) as [H|H]; [assumption|exfalso].
      assert (E : exists n, length D = (kT + n)%nat /\ (0 < n)%nat) by (exists (length D - kT)%nat; lia).
      destruct E as [n [E En]]. rewrite E in He, Hb.
      destruct (top_gain_after _ _ _ _ _ HsM HcM HstT _ He) as [_ X].
      specialize (X eq_refl En). lra.
Qed.

Theorem optimal_trade_errors : forall cap m recipe z,
  (exists r, optimal_trade cap m recipe z = Ok r /\ length recipe = length m)
  \/ (optimal_trade cap m recipe z = Raise ValueError /\ length recipe <> length m).
Proof.
  intros. destruct (Nat.eq_dec (length recipe) (length m)) as [Hl|Hl].
  - left. destruct (optimal_trade_spec cap m recipe z Hl) as [k [H1 _]]. eauto.
  - right. split; [|assumption]. unfold optimal_trade.
    destruct (Nat.eqb_spec (length recipe) (length m)); [contradiction|reflexivity].
Qed.
