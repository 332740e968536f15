(** * Initial prices of the integer versions (C42) *)

From Coq Require Import String List Arith Lia QArith Lqa Permutation Sorted Bool.
From Verif Require Import Base Model_Agents Model_Trade Model_Prices Model_Market Model_RecipeTree Model_TreeAuction
  Model_IntPrices Model_IntTree Model_IntAuction
  Spec_Market Spec_RecipeTree Spec_TreeAuction Spec_Int Proof_Tree Proof_Tree2 Proof_Tree3 Proof_TA1 Proof_TA2.
Import ListNotations.
Open Scope Q_scope.

Lemma last_used_spec : forall r n o, last_used r n = Ok o ->
  match o with
  | Some j => (j < n)%nat /\ (j < length r)%nat /\ (0 < nth j r 0)%nat /\ forall k, (j < k < n)%nat -> nth k r 0%nat = 0%nat
  | None => forall k, (k < n)%nat -> nth k r 0%nat = 0%nat
  end.
Proof.
  intros r. induction n as [|n IH]; intros o H; simpl in H.
  - injection H; intros <-. intros k Hk. lia.
  - apply bind_Ok in H. destruct H as [a [Ha H]]. apply get_Ok in Ha.
    assert (Hn : (n < length r)%nat) by (apply nth_error_Some; congruence).
    apply (nth_error_nth _ _ 0%nat) in Ha.
    destruct (Nat.ltb_spec 0 a).
    + injection H; intros <-. rewrite Ha. split; [lia|]. split; [assumption|]. split; [assumption|]. intros k Hk. lia.
    + specialize (IH o H). destruct o as [j|].
      * destruct IH as (A & B & C & D). split; [lia|]. split; [assumption|]. split; [assumption|].
        intros k Hk. destruct (Nat.eq_dec k n) as [->|]; [lia|]. apply D. lia.
      * intros k Hk. destruct (Nat.eq_dec k n) as [->|]; [lia|]. apply IH. lia.
Qed.

Lemma last_used_ok : forall r n, (n <= length r)%nat -> exists o, last_used r n = Ok o.
Proof.
  intros r. induction n as [|n IH]; intros H; simpl; [eauto|].
  rewrite (get_lt _ _ _ 0%nat) by lia. cbn [bind]. destruct (0 <? nth n r 0)%nat; [eauto|]. apply IH. lia.
Qed.

Lemma last_used_last : forall r j, last_category r j -> last_used r (length r) = Ok (Some j).
Proof.
  intros r j [A B]. assert (Hj : (j < length r)%nat).
  { destruct (Nat.lt_ge_cases j (length r)); [assumption|]. rewrite nth_overflow in A by assumption. lia. }
  destruct (last_used_ok r (length r) (le_n _)) as [o E]. assert (S := last_used_spec _ _ _ E). rewrite E.
  destruct o as [k|].
  - destruct S as (S1 & S2 & S3 & S4). destruct (Nat.lt_trichotomy j k) as [L|[->|L]]; [|reflexivity|].
    + rewrite B in S3 by assumption. lia.
    + rewrite S4 in A by lia. lia.
  - rewrite S in A by assumption. lia.
Qed.

Lemma last_category_unique : forall r j k, last_category r j -> last_category r k -> j = k.
Proof. intros r j k A B. apply last_used_last in A. apply last_used_last in B. congruence. Qed.

(** The price of the last category of a recipe. *)
Definition last_price (bound : Q) (D : nat) (r : list nat) (j : nat) : Q :=
  bound * Qn (D - nsum r + nth j r 0%nat) / Qn (nth j r 0%nat).

Lemma last_price_le : forall bound D r j, bound <= 0 -> (0 < nth j r 0)%nat -> last_price bound D r j <= bound.
Proof.
  intros bound D r j Hb Hr. unfold last_price. set (a := nth j r 0%nat) in *.
  assert (Ha : 0 < Qn a) by (apply Qn_pos; assumption).
  apply Qle_shift_div_r; [assumption|]. rewrite Qn_plus.
  assert (0 <= Qn (D - nsum r)) by apply Qn_nonneg. nra.
Qed.

Lemma Forall_set_nth : forall A (P : A -> Prop) i x l, Forall P l -> P x -> Forall P (set_nth i x l).
Proof.
  intros A P. induction i as [|i IH]; intros x [|a l] H Hx; simpl; try constructor; inversion H; subst; auto.
Qed.

Lemma initial_loop_bound : forall bound n D rs prices p, bound <= 0 -> Forall (fun q => q <= bound) prices ->
  initial_loop bound n D rs prices = Ok p -> length p = length prices /\ Forall (fun q => q <= bound) p.
Proof.
  intros bound n D. induction rs as [|r rs IH]; intros prices p Hb HF H; simpl in H.
  - injection H; intros <-. auto.
  - apply bind_Ok in H. destruct H as [o [Ho H]]. apply last_used_spec in Ho. destruct o as [j|]; [|auto].
    destruct Ho as (A & B & C & _). rewrite (get_lt _ _ _ 0%nat) in H by assumption. cbn [bind] in H.
    apply bind_Ok in H. destruct H as [q [Hq H]]. destruct (Qeq_bool q bound); [|discriminate].
    apply IH in H; [|assumption|].
    + rewrite set_nth_length in H. assumption.
    + apply Forall_set_nth; [assumption|]. apply (last_price_le bound D r j); assumption.
Qed.

Theorem int_initial_upper : forall r0 rs bound p, bound <= 0 -> int_initial_prices (r0 :: rs) bound = Ok p ->
  length p = length r0 /\ Forall (fun q => q <= bound) p.
Proof.
  intros r0 rs bound p Hb H. unfold int_initial_prices in H. apply initial_loop_bound in H; [|assumption|].
  - rewrite repeat_length in H. assumption.
  - rewrite Forall_forall. intros x Hx. apply repeat_spec in Hx. rewrite Hx. lra.
Qed.

Lemma private_tail : forall r rs, private_last (r :: rs) -> private_last rs.
Proof. intros r rs H l1 r1 l2 r2 l3 j E. apply (H (r :: l1) r1 l2 r2 l3). rewrite E. reflexivity. Qed.

Lemma private_head : forall r rs r' j, private_last (r :: rs) -> In r' rs ->
  (last_category r j -> nth j r' 0%nat = 0%nat) /\ (last_category r' j -> nth j r 0%nat = 0%nat).
Proof. intros r rs r' j H Hr. apply in_split in Hr. destruct Hr as (l1 & l2 & ->). apply (H [] r l1 r' l2 j). reflexivity. Qed.

Lemma initial_loop_private : forall bound n D rs prices, length prices = n ->
  (forall r, In r rs -> length r = n /\ exists j, last_category r j) -> private_last rs ->
  (forall r j, In r rs -> last_category r j -> nth j prices 0 = bound) ->
  exists p, initial_loop bound n D rs prices = Ok p /\ length p = n
    /\ (forall k, (forall r, In r rs -> ~ last_category r k) -> nth k p 0 = nth k prices 0)
    /\ (forall r j, In r rs -> last_category r j -> nth j p 0 = last_price bound D r j).
Proof.
  intros bound n D. induction rs as [|r rs IH]; intros prices HL HR HP HB.
  - exists prices. split; [reflexivity|]. split; [assumption|]. split; [reflexivity|]. intros r j [].
  - destruct (HR r (or_introl eq_refl)) as [Hrl [j Hj]].
    assert (Hjn : (j < n)%nat).
    { destruct (Nat.lt_ge_cases j n); [assumption|]. destruct Hj as [Hj _]. rewrite nth_overflow in Hj by lia. lia. }
    destruct (IH (set_nth j (last_price bound D r j) prices)) as (p & E & L & K & V).
    { rewrite set_nth_length. assumption. }
    { intros r' Hr'. apply HR. right. assumption. }
    { eapply private_tail. eassumption. }
    { intros r' k Hr' Hk. rewrite nth_set_nth_other; [apply (HB r'); [right; assumption|assumption]|].
      intros ->. destruct (private_head _ _ _ k HP Hr') as [_ X]. specialize (X Hk). destruct Hj as [Hj _]. lia. }
    exists p. split; [|split; [assumption|split]].
    + cbn [initial_loop]. rewrite <- Hrl at 1. rewrite (last_used_last r j) by assumption. cbn [bind].
      rewrite (get_lt _ _ _ 0%nat) by lia. cbn [bind]. rewrite (get_lt _ _ _ 0) by lia. cbn [bind].
      rewrite (HB r j (or_introl eq_refl) Hj). rewrite (proj2 (Qeq_bool_iff bound bound)) by reflexivity. exact E.
    + intros k Hk. rewrite K by (intros; apply Hk; right; assumption). apply nth_set_nth_other. intros ->.
      apply (Hk r (or_introl eq_refl)). assumption.
    + intros r' k [<-|Hr'] Hk.
      * assert (k = j) by (eapply last_category_unique; eassumption). subst k.
        rewrite K; [apply nth_set_nth_same; lia|]. intros r' Hr' Hl.
        destruct (private_head _ _ _ j HP Hr') as [X _]. destruct Hl as [Hl _]. rewrite X in Hl by assumption. lia.
      * apply V; assumption.
Qed.

Lemma dot_const : forall b r p, length p = length r -> (forall k, (0 < nth k r 0)%nat -> nth k p 0 = b) ->
  dot p r == b * Qn (nsum r).
Proof.
  induction r as [|a r IH]; intros [|x p] HL H; simpl in HL; try lia.
  - simpl. rewrite Qn_0. ring.
  - simpl. rewrite (IH p) by (try lia; intros k Hk; apply (H (S k)); assumption).
    rewrite Qn_plus. destruct a as [|a].
    + rewrite Qn_0. ring.
    + specialize (H 0%nat). simpl in H. rewrite H by lia. ring.
Qed.

Lemma nsum_nth_le : forall l i, (nth i l 0 <= nsum l)%nat.
Proof. induction l as [|a l IH]; intros [|i]; simpl; try lia. specialize (IH i). lia. Qed.

Theorem int_initial_equal : forall rs bound n, rs <> [] ->
  (forall r, In r rs -> length r = n /\ exists j, last_category r j) -> private_last rs ->
  exists p, int_initial_prices rs bound = Ok p /\ length p = n
    /\ forall r, In r rs -> dot p r == bound * Qn (max_weight rs).
Proof.
  intros rs bound n HN HR HP. destruct rs as [|r0 rs]; [congruence|]. unfold int_initial_prices. fold (max_weight (r0 :: rs)).
  destruct (HR r0 (or_introl eq_refl)) as [HL0 _]. rewrite HL0. set (all := r0 :: rs) in *.
  destruct (initial_loop_private bound n (max_weight all) all (repeat bound n)) as (p & E & L & K & V).
  { apply repeat_length. }
  { exact HR. }
  { exact HP. }
  { intros r j Hr Hj. destruct (HR r Hr) as [Hl _]. assert ((j < n)%nat).
    { destruct (Nat.lt_ge_cases j n); [assumption|]. destruct Hj as [Hj _]. rewrite nth_overflow in Hj by lia. lia. }
    rewrite (nth_indep _ 0 bound) by (rewrite repeat_length; assumption). apply nth_repeat. }
  exists p. split; [exact E|]. split; [exact L|]. intros r Hr. destruct (HR r Hr) as [Hl [j Hj]].
  assert (Hjn : (j < n)%nat).
  { destruct (Nat.lt_ge_cases j n); [assumption|]. destruct Hj as [Hj _]. rewrite nth_overflow in Hj by lia. lia. }
  assert (D1 : dot (set_nth j bound p) r == bound * Qn (nsum r)).
  { apply dot_const; [rewrite set_nth_length; lia|]. intros k Hk. destruct (Nat.eq_dec k j) as [->|Hkj].
    - apply nth_set_nth_same. lia.
    - rewrite nth_set_nth_other by (intros X; apply Hkj; congruence).
      rewrite K.
      + assert ((k < n)%nat). { destruct (Nat.lt_ge_cases k n); [assumption|]. rewrite nth_overflow in Hk by lia. lia. }
        rewrite (nth_indep _ 0 bound) by (rewrite repeat_length; assumption). apply nth_repeat.
      + intros r' Hr' Hl'. apply in_split in Hr. destruct Hr as (l1 & l2 & Er). unfold all in *. rewrite Er in Hr', HP.
        apply in_app_or in Hr'. destruct Hr' as [Hr'|[<-|Hr']].
        * apply in_split in Hr'. destruct Hr' as (a & b & ->). rewrite <- app_assoc in HP. simpl in HP.
          destruct (HP a r' b r l2 k eq_refl) as [X _]. rewrite X in Hk by assumption. lia.
        * apply Hkj. eapply last_category_unique; eassumption.
        * apply in_split in Hr'. destruct Hr' as (a & b & ->).
          destruct (HP l1 r a r' b k eq_refl) as [_ X]. rewrite X in Hk by assumption. lia. }
  rewrite dot_set_nth in D1 by lia. rewrite (V r j Hr Hj) in D1. unfold last_price in D1.
  set (a := nth j r 0%nat) in *. assert (Ha : (0 < a)%nat) by (destruct Hj; assumption).
  assert (Qa : 0 < Qn a) by (apply Qn_pos; assumption).
  assert (Hw : (nsum r <= max_weight all)%nat).
  { unfold max_weight. assert (In (nsum r) (map nsum all)) by (apply in_map; assumption).
    revert H. generalize (map nsum all). induction l as [|x l IH]; [intros []|]. intros [->|H]; simpl; [lia|]. specialize (IH H). lia. }
  assert (Hq : Qn (max_weight all - nsum r + a) == Qn (max_weight all) - Qn (nsum r) + Qn a).
  { assert (X : Qn (max_weight all - nsum r + a) + Qn (nsum r) == Qn (max_weight all) + Qn a).
    { rewrite <- !Qn_plus. apply Qn_eq. lia. } lra. }
  assert (F : bound * Qn (max_weight all - nsum r + a) / Qn a * Qn a == bound * Qn (max_weight all - nsum r + a)).
  { field. lra. }
  rewrite Hq in F.
  assert (G : (bound - bound * Qn (max_weight all - nsum r + a) / Qn a) * Qn a ==
              bound * Qn a - bound * Qn (max_weight all - nsum r + a) / Qn a * Qn a) by ring.
  rewrite G in D1. rewrite Hq in D1. rewrite F in D1. lra.
Qed.

(** ** Trees *)

Lemma fill_counts : forall path n counts recipe, counts <> [] -> length counts = n -> length recipe = n ->
  Forall (fun i => (i < n)%nat) path ->
  exists r, fill_recipe path counts recipe = Ok r /\ length r = n
    /\ forall i, nth i r 0%nat = if existsb (Nat.eqb i) path then nth i counts 0%nat else nth i recipe 0%nat.
Proof.
  induction path as [|j path IH]; intros n counts recipe HN HC HR HF.
  - exists recipe. simpl. auto.
  - inversion HF as [|? ? Hj HF']; subst. cbn [fill_recipe].
    destruct counts as [|c0 cs] eqn:EC; [congruence|]. rewrite <- EC in *. clear EC.
    rewrite (get_lt _ _ _ 0%nat) by lia. cbn [bind]. rewrite (get_lt _ _ _ 0%nat) by lia. cbn [bind].
    destruct (IH (length counts) counts (set_nth j (nth j counts 0%nat) recipe)) as (r & E & L & N);
      [assumption|reflexivity|rewrite set_nth_length; assumption|assumption|].
    exists r. split; [exact E|]. split; [exact L|]. intros i. rewrite N. cbn [existsb].
    destruct (Nat.eqb_spec i j) as [->|Hij].
    + cbn [orb]. destruct (existsb (Nat.eqb j) path); [reflexivity|]. apply nth_set_nth_same. lia.
    + cbn [orb]. destruct (existsb (Nat.eqb i) path); [reflexivity|]. apply nth_set_nth_other. congruence.
Qed.

(** With counts for all [n] categories the recipes are those of the paths. *)
Lemma int_recipes_spec : forall n counts t, (counts = [] \/ length counts = n) -> indices_in_range n t ->
  exists rs, int_recipes n counts t = Ok rs /\ Forall2 (int_path_recipe n counts) (root_leaf_paths t) rs.
Proof.
  intros n counts t HC HR. unfold int_recipes. rewrite paths_to_leaf_spec.
  apply map_result_Forall2. intros p Hp. apply root_leaf_paths_In in Hp.
  assert (HF : Forall (fun i => (i < n)%nat) p).
  { rewrite Forall_forall. intros i Hi. unfold indices_in_range in HR. rewrite Forall_forall in HR.
    apply HR. eapply is_path_indices; eassumption. }
  assert (Hn : (0 < n)%nat) by (inversion Hp; subst; inversion HF; lia).
  set (dc := default_counts counts n).
  assert (DL : length dc = n).
  { unfold dc, default_counts. destruct counts; [apply repeat_length|]. destruct HC; [discriminate|assumption]. }
  assert (DN : dc <> []) by (intros X; rewrite X in DL; simpl in DL; lia).
  destruct (fill_counts p n dc (repeat 0%nat n) DN DL (repeat_length _ _) HF) as (r & E & L & N).
  exists r. split; [exact E|]. split; [exact L|]. intros i Hi.
  assert (X : nth_error r i = Some (nth i r 0%nat)) by (apply nth_error_nth'; lia). rewrite X. split.
  - intros Hin. rewrite N. apply existsb_eqb_In in Hin. rewrite Hin. f_equal. unfold dc, default_counts, count_at.
    destruct counts; [|reflexivity]. rewrite (nth_indep _ 0%nat 1%nat) by (rewrite repeat_length; assumption). apply nth_repeat.
  - intros Hin. rewrite N. rewrite nth_repeat_zero. destruct (existsb (Nat.eqb i) p) eqn:Ex; [|reflexivity].
    apply existsb_eqb_In in Ex. contradiction.
Qed.

Lemma concat_same : forall A B (f : A -> list B) l a b x, NoDup (concat (map f l)) -> In a l -> In b l ->
  In x (f a) -> In x (f b) -> a = b.
Proof.
  intros A B f. induction l as [|c l IH]; intros a b x ND Ha Hb Hxa Hxb; [destruct Ha|].
  simpl in ND. destruct (NoDup_app_inv _ _ _ ND) as (N1 & N2 & N3).
  assert (K : forall y, In y l -> In x (f y) -> In x (concat (map f l))).
  { intros y Hy Hx. apply in_concat. exists (f y). split; [apply in_map; assumption|assumption]. }
  destruct Ha as [<-|Ha], Hb as [<-|Hb].
  - reflexivity.
  - exfalso. eapply N3; [exact Hxa|]. eapply K; eassumption.
  - exfalso. eapply N3; [exact Hxb|]. eapply K; eassumption.
  - eapply IH; eassumption.
Qed.

(** In a distinct tree a leaf is on one path only. *)
Lemma leaf_path_unique : forall t a j p, distinct_categories t -> is_path t (a ++ [j]) -> is_path t p -> In j p ->
  p = a ++ [j].
Proof.
  intros t. induction t as [i ch IH] using rtree_ind'. intros a j p HD H1 H2 Hj.
  inversion H1 as [i' E1 E2|i' ch' c q Hc Hq E1 E2]; subst.
  - inversion H2 as [|? ? c q Hc]; subst; [reflexivity|destruct Hc].
  - destruct a as [|a0 a]; simpl in E2.
    { injection E2; intros -> _. inversion Hq. }
    injection E2; intros -> ->. clear E2. inversion H2 as [|? ? c' q' Hc' Hq']; subst; [destruct Hc|].
    destruct (distinct_inv _ _ HD) as [Hi ND].
    assert (J1 : In j (node_indices c)).
    { eapply is_path_indices; [exact Hq|]. apply in_or_app. right. left. reflexivity. }
    assert (J2 : j <> a0).
    { intros ->. apply Hi. apply in_concat. exists (node_indices c). split; [apply in_map; assumption|assumption]. }
    destruct Hj as [->|Hj]; [congruence|].
    assert (c = c').
    { eapply (concat_same _ _ node_indices ch c c' j); try eassumption. eapply is_path_indices; eassumption. }
    subst c'. rewrite Forall_forall in IH. rewrite (IH c Hc a j q'); try assumption; [reflexivity|].
    eapply distinct_child; eassumption.
Qed.

Lemma path_snoc : forall t p, is_path t p -> exists a j, p = a ++ [j].
Proof.
  intros t p H. assert (p <> []) by (inversion H; discriminate).
  exists (removelast p), (last p 0%nat). apply app_removelast_last. assumption.
Qed.

Lemma recipe_last : forall n counts t a j r, positive_counts counts t -> indices_in_range n t -> leaf_last t ->
  is_path t (a ++ [j]) -> int_path_recipe n counts (a ++ [j]) r -> last_category r j.
Proof.
  intros n counts t a j r HP HR HL Hp [HLr HI].
  assert (Hj : In j (node_indices t)) by (eapply is_path_indices; [exact Hp|apply in_or_app; right; left; reflexivity]).
  assert (Hjn : (j < n)%nat) by (unfold indices_in_range in HR; rewrite Forall_forall in HR; auto).
  split.
  - destruct (HI j Hjn) as [A _]. assert (A' : nth_error r j = Some (count_at counts j)) by (apply A, in_or_app; right; left; reflexivity).
    apply (nth_error_nth _ _ 0%nat) in A'. rewrite A'. auto.
  - intros k Hk. destruct (Nat.lt_ge_cases k n) as [Hkn|Hkn]; [|apply nth_overflow; lia].
    destruct (HI k Hkn) as [_ B]. apply nth_error_nth. apply B. intros X. apply in_app_or in X.
    destruct X as [X|[->|[]]]; [|lia]. specialize (HL a k j Hp X). lia.
Qed.

Lemma Forall2_app_inv_r' : forall A B (R : A -> B -> Prop) l l1 x l2, Forall2 R l (l1 ++ x :: l2) ->
  exists m1 y m2, l = m1 ++ y :: m2 /\ Forall2 R m1 l1 /\ R y x /\ Forall2 R m2 l2.
Proof.
  intros A B R l l1 x l2 H. apply Forall2_app_inv_r in H. destruct H as (m1 & m2 & H1 & H2 & ->).
  inversion H2; subst. eauto 8.
Qed.

Theorem int_initial_tree : forall n counts t rs bound, distinct_categories t -> positive_counts counts t ->
  indices_in_range n t -> leaf_last t -> (counts = [] \/ length counts = n) -> int_recipes n counts t = Ok rs ->
  exists p, int_initial_prices rs bound = Ok p /\ length p = n
    /\ (bound <= 0 -> Forall (fun q => q <= bound) p) /\ equal_sums rs p (bound * Qn (max_weight rs)).
Proof.
  intros n counts t rs bound HD HP HR HL HC E.
  destruct (int_recipes_spec n counts t HC HR) as (rs' & E' & F). rewrite E in E'. injection E'; intros <-. clear E'.
  assert (HN : rs <> []).
  { intros ->. inversion F as [X|]. symmetry in X. eapply paths_nonempty. exact X. }
  assert (PR : private_last rs).
  { intros l1 r1 l2 r2 l3 j Ers. rewrite Ers in F.
    destruct (Forall2_app_inv_r' _ _ _ _ _ _ _ F) as (m1 & p1 & m2 & Ep & _ & P1 & F2).
    destruct (Forall2_app_inv_r' _ _ _ _ _ _ _ F2) as (m3 & p2 & m4 & Em & _ & P2 & _). subst m2.
    assert (ND := paths_distinct t HD). rewrite Ep in ND.
    assert (I1 : is_path t p1) by (apply root_leaf_paths_In; rewrite Ep; apply in_or_app; right; left; reflexivity).
    assert (I2 : is_path t p2).
    { apply root_leaf_paths_In. rewrite Ep. apply in_or_app. right. right. apply in_or_app. right. left. reflexivity. }
    assert (NE : p1 <> p2).
    { intros ->. apply NoDup_remove_2 in ND. apply ND. apply in_or_app. right. apply in_or_app. right. left. reflexivity. }
    assert (G : forall p q r r', is_path t p -> is_path t q -> p <> q -> int_path_recipe n counts p r ->
      int_path_recipe n counts q r' -> last_category r j -> nth j r' 0%nat = 0%nat).
    { clear - HD HP HR HL. intros p q r r' Ip Iq NE Pp Pq Hl. destruct (path_snoc _ _ Ip) as (a & k & ->).
      assert (k = j) by (eapply last_category_unique; [eapply recipe_last; eassumption|assumption]). subst k.
      destruct Pq as [Lq Hq]. destruct (Nat.lt_ge_cases j n) as [Hj|Hj]; [|apply nth_overflow; lia].
      destruct (Hq j Hj) as [_ B]. apply nth_error_nth. apply B. intros X. apply NE. symmetry.
      eapply leaf_path_unique; eassumption. }
    split; [eapply (G p1 p2); eassumption|eapply (G p2 p1); eauto]. }
  destruct (int_initial_equal rs bound n HN) as (p & Ep & Lp & Sp); [|exact PR|].
  { intros r Hr. destruct (Forall2_In_r _ _ _ _ _ _ F Hr) as (q & Hq & Pq). apply root_leaf_paths_In in Hq.
    split; [apply Pq|]. destruct (path_snoc _ _ Hq) as (a & k & ->). exists k. eapply recipe_last; eassumption. }
  exists p. split; [exact Ep|]. split; [exact Lp|]. split; [|exact Sp].
  intros Hb. destruct rs as [|r0 rs]; [congruence|]. apply (int_initial_upper r0 rs); assumption.
Qed.
