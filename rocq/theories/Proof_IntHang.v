(** * C58: a fork with counts (1, 1, c), c >= 3, never ends *)

From Coq Require Import String List Arith Lia QArith Lqa Sorted Permutation.
From Verif Require Import Base Model_Agents Model_Trade Model_Prices Model_Market Model_RecipeTree Model_TreeAuction Model_IntPrices Model_IntTree Model_IntAuction
  Spec_Market.
Import ListNotations.
Open Scope Q_scope.

Definition fork_struct : pystruct := SList [SInt 0; SList [SInt 1; SNone; SInt 2; SNone]].
Definition fork_tree : rtree := Node 0 [Node 1 []; Node 2 []].

Section Fork.
  Variables (M : Q) (c : nat) (c0 c1 : category).
  Hypothesis HM : 0 < M.
  Hypothesis Hc : (3 <= c)%nat.
  Hypothesis H0 : forall v, In v (cvalues c0) -> - M < v.
  Hypothesis H1 : forall v, In v (cvalues c1) -> - M < v.
  Hypothesis N0 : (0 < csize c0)%nat.
  Hypothesis N1 : (csize c0 <= csize c1)%nat.

  Definition counts3 : list nat := [1%nat; 1%nat; c].

  Definition inv (s : int_state) : Prop :=
    exists x p0 p1 p2 vs st, s = ([c0; c1; x], mkISP [[1; 1; 0]; [1; 0; c]]%nat [1; 1; 1]%nat (mkIV [1; 1; 0]%nat [1; 1; 1]%nat [p0; p1; p2] vs) st)
      /\ p0 == - M /\ p2 == p1 + (Qn c - 1) * M /\ p2 <= M
      /\ desc (cvalues x) /\ forall v, In v (cvalues x) -> p2 <= v <= M.

  Lemma c_ge : 3 <= Qn c.
  Proof. unfold Qn, Qle, inject_Z. cbn. lia. Qed.

  Lemma largest_fork : forall x, exists a, int_largest_categories [c0; c1; x] counts3 fork_tree = Ok (a, Qn (csize c0) / Qn 1, [1; 2]%nat).
  Proof.
    intros x. unfold fork_tree, counts3. cbn [int_largest_categories]. unfold size_ratio, size_ceil, count_at, cat_at. cbn [nth map_result bind tindex Nat.eqb].
    destruct (c =? 0)%nat eqn:E; [apply Nat.eqb_eq in E; lia|]. cbn [bind].
    match goal with |- exists a, (if ?b then _ else _) = _ => replace b with false end.
    - cbn [map_result int_largest_categories nsum map fold_right]. unfold size_ratio, count_at, cat_at. cbn [nth bind Nat.eqb map_result].
      rewrite ?E. cbn [bind nsum map fold_right Nat.eqb]. change (nsum [] =? 0)%nat with true. rewrite !Bool.orb_true_r. cbn [bind concat map snd app].
      eexists. reflexivity.
    - symmetry. apply Bool.orb_false_iff. unfold nsum. cbn [fold_right]. unfold ceil_div at 1 3. rewrite !Nat.div_1_r, Nat.add_0_r. split.
      + unfold Qlt_bool. apply Bool.negb_false_iff. apply Qle_bool_iff. change (Qn 1) with 1. unfold Qn. setoid_replace (inject_Z (Z.of_nat (csize c0)) / 1) with (inject_Z (Z.of_nat (csize c0))) by field.
        rewrite <- Zle_Qle. lia.
      + apply Nat.eqb_neq. lia.
  Qed.

  Lemma low_in : forall x l, lowest_agent_value x = Ok l -> desc (cvalues x) -> In l (cvalues x) /\ forall v, In v (cvalues x) -> l <= v.
  Proof.
    intros x l H D. unfold lowest_agent_value in H. destruct (cvalues x) as [|a r] eqn:E; [discriminate|]. injection H as <-.
    clear E. split.
    - clear D. revert a. induction r as [|b r IH]; intros a; [left; reflexivity|]. right. change (last (a :: b :: r) 0) with (last (b :: r) 0). apply IH.
    - revert a D. induction r as [|b r IH]; intros a D v Hv.
      + destruct Hv as [<-|[]]. apply Qle_refl.
      + change (last (a :: b :: r) 0) with (last (b :: r) 0). destruct Hv as [<-|Hv].
        * apply StronglySorted_inv in D. destruct D as [D F]. rewrite Forall_forall in F. eapply Qle_trans; [apply (IH b D b); left; reflexivity|]. apply F. left. reflexivity.
        * apply (IH b); [apply StronglySorted_inv in D; apply D|exact Hv].
  Qed.

  Lemma removelast_in : forall (l : list Q) v, In v (removelast l) -> In v l.
  Proof. intros l. induction l as [|a [|b l] IH]; intros v H; [destruct H|destruct H|]. destruct H as [<-|H]; [left; reflexivity|right; apply IH; exact H]. Qed.

  Lemma removelast_desc : forall l, desc l -> desc (removelast l).
  Proof.
    intros l. unfold desc. induction l as [|a [|b l] IH]; intros H; [constructor|constructor|]. apply StronglySorted_inv in H. destruct H as [H F].
    change (removelast (a :: b :: l)) with (a :: removelast (b :: l)). constructor; [apply IH; exact H|].
    apply Forall_forall. intros v Hv. rewrite Forall_forall in F. apply F. apply removelast_in. exact Hv.
  Qed.

  Lemma nonempty_low : forall x, (0 < csize x)%nat -> exists l, lowest_agent_value x = Ok l.
  Proof. intros x H. unfold lowest_agent_value, csize in *. destruct (cvalues x); cbn in H; [lia|eexists; reflexivity]. Qed.

  Lemma remove_low : forall x, (0 < csize x)%nat -> exists x', remove_lowest_agent x = Ok x' /\ cvalues x' = removelast (cvalues x).
  Proof. intros x H. unfold remove_lowest_agent, csize in *. destruct (cvalues x) eqn:E; cbn in H; [lia|]. eexists. split; [reflexivity|]. reflexivity. Qed.

  Lemma low_mem : forall x l, lowest_agent_value x = Ok l -> In l (cvalues x).
  Proof.
    intros x l H. unfold lowest_agent_value in H. destruct (cvalues x) as [|a r] eqn:E; [discriminate|]. injection H as <-. clear E.
    revert a. induction r as [|b r IH]; intros a; [left; reflexivity|]. right. change (last (a :: b :: r) 0) with (last (b :: r) 0). apply IH.
  Qed.

  Lemma keep_one : forall y p, (forall v, In v (cvalues y) -> p < v) -> 
    (if (0 <? csize y)%nat then low <- lowest_agent_value y ;; if Qle_bool low p then remove_lowest_agent y else Ok y else Ok y) = Ok y.
  Proof.
    intros y p H. destruct (0 <? csize y)%nat eqn:E; [|reflexivity]. apply Nat.ltb_lt in E. destruct (nonempty_low y E) as (l & L). rewrite L. cbn [bind].
    destruct (Qle_bool l p) eqn:B; [|reflexivity]. apply Qle_bool_iff in B. apply low_mem in L. specialize (H l L). lra.
  Qed.

  Lemma step_inv : forall s, inv s -> exists s', int_round M counts3 fork_tree s = Ok (false, s') /\ inv s'.
  Proof.
    intros s (x & p0 & p1 & p2 & vs & st & -> & P0 & P2 & PM & D & V). assert (C := c_ge).
    unfold int_round. destruct (largest_fork x) as (a & L). rewrite L. cbn [bind fst snd].
    assert (NZ : Qeq_bool (Qn (csize c0) / Qn 1) 0 = false).
    { destruct (Qeq_bool (Qn (csize c0) / Qn 1) 0) eqn:E; [|reflexivity]. apply Qeq_bool_iff in E. change (Qn 1) with 1 in E.
      assert (X : Qn (csize c0) == 0) by (rewrite <- E; field). unfold Qn, Qeq, inject_Z in X. cbn in X. lia. }
    rewrite NZ. unfold planned_increases. cbn [map_result get nth_error bind].
    destruct (0 <? csize c1)%nat eqn:E1; [apply Nat.ltb_lt in E1|apply Nat.ltb_ge in E1; lia].
    destruct (nonempty_low c1 E1) as (l1 & L1). rewrite L1. cbn [bind].
    set (t2 := if (0 <? csize x)%nat then low <- lowest_agent_value x ;; Ok (2%nat, low) else Ok (2%nat, M)).
    assert (T : exists l2, t2 = Ok (2%nat, l2) /\ p2 <= l2 <= M /\ (forall v, In v (cvalues x) -> l2 <= v)).
    { unfold t2. destruct (0 <? csize x)%nat eqn:E2.
      - apply Nat.ltb_lt in E2. destruct (nonempty_low x E2) as (l2 & L2). rewrite L2. cbn [bind]. exists l2. split; [reflexivity|].
        destruct (low_in x l2 L2 D) as [I A]. split; [apply V; exact I|exact A].
      - exists M. split; [reflexivity|]. split; [lra|]. apply Nat.ltb_ge in E2. intros v Hv. unfold csize in E2. destruct (cvalues x); [destruct Hv|cbn in E2; lia]. }
    destruct T as (l2 & -> & B2 & A2). cbn [bind].
    assert (B1 : - M < l1) by (apply H1; apply low_mem; exact L1).
    assert (CC : (Qn c - 1) * M >= 2 * M) by nra.
    unfold int_increase_prices. cbn [isp_recipes isp_counts isp_vector map_result int_count_increases get nth_error bind Nat.ltb Nat.leb Nat.eqb].
    assert (E3 : (0 <? c)%nat = true) by (apply Nat.ltb_lt; lia). rewrite ?E3. cbn [bind].
    destruct c as [|[|[|c']]] eqn:Ec; [lia|lia|lia|]. rewrite <- Ec in *. cbn [bind].
    cbn [iv_prices get nth_error bind fst snd].
    unfold int_price_sum. cbn [iv_prices iv_recipe iv_counts dot3].
    match goal with |- context [qmin ?l] => remember (qmin l) as qm eqn:Eqm end.
    assert (Q1 : exists d, qm = Ok d /\ d <= l2 - p2 /\ 0 <= d /\ (d == l2 - p2 \/ d == l1 - p1)).
    { subst qm. unfold qmin. cbn [qmin_from]. eexists. split; [reflexivity|]. destruct (Qlt_bool (l2 - p2) (l1 - p1)) eqn:F.
      - split; [lra|]. split; [lra|]. left. reflexivity.
      - unfold Qlt_bool in F. apply Bool.negb_false_iff in F. apply Qle_bool_iff in F. split; [exact F|]. split; [nra|]. right. reflexivity. }
    destruct Q1 as (d & -> & D1 & D2 & D3). cbn [bind].
    set (u := 0 - _).
    assert (U : d < u).
    { unfold u. change (Qn 1) with 1. change (Qn 0) with 0. nra. }
    assert (F1 : Qlt_bool u d = false).
    { unfold Qlt_bool. apply Bool.negb_false_iff. apply Qle_bool_iff. lra. }
    rewrite F1. assert (F2 : Qeq_bool d u = false) by (destruct (Qeq_bool d u) eqn:F; [apply Qeq_bool_iff in F; lra|reflexivity]). rewrite F2.
    cbn [int_raise_prices get nth_error bind set_nth]. cbn [isp_status isp_vector iv_prices remove_beaten].
    change (Qn 1) with 1.
    rewrite keep_one by (intros v Hv; specialize (H0 v Hv); lra). cbn [bind].
    rewrite keep_one by (intros v Hv; specialize (H1 v Hv); nra). cbn [bind].
    destruct (0 <? csize x)%nat eqn:E2.
    - apply Nat.ltb_lt in E2. destruct (nonempty_low x E2) as (l & Lx). rewrite Lx. cbn [bind]. destruct (low_in x l Lx D) as [I A].
      destruct (Qle_bool l (p2 + d * 1)) eqn:F.
      + destruct (remove_low x E2) as (x' & R & X'). rewrite R. cbn [bind]. eexists. split; [reflexivity|].
        exists x', p0, (p1 + d * 1), (p2 + d * 1). do 2 eexists. split; [reflexivity|]. split; [exact P0|]. split; [lra|]. split; [lra|].
        rewrite X'. split; [apply removelast_desc; exact D|]. intros v Hv. apply removelast_in in Hv. specialize (A2 v Hv). specialize (V v Hv). lra.
      + cbn [bind]. eexists. split; [reflexivity|].
        exists x, p0, (p1 + d * 1), (p2 + d * 1). do 2 eexists. split; [reflexivity|]. split; [exact P0|]. split; [lra|]. split; [lra|].
        split; [exact D|]. intros v Hv. specialize (A2 v Hv). specialize (V v Hv). lra.
    - cbn [bind]. eexists. split; [reflexivity|].
      exists x, p0, (p1 + d * 1), (p2 + d * 1). do 2 eexists. split; [reflexivity|]. split; [exact P0|]. split; [lra|]. split; [lra|].
      split; [exact D|]. intros v Hv. specialize (A2 v Hv). specialize (V v Hv). lra.
  Qed.

  Lemma loop_inv : forall fuel s, inv s -> int_loop M counts3 fuel fork_tree s = Timeout.
  Proof.
    intros fuel. induction fuel as [|fuel IH]; intros s H; [reflexivity|]. cbn [int_loop]. destruct (step_inv s H) as (s' & E & I).
    rewrite E. cbn [bind fst snd]. apply IH. exact I.
  Qed.
End Fork.

(** The root has at least one agent and at most as many as the first leaf; all values lie between -M and M. *)
Lemma fork_hangs : forall M c c0 c1 c2 fuel, 0 < M -> (3 <= c)%nat ->
  (forall v, In v (cvalues c0) -> - M < v) -> (forall v, In v (cvalues c1) -> - M < v) -> (forall v, In v (cvalues c2) -> - M <= v <= M) ->
  (0 < csize c0 <= csize c1)%nat ->
  int_auction M fuel [c0; c1; c2] fork_struct [1%nat; 1%nat; c] = Timeout.
Proof.
  intros M c c0 c1 c2 fuel HM Hc H0 H1 H2 [N0 N1]. unfold int_auction. cbn [clone_market map].
  change (new_int_tree [clone c0; clone c1; clone c2] [1%nat; 1%nat; c] fork_struct) with (@Ok rtree fork_tree). cbn [bind length].
  assert (R : int_recipes 3 [1%nat; 1%nat; c] fork_tree = Ok [[1; 1; 0]; [1; 0; c]]%nat) by reflexivity.
  rewrite R. cbn [bind]. unfold new_int_sim_prices. cbn [forallb length Nat.eqb andb]. unfold int_initial_prices. cbn [length map fold_right nsum].
  assert (ED : Nat.max (1 + (1 + (0 + 0))) (Nat.max (1 + (0 + (c + 0))) 0) = S c) by lia.
  rewrite ED. cbn [repeat initial_loop last_used get nth_error bind Nat.ltb Nat.leb].
  rewrite (proj2 (Qeq_bool_iff (- M) (- M)) (Qeq_refl _)). cbn [set_nth initial_loop last_used get nth_error bind].
  destruct c as [|cc] eqn:Ec; [lia|]. rewrite <- Ec in *. cbn [bind get nth_error].
  rewrite (proj2 (Qeq_bool_iff (- M) (- M)) (Qeq_refl _)). cbn [bind set_nth].
  rewrite (loop_inv M c (clone c0) (clone c1)); [reflexivity|assumption|assumption| | | | |].
  - intros v Hv. apply H0. apply (Permutation_in _ (sort_desc_perm _)). exact Hv.
  - intros v Hv. apply H1. apply (Permutation_in _ (sort_desc_perm _)). exact Hv.
  - unfold csize in *. cbn [clone new_category cvalues]. rewrite sort_desc_length. exact N0.
  - unfold csize in *. cbn [clone new_category cvalues]. rewrite !sort_desc_length. exact N1.
  - assert (C3 : 3 <= Qn c) by (unfold Qn, Qle, inject_Z; cbn; lia).
    assert (X1 : (S c - nsum [1; 1; 0] + 1)%nat = c) by (unfold nsum; cbn [fold_right]; lia).
    assert (X2 : (S c - nsum [1; 0; c] + c)%nat = c) by (unfold nsum; cbn [fold_right]; lia).
    rewrite X1, X2. unfold new_int_vector_list. cbn [default_counts length repeat].
    do 6 eexists. split; [reflexivity|]. split; [reflexivity|]. change (Qn 1) with 1.
    assert (Y : - M * Qn c / Qn c == - M) by (field; lra).
    split; [rewrite Y; field|]. split; [rewrite Y; lra|]. split; [apply sort_desc_desc|].
    intros v Hv. rewrite Y. apply H2. apply (Permutation_in _ (sort_desc_perm _)). exact Hv.
Qed.
