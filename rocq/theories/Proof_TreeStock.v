(** * The stock part of experiment_recpietree.py *)

From Coq Require Import String List Arith NArith ZArith Lia QArith Qround Lqa Permutation Sorted.
From Verif Require Import Base Model_Agents Model_Trade Model_Prices Model_Market Model_RecipeTree Model_TreeAuction Model_TreeCalc
  Model_Experiment Model_StockExperiment Model_StockData Model_CompareStock Model_Drivers Model_TreeStock
  Spec_Market Spec_RecipeTree Spec_TreeAuction Spec_TreeCalc Spec_Experiment Spec_StockExperiment Spec_StockData Spec_Drivers Spec_CompareStock Spec_StockDrivers Spec_TreeStock
  Proof_Agents Proof_Exp1 Proof_Exp2 Proof_TreeCalc Proof_StockData Proof_StockData4 Proof_StockDrivers Proof_Stock.
Import ListNotations.
Open Scope Q_scope.
Open Scope list_scope.

Definition floor_nat (q : Q) : nat := Z.to_nat (Qfloor q).

Lemma floor_nat_le : forall q, 0 <= q -> Qn (floor_nat q) <= q.
Proof.
  intros q H. unfold floor_nat, Qn. assert (Z : (0 <= Qfloor q)%Z) by (change 0%Z with (Qfloor 0); apply Qfloor_resp_le; exact H).
  rewrite Z2Nat.id by exact Z. apply Qfloor_le.
Qed.

Lemma share_q_floor : forall len s c, 0 < s -> 0 <= c -> share_q len s c = floor_nat (Qn len * c / s).
Proof.
  intros len s c Hs Hc. unfold share_q, floor_nat. assert (E : Qn len / s * c == Qn len * c / s) by (field; lra).
  rewrite (py_int_comp _ _ E). rewrite py_int_floor; [reflexivity|]. assert (X : 0 <= Qn len) by (apply Qn_nonneg).
  unfold Qdiv. apply Qmult_le_0_compat; [nra|]. apply Qlt_le_weak, Qinv_lt_0_compat, Hs.
Qed.

Lemma shares_fit : forall len s counts, 0 < s -> Forall (fun c => 0 <= c) counts ->
  Qn (nsum (map (fun c => floor_nat (Qn len * c / s)) counts)) <= Qn len * Qsum counts / s.
Proof.
  intros len s counts Hs HF. assert (L : 0 <= Qn len) by apply Qn_nonneg. induction HF as [|c counts Hc HF IH].
  - change (nsum (map (fun c => floor_nat (Qn len * c / s)) [])) with 0%nat. change (Qsum []) with 0. assert (E : Qn len * 0 / s == 0) by (field; lra). rewrite E. discriminate.
  - cbn [map nsum fold_right Qsum]. fold (nsum (map (fun c => floor_nat (Qn len * c / s)) counts)). rewrite Qn_plus.
    assert (X : Qn (floor_nat (Qn len * c / s)) <= Qn len * c / s).
    { apply floor_nat_le. unfold Qdiv. apply Qmult_le_0_compat; [nra|]. apply Qlt_le_weak, Qinv_lt_0_compat, Hs. }
    assert (E : Qn len * Qsum (c :: counts) / s == Qn len * c / s + Qn len * Qsum counts / s) by (change (Qsum (c :: counts)) with (c + Qsum counts); field; lra). rewrite E. lra.
Qed.

Lemma deal_categories_q_spec : forall counts a s data k values, 0 < s -> Forall (fun c => 0 <= c) counts -> (a + length counts <= length values)%nat ->
  (k + nsum (map (fun c => floor_nat (Qn (length data) * c / s)) counts) <= length data)%nat ->
  exists split pieces, deal_categories_q counts a s data k values = Ok split
    /\ pieces_of (skipn k data) pieces
    /\ map (@length Q) pieces = map (fun c => floor_nat (Qn (length data) * c / s)) counts
    /\ length split = length counts
    /\ (forall i, (i < length counts)%nat -> nth i split [] =
         map (fun d => (if (0 <? a + i)%nat then -(1) else 1) * d * nth (a + i) values 0)%Q (nth i pieces [])).
Proof.
  induction counts as [|c counts IH]; intros a s data k values Hs HC Hv Hk.
  { exists [], []. split; [reflexivity|]. split; [exists (skipn k data); reflexivity|]. split; [reflexivity|]. split; [reflexivity|]. simpl. lia. }
  inversion HC as [|? ? C1 C2]; subst.
  cbn [map nsum fold_right] in Hk. fold (nsum (map (fun c => floor_nat (Qn (length data) * c / s)) counts)) in Hk. cbn [length] in Hv.
  cbn [deal_categories_q]. rewrite share_q_floor by assumption. set (n := floor_nat (Qn (length data) * c / s)) in *.
  rewrite deal_values_spec by lia. cbn [bind fst snd].
  destruct (IH (S a) s data (k + n)%nat values Hs C2 ltac:(lia) ltac:(lia)) as (split & pieces & E & (rest & PR) & L & LS & V).
  rewrite E. cbn [bind]. exists (map (fun d => (if (0 <? a)%nat then -(1) else 1) * d * nth a values 0)%Q (firstn n (skipn k data)) :: split),
    (firstn n (skipn k data) :: pieces).
  split; [reflexivity|]. split; [|split; [|split]].
  - exists rest. cbn [concat]. rewrite <- app_assoc, <- PR. rewrite <- (firstn_skipn n (skipn k data)) at 1. f_equal.
    apply skipn_plus.
  - cbn [map]. rewrite L. f_equal. rewrite firstn_length, skipn_length. lia.
  - simpl. rewrite LS. reflexivity.
  - intros [|i] Hi; cbn [nth].
    + rewrite Nat.add_0_r. reflexivity.
    + simpl in Hi. rewrite V by lia. replace (S a + i)%nat with (a + S i)%nat by lia. reflexivity.
Qed.

Theorem split_prices_q_spec : forall data counts values, Forall (fun c => 0 <= c) counts -> 0 < Qsum counts -> (length counts <= length values)%nat ->
  exists split pieces, split_prices_q data counts values = Ok split
    /\ pieces_of data pieces
    /\ map (@length Q) pieces = map (fun c => Z.to_nat (Qfloor (Qn (length data) * c / Qsum counts))) counts
    /\ length split = length counts
    /\ (forall i, (i < length counts)%nat -> nth i split [] =
         map (fun d => (if (0 <? i)%nat then -(1) else 1) * d * nth i values 0)%Q (nth i pieces [])).
Proof.
  intros data counts values HC Hs Hv. unfold split_prices_q.
  destruct (Qeq_bool (Qsum counts) 0) eqn:EB; [exfalso; apply Qeq_bool_iff in EB; rewrite EB in Hs; apply (Qlt_irrefl 0); exact Hs|].
  destruct (deal_categories_q_spec counts 0 (Qsum counts) data 0 values Hs HC Hv) as (split & pieces & E & P & L & LS & V).
  { assert (X := shares_fit (length data) (Qsum counts) counts Hs HC). assert (Y : Qn (length data) * Qsum counts / Qsum counts == Qn (length data)) by (field; lra).
    rewrite Y in X. clear Y. revert X. generalize (nsum (map (fun c => floor_nat (Qn (length data) * c / Qsum counts)) counts)). intros k X. unfold Qn in X. rewrite <- Zle_Qle in X. lia. }
  exists split, pieces. split; [|split; [exact P|split; [exact L|split; [exact LS|exact V]]]]. destruct counts; [exfalso; apply (Qlt_irrefl 0); exact Hs|exact E].
Qed.

(** With natural numbers it is the function of Model_TreeCalc. *)
Lemma split_prices_q_nat : forall data counts values, split_prices_q data (map Qn counts) values = split_prices data counts values.
Proof.
  intros data counts values. unfold split_prices_q, split_prices. destruct counts as [|c counts]; [reflexivity|]. cbn [map].
  change (Qn c :: map Qn counts) with (map Qn (c :: counts)). set (l := c :: counts).
  assert (E : Qsum (map Qn l) == Qn (nsum l)) by (symmetry; apply Qn_nsum).
  destruct (nsum l =? 0)%nat eqn:EN.
  - apply Nat.eqb_eq in EN. rewrite EN in E. assert (X : Qeq_bool (Qsum (map Qn l)) 0 = true) by (apply Qeq_bool_iff; exact E). rewrite X. reflexivity.
  - apply Nat.eqb_neq in EN. assert (P : 0 < Qn (nsum l)) by (change 0 with (inject_Z 0); unfold Qn; rewrite <- Zlt_Qlt; lia).
    destruct (Qeq_bool (Qsum (map Qn l)) 0) eqn:EB; [apply Qeq_bool_iff in EB; lra|].
    assert (G : forall todo a k, deal_categories_q (map Qn todo) a (Qsum (map Qn l)) data k values = deal_categories todo a (nsum l) data k values).
    { induction todo as [|d todo IH]; intros a k; [reflexivity|]. cbn [map deal_categories_q deal_categories].
      assert (SH : share_q (length data) (Qsum (map Qn l)) (Qn d) = Model_TreeCalc.share (length data) (nsum l) d).
      { unfold share_q, Model_TreeCalc.share. assert (EQ : Qn (length data) / Qsum (map Qn l) * Qn d == Qn (length data) / Qn (nsum l) * Qn d) by (rewrite E; reflexivity).
        rewrite (py_int_comp _ _ EQ). rewrite py_int_floor; [reflexivity|]. assert (X := Qn_nonneg (length data)). assert (Y := Qn_nonneg d).
        apply Qmult_le_0_compat; [|exact Y]. unfold Qdiv. apply Qmult_le_0_compat; [exact X|]. apply Qlt_le_weak, Qinv_lt_0_compat, P. }
      rewrite SH. destruct (deal_values _ _ _ _ _ _) as [r|e|]; try reflexivity. cbn [bind]. rewrite IH. reflexivity. }
    apply G.
Qed.

(** ** One file *)
Lemma fifth : forall n c, Z.to_nat (Qfloor (Qn n * (Qmake (Zpos c) 2) / (5 # 2))) = Nat.div (Pos.to_nat c * n) 5.
Proof.
  intros n c. assert (E : Qn n * (Zpos c # 2) / (5 # 2) == Z.of_nat (Pos.to_nat c * n) # 5).
  { unfold Qn, inject_Z, Qeq. cbn -[Z.mul Z.of_nat]. rewrite Nat2Z.inj_mul, positive_nat_Z. nia. }
  rewrite (Qfloor_comp _ _ E). unfold Qfloor. change 5%Z with (Z.of_nat 5). rewrite <- Nat2Z.inj_div. apply Nat2Z.id.
Qed.

Lemma file_split : forall shuffle f, (forall l, Permutation l (shuffle l)) ->
  exists cats, get_prices_tree shuffle f tree_agent_counts tree_agent_values = Ok cats /\ tree_prices_of f cats.
Proof.
  intros shuffle f SH. unfold get_prices_tree. set (zs := shuffle (all_prices f)).
  destruct (split_prices_q_spec (map inject_Z zs) tree_agent_counts tree_agent_values) as (cats & pieces & E & (rest & PE) & L & LS & V).
  - repeat constructor; discriminate.
  - reflexivity.
  - cbn; lia.
  - exists cats. split; [exact E|].
    destruct pieces as [|q0 [|q1 [|q2 [|q3 [|? ?]]]]]; try discriminate L. cbn [map tree_agent_counts] in L.
    assert (S5 : Qsum [1; 1 # 2; 1 # 2; 1 # 2] == 5 # 2) by reflexivity.
    assert (N : forall c, Z.to_nat (Qfloor (Qn (length (map inject_Z zs)) * c / Qsum [1; 1 # 2; 1 # 2; 1 # 2])) = Z.to_nat (Qfloor (Qn (length zs) * c / (5 # 2)))).
    { intros c. f_equal. apply Qfloor_comp. rewrite map_length, S5. reflexivity. }
    rewrite !N in L. assert (N1 : Qn (length zs) * 1 / (5 # 2) == Qn (length zs) * (2 # 2) / (5 # 2)) by (field).
    rewrite (Qfloor_comp _ _ N1) in L. rewrite !fifth in L. change (Pos.to_nat 2) with 2%nat in L. change (Pos.to_nat 1) with 1%nat in L. rewrite Nat.mul_1_l in L. injection L as L0 L1 L2 L3.
    (* the pieces are images of pieces of zs *)
    cbn [concat] in PE. rewrite app_nil_r in PE.
    assert (Sp : forall a b (l : list Z), map inject_Z l = a ++ b -> exists x y, l = x ++ y /\ a = map inject_Z x /\ b = map inject_Z y).
    { clear. induction a as [|q a IH]; intros b l H; [exists [], l; auto|]. destruct l as [|z l]; [discriminate H|]. cbn in H. injection H as <- H.
      destruct (IH b l H) as (x & y & -> & -> & ->). exists (z :: x), y. auto. }
    rewrite <- !app_assoc in PE.
    destruct (Sp _ _ _ PE) as (p0 & r0 & Z0 & -> & R0). symmetry in R0. destruct (Sp _ _ _ R0) as (p1 & r1 & -> & -> & R1). symmetry in R1.
    destruct (Sp _ _ _ R1) as (p2 & r2 & -> & -> & R2). symmetry in R2. destruct (Sp _ _ _ R2) as (p3 & r3 & -> & -> & R3).
    exists (all_prices f), p0, p1, p2, p3, r3. rewrite !map_length in *.
    assert (LZ : length (all_prices f) = length zs) by (apply Permutation_length; apply SH). rewrite LZ.
    split; [|split; [|split; [exact L0|split; [exact L1|split; [exact L2|split; [exact L3|]]]]]].
    + unfold all_prices, in_thousandths. repeat rewrite <- map_app. generalize (high f ++ close f ++ open_ f ++ low f). intros l.
      induction l as [|x l IH]; constructor; [|exact IH]. apply thousands_thousandth.
    + rewrite <- Z0. symmetry. apply SH.
    + destruct cats as [|c0 [|c1 [|c2 [|c3 [|? ?]]]]]; try discriminate LS.
      assert (V0 := V 0%nat ltac:(cbn; lia)). assert (V1 := V 1%nat ltac:(cbn; lia)). assert (V2 := V 2%nat ltac:(cbn; lia)). assert (V3 := V 3%nat ltac:(cbn; lia)).
      cbn [nth tree_agent_values Nat.ltb Nat.leb] in V0, V1, V2, V3. subst c0 c1 c2 c3.
      assert (A : forall (g : Q -> Q) h p, (forall z, g (inject_Z z) = inject_Z (h z)) -> map g (map inject_Z p) = map (fun z => inject_Z (h z)) p).
      { intros g h p H. rewrite map_map. apply map_ext. exact H. }
      rewrite (A _ (fun z => 2 * z)%Z), (A _ (fun z => - (2 * z))%Z) by (intros z; unfold inject_Z, Qmult, Qopp; cbn [Qnum Qden]; f_equal; lia).
      rewrite !(A (fun d => - (1) * d * 1) (fun z => - z)%Z) by (intros z; unfold inject_Z, Qmult, Qopp; cbn [Qnum Qden]; f_equal; lia). reflexivity.
Qed.

Lemma files_split : forall shuffles, (forall i l, Permutation l (shuffles i l)) -> forall files i,
  exists stocks, get_stocks_tree_prices shuffles i files tree_agent_counts tree_agent_values = Ok stocks /\ Forall2 tree_prices_of files stocks.
Proof.
  intros shuffles SH. induction files as [|f files IH]; intros i; [exists []; split; [reflexivity|constructor]|].
  destruct (file_split (shuffles i) f (SH i)) as (cats & E & T). destruct (IH (S i)) as (stocks & E2 & F). exists (cats :: stocks).
  cbn [get_stocks_tree_prices]. rewrite E. cbn [bind]. rewrite E2. split; [reflexivity|constructor; assumption].
Qed.

(** ** The shuffles of the iterations *)
Lemma shuffle_all : forall (g : nat -> list Q -> list Q), (forall j l, Permutation l (g j l)) -> forall cats a,
  Forall2 (@Permutation Q) cats (map (fun p => g (fst p) (snd p)) (combine (seq a (length cats)) cats)).
Proof. intros g H. induction cats as [|c cats IH]; intros a; [constructor|]. cbn [length seq combine map fst snd]. constructor; [apply H|apply IH]. Qed.

Lemma perm_trans_all : forall a b c, Forall2 (@Permutation Q) a b -> Forall2 (@Permutation Q) b c -> Forall2 (@Permutation Q) a c.
Proof.
  intros a b c H. revert c. induction H as [|x y l l' P H IH]; intros c H2; inversion H2; subst; constructor; [|apply IH; assumption].
  eapply Permutation_trans; eassumption.
Qed.

Lemma runs_perm : forall shuffle, (forall it j l, Permutation l (shuffle it j l)) -> forall its it cats,
  length (shuffled_runs shuffle it its cats) = its /\ Forall (Forall2 (@Permutation Q) cats) (shuffled_runs shuffle it its cats).
Proof.
  intros shuffle SH. induction its as [|its IH]; intros it cats; [split; [reflexivity|constructor]|]. cbn [shuffled_runs].
  set (cats' := map _ _). assert (P : Forall2 (@Permutation Q) cats cats') by (apply (shuffle_all (shuffle it)); apply SH).
  destruct (IH (S it) cats') as [L F]. split; [cbn; rewrite L; reflexivity|]. constructor; [exact P|].
  eapply Forall_impl; [|exact F]. intros r Hr. eapply perm_trans_all; eassumption.
Qed.
