(** * The values of the agents who are left do not matter (C115): McAfee's protocol *)

From Coq Require Import String List Arith Lia QArith Lqa Qabs Permutation Sorted.
From Verif Require Import Base Model_Agents Model_Prices Model_Trade Model_Market Model_TradeReduction Model_McAfee
  Spec_Market Spec_Trade Spec_TradeReduction Spec_McAfee Spec_Winners Proof_Market Proof_Ascending Proof_Deals
  Proof_McAfee Proof_McAfee2 Proof_Gsp5 Proof_Int2 Proof_Outsiders Proof_Winners.
Import ListNotations.
Open Scope Q_scope.

Lemma rowsum_ext : forall m m' s, length m' = length m -> (forall i, (i < length m)%nat -> nth s (srt m' i) 0 == nth s (srt m i) 0) -> rowsum m' s == rowsum m s.
Proof. intros m m' s L H. unfold rowsum. rewrite L. apply Qsum_map_ext. intros i Hi. apply in_seq in Hi. apply H. lia. Qed.

Lemma candidate_ext : forall M m m' k, length m' = length m -> (forall i, (i < length m)%nat -> nth k (srt m' i) (- M) == nth k (srt m i) (- M)) ->
  candidate_price M m' k == candidate_price M m k.
Proof.
  intros M m m' k L H. unfold candidate_price. rewrite L. apply Qdiv_comp; [|reflexivity].
  rewrite (Qsum_nth _ dcat _ m'), (Qsum_nth _ dcat _ m), L. apply Qsum_map_ext. intros i Hi. apply in_seq in Hi. specialize (H i ltac:(lia)).
  unfold srt in H. change (@nil Q) with (cvalues dcat) in H. rewrite !map_nth in H. unfold ranked. apply Qabs_wd. exact H.
Qed.

Lemma nth_skip : forall (l : list Q) n k x, nth k (skipn n l) x = nth (n + k) l x.
Proof. induction l as [|a l IH]; intros [|n] k x; try reflexivity; [cbn; destruct k; reflexivity|apply IH]. Qed.

Lemma same_rest : forall m m' (new left : nat -> list Q) d j good others, desc (srt m j) -> (d <= length (srt m j))%nat ->
  Forall2 Qeq (left j) (firstn d (srt m j)) -> length (new j) = d -> Forall good (new j) ->
  (forall x, good x -> (d < length (srt m j))%nat -> nth d (srt m j) 0 <= x) ->
  same_values (nth j (map cvalues m) []) (left j ++ others) -> same_values (nth j (map cvalues m') []) (new j ++ others) ->
  Forall2 Qeq (srt m' j) (sort_desc (new j) ++ skipn d (srt m j)).
Proof.
  intros m m' new left d j good others DS Hd HL LN HG HH S1 S2.
  assert (PO : same_values (skipn d (srt m j)) others).
  { apply (same_values_cancel (firstn d (srt m j)) (left j)); [exists (firstn d (srt m j)); split; [apply Permutation_refl|apply F2_sym; assumption]|].
    rewrite firstn_skipn. eapply same_values_trans; [apply same_values_perm, sort_desc_perm|exact S1]. }
  apply same_values_desc; [apply sort_desc_desc| |].
  - assert (DS' := DS). rewrite <- (firstn_skipn d (srt m j)) in DS'. apply desc_app_inv in DS'. destruct DS' as (_ & DS' & _).
    apply desc_app; [apply sort_desc_desc|assumption|].
    intros x y Hx Hy. assert (X : good x) by (rewrite Forall_forall in HG; apply HG; eapply Permutation_in; [apply sort_desc_perm|exact Hx]).
    destruct (In_nth _ _ 0 Hy) as (k & K1 & K2). rewrite skipn_length in K1. specialize (HH x X ltac:(lia)). eapply Qle_trans; [|exact HH].
    rewrite <- K2, nth_skip. apply desc_nth; [assumption|lia|lia].
  - eapply same_values_trans; [apply same_values_perm, sort_desc_perm|]. eapply same_values_trans; [exact S2|].
    apply same_values_app; [apply same_values_perm, Permutation_sym, sort_desc_perm|apply same_values_sym; exact PO].
Qed.

Lemma mcafee_core : forall M cap cap' m m' recipe h new t t' P deals rem, cap_suffices cap m recipe -> cap_suffices cap' m' recipe ->
  optimal_trade cap m recipe true = Ok (deals, rem) ->
  mcafee_M M cap m recipe h = Ok t -> mcafee_M M cap' m' recipe h = Ok t' -> tprices t = Some P -> changes_left P m (tcats t) new m' ->
  let k := length deals in let d := num_of_deals t in
  ((0 < k)%nat -> d = k -> 0 < candidate_price M m k /\ 0 <= Qsum P
     /\ (forall i, (i < length m)%nat -> (d < length (srt m i))%nat -> nth d (srt m i) 0 <= nth i P 0)
     /\ (forall i v, (i < length m)%nat -> In v (new i) -> nth i P 0 < 0 -> v < 0)) ->
  (exists P', tprices t' = Some P' /\ Forall2 Qeq P P') /\ num_of_deals t' = num_of_deals t
  /\ forall j, (j < length m)%nat -> same_values (new j) (cvalues (nth j (tcats t') (mkCat "" []))).
Proof.
  intros M cap cap' m m' recipe h new t t' P deals rem Hcap Hcap' Ho H H' HP [LM HD] k d ACC.
  destruct (mcafee_optimal _ _ _ _ _ _ H') as (deals' & rem' & Ho').
  destruct (run_outcome_exact _ _ _ _ _ _ _ _ Hcap H Ho) as (P0 & E0 & LP & Z & O). assert (P0 = P) by congruence. subst P0. clear E0.
  destruct (run_outcome_exact _ _ _ _ _ _ _ _ Hcap' H' Ho') as (P' & HP' & LP' & Z' & O').
  destruct (mcafee_result _ _ _ _ _ _ _ _ H Ho) as (_ & _ & _ & _ & _ & _ & R).
  destruct (mcafee_result _ _ _ _ _ _ _ _ H' Ho') as (_ & _ & _ & _ & _ & _ & R').
  change (mt_num_of_deals deals) with k in *. fold d in O. set (k' := mt_num_of_deals deals') in *. set (d' := num_of_deals t') in *.
  assert (DS : forall m i, desc (srt m i)) by (intros; apply sort_desc_desc).
  assert (LK := o_len _ _ _ _ _ _ _ O). assert (Dk := o_d _ _ _ _ _ _ _ O). assert (Dk1 := o_k _ _ _ _ _ _ _ O).
  assert (CL : forall i, (i < length m)%nat -> Forall2 Qeq (cvalues (nth i (tcats t) dcat)) (firstn d (srt m i))).
  { intros i Hi. rewrite srt_vals. apply (mc_cat _ _ _ _ _ R). rewrite clone_length. assumption. }
  assert (PD : forall i, (i < length m)%nat -> (d < length (srt m i))%nat -> nth d (srt m i) 0 <= nth i P 0 \/ k = 0%nat).
  { intros i Hi Hd. destruct (Nat.eq_dec k 0) as [|NZ]; [right; assumption|left]. destruct (Nat.eq_dec d k) as [E|NE].
    - apply (ACC ltac:(lia) E); assumption.
    - rewrite (o_rej _ _ _ _ _ _ _ O ltac:(lia) i Hi). replace (k - 1)%nat with d by lia. lra. }
  assert (LN : forall i, (i < length m)%nat -> length (new i) = d).
  { intros i Hi. destruct (HD i Hi) as (_ & X & _). change (mkCat "" []) with dcat in X. rewrite X. unfold csize.
    rewrite (Forall2_length _ _ _ _ _ (CL i Hi)), firstn_length. specialize (LK i Hi). lia. }
  assert (HE : forall i, (i < length m)%nat -> Forall2 Qeq (srt m' i) (sort_desc (new i) ++ skipn d (srt m i))).
  { intros i Hi. destruct (HD i Hi) as (_ & _ & HG & others & S1 & S2). change (mkCat "" []) with dcat in S1, S2.
    apply (same_rest m m' new (fun i => cvalues (nth i (tcats t) dcat)) d i (fun v => nth i P 0 <= v /\ k <> 0%nat) others); auto.
    - specialize (LK i Hi). lia.
    - rewrite Forall_forall in *. intros v Hv. split; [apply HG; assumption|]. intros E. specialize (LN i Hi). destruct (new i); [destruct Hv|cbn in LN; lia].
    - intros x [X Y] Hd. destruct (PD i Hi Hd); [lra|congruence].
    - change (@nil Q) with (cvalues dcat). rewrite map_nth. exact S1.
    - change (@nil Q) with (cvalues dcat). rewrite map_nth. exact S2. }
  assert (LS : forall i, (i < length m)%nat -> length (srt m' i) = length (srt m i)).
  { intros i Hi. rewrite (Forall2_length _ _ _ _ _ (HE i Hi)), app_length, sort_desc_length, LN, skipn_length by assumption. specialize (LK i Hi). lia. }
  assert (RW : forall i s x, (i < length m)%nat -> (d <= s)%nat -> nth s (srt m' i) x == nth s (srt m i) x).
  { intros i s x Hi Hs. rewrite (nth_Qeq _ _ s x (HE i Hi)). rewrite app_nth2 by (rewrite sort_desc_length, LN; lia). rewrite sort_desc_length, LN by assumption.
    rewrite nth_skip. replace (d + (s - d))%nat with s by lia. reflexivity. }
  assert (TOP : forall i s, (i < length m)%nat -> (s < d)%nat -> exists v, In v (new i) /\ nth s (srt m' i) 0 == v).
  { intros i s Hi Hs. exists (nth s (sort_desc (new i)) 0). split.
    - eapply Permutation_in; [apply sort_desc_perm|]. apply nth_In. rewrite sort_desc_length, LN; assumption.
    - rewrite (nth_Qeq _ _ s 0 (HE i Hi)). rewrite app_nth1 by (rewrite sort_desc_length, LN; assumption). reflexivity. }
  assert (GE : forall i v, (i < length m)%nat -> In v (new i) -> nth i P 0 <= v).
  { intros i v Hi Hv. destruct (HD i Hi) as (_ & _ & HG & _). rewrite Forall_forall in HG. apply HG. assumption. }
  assert (POS : forall s, (s < k)%nat -> 0 <= rowsum m' s).
  { intros s Hs. destruct (Nat.eq_dec d k) as [E|NE].
    - destruct (ACC ltac:(lia) E) as (_ & X & _). eapply Qle_trans; [exact X|]. unfold rowsum.
      rewrite <- (map_id P), (Qsum_nth _ 0 (fun x => x) P), LP, LM. apply Qsum_map_le. intros i Hi. apply in_seq in Hi.
      destruct (TOP i s ltac:(lia) ltac:(lia)) as (v & V1 & V2). rewrite V2. apply GE; [lia|assumption].
    - assert (X := o_row _ _ _ _ _ _ _ O d ltac:(lia)). eapply Qle_trans; [exact X|].
      rewrite <- (rowsum_ext m m' d LM) by (intros; apply RW; lia). unfold rowsum. apply Qsum_map_le. intros i Hi. apply in_seq in Hi.
      apply desc_nth; [apply DS|lia|]. rewrite LS by lia. specialize (LK i ltac:(lia)). lia. }
  assert (KK : k' = k).
  { destruct (lt_eq_lt_dec k' k) as [[L|L]|L]; [exfalso| assumption|exfalso].
    - assert (X := o_end _ _ _ _ _ _ _ O'). assert (Y := POS k' L).
      enough (rowsum m' k' < 0) by lra. apply X. intros i Hi. rewrite LM in Hi. rewrite LS by assumption. specialize (LK i Hi). lia.
    - assert (X := o_end _ _ _ _ _ _ _ O). assert (Y := o_row _ _ _ _ _ _ _ O' k L). rewrite (rowsum_ext m m' k LM) in Y by (intros; apply RW; lia).
      enough (rowsum m k < 0) by lra. apply X. intros i Hi. rewrite <- LS by assumption. assert (U := o_len _ _ _ _ _ _ _ O' i ltac:(lia)). lia. }
  assert (CC : candidate_price M m' k == candidate_price M m k) by (apply candidate_ext; [assumption|intros; apply RW; lia]).
  rewrite KK in O', Z'. assert (Dk' := o_d _ _ _ _ _ _ _ O'). assert (Dk1' := o_k _ _ _ _ _ _ _ O').
  set (c := candidate_price M m k) in *.
  assert (SGN : (0 < k)%nat -> d = k -> forall i, (i < length m)%nat -> let x := nth (k - 1) (srt m i) 0 in let x' := nth (k - 1) (srt m' i) 0 in
            nth i P 0 <= x' /\ ((nth i P 0 == - c /\ x < 0 /\ x' < 0) \/ (nth i P 0 == c /\ 0 <= x /\ 0 <= x'))).
  { intros K0 E i Hi x x'. destruct (ACC K0 E) as (C0 & _ & _ & SG). destruct (o_acc _ _ _ _ _ _ _ O K0 E) as (_ & A). specialize (A i Hi). cbv zeta in A. fold c x in A.
    destruct (TOP i (k - 1)%nat Hi ltac:(lia)) as (v & V1 & V2). fold x' in V2. assert (G := GE i v Hi V1). split; [lra|].
    destruct (Qlt_bool_reflect x 0) as [X|X].
    - left. specialize (SG i v Hi V1 ltac:(lra)). split; [assumption|]. split; lra.
    - right. split; [assumption|]. split; lra. }
  assert (DD : d' = d).
  { destruct (Nat.eq_dec k 0) as [|NZ]; [lia|]. destruct (Nat.eq_dec d k) as [E|NE].
    - assert (X := o_acc' _ _ _ _ _ _ _ O' ltac:(lia)). rewrite E. apply X.
      + apply (o_acc _ _ _ _ _ _ _ O); [lia|assumption].
      + intros i Hi. rewrite LM in Hi. cbv zeta. assert (G := SGN ltac:(lia) E i Hi). cbv zeta in G. destruct (ACC ltac:(lia) E) as (C0 & _). rewrite CC. fold c in C0.
        destruct G as (G0 & [(G1 & G2 & G3)|(G1 & G2 & G3)]); split; intros; lra.
    - destruct (Nat.eq_dec d' k) as [E'|]; [|lia]. exfalso. apply NE.
      destruct (o_acc _ _ _ _ _ _ _ O' ltac:(lia) E') as (Eh & A).
      assert (C0 : 0 <= c).
      { unfold c, candidate_price. rewrite (Qsum_nth _ dcat). apply Qle_shift_div_l; [|].
        - destruct m; [|apply Qn_pos; cbn; lia]. exfalso. destruct Hcap as (i & x & r & X & _). destruct i; discriminate.
        - rewrite Qmult_0_l. rewrite <- (Qsum_map_zero _ (seq 0 (length m))). apply Qsum_map_le. intros. apply Qabs_nonneg. }
      apply (o_acc' _ _ _ _ _ _ _ O); [lia|assumption|]. intros i Hi. cbv zeta. specialize (A i ltac:(lia)). cbv zeta in A.
      assert (PL := o_price _ _ _ _ _ _ _ O' i ltac:(lia) ltac:(lia)). cbv beta in PL. rewrite RW in PL by lia.
      rewrite (Qlt_bool_proper _ _ 0 (RW i (k - 1)%nat 0 Hi ltac:(lia))) in A.
      destruct (Qlt_bool_reflect (nth (k - 1) (srt m i) 0) 0); fold c; split; intros; lra. }
  split; [|split; [exact DD|]].
  - exists P'. split; [assumption|]. apply Proof_Reorder2.qeq_from_nth; [lia|]. intros i Hi. rewrite LP in Hi.
    destruct (Nat.eq_dec k 0) as [E|NZ]; [rewrite Z, Z' by lia; reflexivity|]. destruct (Nat.eq_dec d k) as [E|NE].
    + destruct (SGN ltac:(lia) E i Hi) as (_ & SG). destruct (o_acc _ _ _ _ _ _ _ O' ltac:(lia) ltac:(lia)) as (_ & A). specialize (A i ltac:(lia)). cbv zeta in A, SG.
      rewrite A. destruct (Qlt_bool_reflect (nth (k - 1) (srt m' i) 0) 0); rewrite CC; destruct SG as [(G1 & G2 & G3)|(G1 & G2 & G3)]; lra.
    + rewrite (o_rej _ _ _ _ _ _ _ O ltac:(lia) i Hi), (o_rej _ _ _ _ _ _ _ O' ltac:(lia) i ltac:(lia)). symmetry. apply RW; lia.
  - intros j Hj. change (mkCat "" []) with dcat. exists (sort_desc (new j)). split; [apply Permutation_sym, sort_desc_perm|]. apply F2_sym.
    assert (X : Forall2 Qeq (cvalues (nth j (tcats t') dcat)) (firstn d (srt m' j))).
    { rewrite srt_vals, <- DD. apply (mc_cat _ _ _ _ _ R'). rewrite clone_length. lia. }
    eapply Proof_Deals.qeq_trans; [exact X|]. assert (Y := firstn_F2 d _ _ (HE j Hj)). rewrite firstn_all_app in Y by (rewrite sort_desc_length; apply LN; assumption). exact Y.
Qed.

Theorem mcafee_winners : forall M cap cap' m m' recipe new t t' P, cap_suffices cap m recipe -> cap_suffices cap' m' recipe ->
  mcafee_M M cap m recipe false = Ok t -> mcafee_M M cap' m' recipe false = Ok t' -> tprices t = Some P -> changes_left P m (tcats t) new m' ->
  (exists P', tprices t' = Some P' /\ Forall2 Qeq P P') /\ num_of_deals t' = num_of_deals t
  /\ forall j, (j < length m)%nat -> same_values (new j) (cvalues (nth j (tcats t') (mkCat "" []))).
Proof.
  intros M cap cap' m m' recipe new t t' P Hcap Hcap' H H' HP HD. destruct (mcafee_optimal _ _ _ _ _ _ H) as (deals & rem & Ho).
  eapply mcafee_core; try eassumption. cbv zeta. intros K E. exfalso.
  destruct (run_outcome_exact _ _ _ _ _ _ _ _ Hcap H Ho) as (P0 & _ & _ & _ & O). destruct (o_acc _ _ _ _ _ _ _ O K E) as [F _]. discriminate.
Qed.

Theorem mcafee_winners_refused : forall M cap cap' m m' recipe h new t t' P deals rem, cap_suffices cap m recipe -> cap_suffices cap' m' recipe ->
  optimal_trade cap m recipe true = Ok (deals, rem) -> (num_of_deals t < length deals)%nat ->
  mcafee_M M cap m recipe h = Ok t -> mcafee_M M cap' m' recipe h = Ok t' -> tprices t = Some P -> changes_left P m (tcats t) new m' ->
  (exists P', tprices t' = Some P' /\ Forall2 Qeq P P') /\ num_of_deals t' = num_of_deals t
  /\ forall j, (j < length m)%nat -> same_values (new j) (cvalues (nth j (tcats t') (mkCat "" []))).
Proof.
  intros M cap cap' m m' recipe h new t t' P deals rem Hcap Hcap' Ho L H H' HP HD.
  eapply mcafee_core; try eassumption. cbv zeta. intros K E. lia.
Qed.

Lemma two_index : forall m, buyers_and_sellers m -> length m = 2%nat /\ exists i j, ((i = 0 /\ j = 1) \/ (i = 1 /\ j = 0))%nat
  /\ (forall v, In v (srt m i) -> 0 <= v) /\ (forall v, In v (srt m j) -> v < 0).
Proof.
  intros m (b & s & E & B & S0). split; [destruct E as [-> | ->]; reflexivity|].
  destruct E as [-> | ->]; [exists 0%nat, 1%nat|exists 1%nat, 0%nat]; (split; [auto|]); split; intros v Hv; unfold srt in Hv; cbn [map nth] in Hv;
    apply (Permutation_in _ (sort_desc_perm _)) in Hv; auto.
Qed.

Theorem mcafee_winners_two : forall M cap cap' m m' recipe h new t t' P, 0 < M -> cap_suffices cap m recipe -> cap_suffices cap' m' recipe ->
  buyers_and_sellers m -> (forall c v, In c m -> In v (cvalues c) -> 2 * v < M) ->
  (forall i v, (i < length m)%nat -> In v (new i) -> nth i P 0 < 0 -> v < 0) ->
  mcafee_M M cap m recipe h = Ok t -> mcafee_M M cap' m' recipe h = Ok t' -> tprices t = Some P -> changes_left P m (tcats t) new m' ->
  (exists P', tprices t' = Some P' /\ Forall2 Qeq P P') /\ num_of_deals t' = num_of_deals t
  /\ forall j, (j < length m)%nat -> same_values (new j) (cvalues (nth j (tcats t') (mkCat "" []))).
Proof.
  intros M cap cap' m m' recipe h new t t' P HM Hcap Hcap' BS HV NS H H' HP HD. destruct (mcafee_optimal _ _ _ _ _ _ H) as (deals & rem & Ho).
  eapply mcafee_core; try eassumption. cbv zeta. intros K E.
  destruct (run_outcome_exact _ _ _ _ _ _ _ _ Hcap H Ho) as (P0 & E0 & LP & _ & O). assert (P0 = P) by congruence. subst P0. clear E0.
  change (mt_num_of_deals deals) with (length deals) in O. rewrite E in *. set (k := length deals) in *.
  destruct (two_index m BS) as (L2 & i & j & IJ & VB & VS).
  assert (CP : candidate_price M m k == (Qabs (nth k (srt m i) (- M)) + Qabs (nth k (srt m j) (- M))) * (1 # 2)).
  { unfold candidate_price. rewrite (Qsum_nth _ dcat). rewrite L2. cbn [seq map Qsum fold_right]. unfold ranked, srt. change (@nil Q) with (cvalues dcat). rewrite !map_nth.
    unfold Qdiv. change (/ Qn 2) with (1 # 2). destruct IJ as [(-> & ->)|(-> & ->)]; ring. }
  set (c := candidate_price M m k) in *.
  assert (RS : forall s, rowsum m s == nth s (srt m i) 0 + nth s (srt m j) 0).
  { intros s. unfold rowsum. rewrite L2. cbn [seq map Qsum fold_right]. destruct IJ as [(-> & ->)|(-> & ->)]; ring. }
  assert (QP : Qsum P == nth i P 0 + nth j P 0).
  { destruct P as [|x [|y [|z P]]]; cbn in LP; try lia. cbn [Qsum fold_right]. destruct IJ as [(-> & ->)|(-> & ->)]; cbn [nth]; ring. }
  assert (Hi : (i < length m)%nat) by lia. assert (Hj : (j < length m)%nat) by lia.
  destruct (o_acc _ _ _ _ _ _ _ O K eq_refl) as (_ & A). assert (Ai := A i Hi). assert (Aj := A j Hj). cbv zeta in Ai, Aj. clear A. fold c in Ai, Aj.
  assert (LK := o_len _ _ _ _ _ _ _ O). assert (LKi := LK i Hi). assert (LKj := LK j Hj). clear LK.
  assert (Xi : 0 <= nth (k - 1) (srt m i) 0) by (apply VB, nth_In; lia).
  assert (Xj : nth (k - 1) (srt m j) 0 < 0) by (apply VS, nth_In; lia).
  assert (Pi : nth i P 0 == c) by (rewrite Ai; destruct (Qlt_bool_reflect (nth (k - 1) (srt m i) 0) 0); [lra|reflexivity]).
  assert (Pj : nth j P 0 == - c) by (rewrite Aj; destruct (Qlt_bool_reflect (nth (k - 1) (srt m j) 0) 0); [reflexivity|lra]).
  assert (SM : forall i v, (i < length m)%nat -> In v (srt m i) -> 2 * v < M).
  { intros x v Hx Hv. unfold srt in Hv. apply (Permutation_in _ (sort_desc_perm _)) in Hv. change (@nil Q) with (cvalues dcat) in Hv. rewrite map_nth in Hv.
    apply (HV (nth x m dcat)); [apply nth_In; assumption|assumption]. }
  assert (PL := o_price _ _ _ _ _ _ _ O i Hi K). cbv beta in PL. assert (SX := SM i _ Hi (nth_In (srt m i) 0 (n := (k - 1)%nat) ltac:(lia))).
  assert (Na := Qabs_nonneg (nth k (srt m i) (- M))). assert (Nb := Qabs_nonneg (nth k (srt m j) (- M))).
  assert (AM : Qabs (- M) == M) by (rewrite Qabs_opp; apply Qabs_pos; lra).
  assert (Fi : (k < length (srt m i))%nat).
  { destruct (le_lt_dec (length (srt m i)) k) as [G|G]; [exfalso|assumption]. rewrite (nth_overflow (srt m i)) in CP by assumption. lra. }
  assert (Fj : (k < length (srt m j))%nat).
  { destruct (le_lt_dec (length (srt m j)) k) as [G|G]; [exfalso|assumption]. rewrite (nth_overflow (srt m j)) in CP by assumption. lra. }
  rewrite (nth_indep (srt m i) (- M) 0 Fi) in *. rewrite (nth_indep (srt m j) (- M) 0 Fj) in *.
  assert (EN := o_end _ _ _ _ _ _ _ O). rewrite RS in EN.
  assert (EN' : nth k (srt m i) 0 + nth k (srt m j) 0 < 0) by (apply EN; intros x Hx; assert (x = i \/ x = j) as [-> | ->] by lia; assumption). clear EN.
  assert (Yi : 0 <= nth k (srt m i) 0) by (apply VB, nth_In; lia).
  assert (Yj : nth k (srt m j) 0 < 0) by (apply VS, nth_In; lia).
  rewrite (Qabs_pos _ Yi) in CP. rewrite (Qabs_neg (nth k (srt m j) 0)) in CP by lra.
  split; [lra|]. split; [lra|]. split; [|exact NS].
  intros x Hx _. assert (x = i \/ x = j) as [-> | ->] by lia; lra.
Qed.
