(** * The values of the agents who are left do not matter (C115): the tree auction *)

From Coq Require Import String List Arith Lia QArith Lqa Permutation Sorted Bool.
From Verif Require Import Base Model_Agents Model_Trade Model_Prices Model_Market Model_RecipeTree Model_TreeAuction
  Spec_Market Spec_RecipeTree Spec_TreeAuction Spec_Statics Spec_Reorder Spec_Better Spec_Winners Proof_Market Proof_Tree Proof_Tree2 Proof_Tree3 Proof_TA1 Proof_TA2 Proof_TA3 Proof_TA4
  Proof_TA6 Proof_TA7 Proof_TA10 Proof_Renumber Proof_Initial Proof_Better Proof_Better3 Proof_Better4 Proof_Lipschitz3 Proof_Outsiders Proof_Outsiders3 Proof_Winners.
Import ListNotations.
Open Scope Q_scope.

(** Prices that are right for one market are right for another one in which the same agents have values below these prices. *)
Lemma can_below : forall M B x V V' g, can M B V x g -> ripe M B g x ->
  (forall j p, In j (node_indices x) -> p <= g j -> exceed p (V' j) = exceed p (V j)) -> can M B V' x g.
Proof.
  intros M B x. induction x as [i ch IH] using rtree_ind'. intros V V' g Hg Rg HE. rewrite Forall_forall in IH.
  apply can_node in Hg. destruct Hg as (F1 & F2 & F3 & F4). assert (Cg := fun d Hd => ripe_child M B g i ch d Rg Hd).
  assert (HC : forall d j p, In d ch -> In j (node_indices d) -> p <= g j -> exceed p (V' j) = exceed p (V j)).
  { intros d j p Hd Hj L. apply HE; [eapply child_node; eassumption|assumption]. }
  assert (CT : forall h, (forall d, In d ch -> h (tindex d) <= g (tindex d)) -> count V' h ch = count V h ch).
  { intros h Hh. unfold count. f_equal. apply map_ext_in. intros d Hd. apply (HC d); [assumption|apply tindex_node|auto]. }
  assert (CD : forall d, In d ch -> can M B V' d g) by (intros d Hd; apply (IH d Hd V); auto; intros j p; apply HC; assumption).
  apply can_node. split; [assumption|split; [assumption|split]].
  - intros q Q1 Q2. rewrite CT by (intros d _; lra). rewrite HE by ((left; reflexivity) || lra). apply F3; assumption.
  - intros h H1 H2 H3 H4. rewrite HE by ((left; reflexivity) || lra).
    assert (LE : forall d j, In d ch -> In j (node_indices d) -> h j <= g j).
    { intros d j Hd. apply (can_mono M B V' d h g); auto. rewrite (H3 d Hd), (F2 d Hd). lra. }
    rewrite CT by (intros d Hd; apply (LE d); [assumption|apply tindex_node]). apply F4; auto.
    intros d Hd. apply (IH d Hd V' V h); auto. intros j p Hj L. symmetry. apply (HC d); [assumption|assumption|]. assert (X := LE d j Hd Hj). lra.
Qed.

Lemma exceed_same_values : forall p l l', same_values l l' -> exceed p l = exceed p l'.
Proof.
  intros p l l' (l0 & P & E). rewrite (exceed_perm p _ _ P). clear P. induction E as [|a b x y E F IH]; [reflexivity|].
  destruct (exceed_cons p a x) as [[L1 E1]|[L1 E1]]; destruct (exceed_cons p b y) as [[L2 E2]|[L2 E2]]; rewrite E1, E2; try lra; congruence.
Qed.

Lemma exceed_full : forall p l, exceed p l = length l -> Forall (fun v => p < v) l.
Proof.
  intros p l. induction l as [|v l IH]; intros H; [constructor|]. assert (X := exceed_length p l).
  destruct (exceed_cons p v l) as [[L E]|[L E]]; rewrite E in H; cbn [length] in H; [lia|]. constructor; [assumption|apply IH; lia].
Qed.

(** As many values of a sorted list exceed [q] as its first part has: exactly the values of the first part do. *)
Lemma top_exceed : forall q A B, desc (A ++ B) -> exceed q (A ++ B) = length A -> Forall (fun v => q < v) A /\ Forall (fun v => v <= q) B.
Proof.
  intros q A B D H. rewrite exceed_app in H. apply desc_app_inv in D. destruct D as (_ & _ & D).
  assert (FB : forall l, Forall (fun v => v <= q) l -> exceed q l = 0%nat) by (intros l F; apply exceed_low; assumption).
  assert (NB : exceed q B = 0%nat -> Forall (fun v => v <= q) B).
  { clear. induction B as [|v B IH]; intros H; [constructor|]. destruct (exceed_cons q v B) as [[L E]|[L E]]; rewrite E in H; [|discriminate]. constructor; auto. }
  assert (LA := exceed_length q A).
  destruct (Nat.eq_dec (exceed q B) 0) as [Z|Z].
  - split; [apply exceed_full; lia|auto].
  - exfalso. assert (FA : exceed q A = length A).
    { apply exceed_all. intros v Hv.
      assert (X : exists b, In b B /\ q < b).
      { clear -Z. induction B as [|b B IH]; [cbn in Z; congruence|]. destruct (exceed_cons q b B) as [[L E]|[L E]]; rewrite E in Z.
        - destruct (IH Z) as (w & W1 & W2). exists w. split; [right; assumption|assumption].
        - exists b. split; [left; reflexivity|assumption]. }
      destruct X as (b & B1 & B2). assert (Y := D v b Hv B1). lra. }
    lia.
Qed.

Lemma length_same_values : forall l l', same_values l l' -> length l = length l'.
Proof. intros l l' (l0 & X & Y). rewrite (Permutation_length X). apply (Forall2_length _ _ _ _ _ Y). Qed.

Theorem tree_winners : forall M B p p' fuel fuel' m m' st new r r' rs, 0 < M -> length m' = length m ->
  tree_auction M p fuel m st = Ok r -> tree_auction M p' fuel' m' st = Ok r' -> recipes (length m) (tt_tree r) = Ok rs ->
  distinct_categories (tt_tree r) ->
  initial_prices_ok (length m) rs (- M) p -> initial_prices_ok (length m) rs (- M) p' ->
  values_within B m -> values_within B m' -> 2 * B * Qn (height (tt_tree r)) <= M -> no_ties m -> no_ties m' ->
  (forall i, In i (node_indices (tt_tree r)) -> (0 < csize (nth i m no_category))%nat) ->
  (forall i, In i (node_indices (tt_tree r)) ->
     category_changes_left (fun v => nth i (tt_prices r) 0 < v) (nth i m no_category) (nth i (tt_cats r) no_category) (new i) (nth i m' no_category)) ->
  (0 < csize (nth (tindex (tt_tree r)) (tt_cats r) no_category))%nat ->
  forall i, In i (node_indices (tt_tree r)) ->
    nth i (tt_prices r') 0 == nth i (tt_prices r) 0 /\ same_values (new i) (cvalues (nth i (tt_cats r') no_category)).
Proof.
  intros M B0 p p' fuel fuel' m m' st new r r' rs HM LM H H' Hrs HD HP HP' HV0 HV0' HMB0 NT NT' NE CL LEFT.
  destruct (room_for_values M B0 (tt_tree r) m HM HV0 HMB0) as (B & HB & LB & HMB).
  assert (HV : values_within B m) by (intros x v Hx Hv; destruct (HV0 x v Hx Hv); lra).
  assert (HV' : values_within B m') by (intros x v Hx Hv; destruct (HV0' x v Hx Hv); lra). clear HV0 HV0' HMB0 LB B0.
  assert (HB0 : 0 <= B) by lra.
  assert (ET : tt_tree r' = tt_tree r).
  { destruct (auction_returned _ _ _ _ _ _ H) as (? & ? & ? & R). destruct (auction_returned _ _ _ _ _ _ H') as (? & ? & ? & R').
    assert (X := rt_tree _ _ _ _ _ _ _ _ _ R). assert (X' := rt_tree _ _ _ _ _ _ _ _ _ R'). unfold new_tree, clone_market in X, X'.
    rewrite map_length in X, X'. rewrite LM in X'. congruence. }
  assert (NE' : forall i, In i (node_indices (tt_tree r)) -> (0 < csize (nth i m' no_category))%nat).
  { intros i Hi. specialize (NE i Hi). destruct (CL i Hi) as (_ & LN & _ & others & S1 & S2). apply length_same_values in S1. apply length_same_values in S2.
    rewrite app_length in S1, S2. unfold csize in *. lia. }
  destruct (auction_run M B p fuel m st r rs HM HB H Hrs HD HP HV HMB NT NE) as (s0 & s & u & SU & R0 & E0 & VS & HR & LOW & EP & EC).
  destruct (auction_run M B p' fuel' m' st r' rs HM HB H') as (s0' & s' & u' & SU' & R0' & E0' & VS' & HR' & LOW' & EP' & EC');
    try (rewrite ?ET, ?LM; assumption).
  rewrite ET, LM in *. set (t := tt_tree r) in *.
  assert (HS := Proof_TA3.clone_sorted m). assert (HS' := Proof_TA3.clone_sorted m').
  assert (SD := clone_sdesc m NT). assert (SD' := clone_sdesc m' NT').
  assert (VC : forall i v, In v (cvalues (cat_at (clone_market m) i)) -> - B <= v <= B).
  { intros i v Hv. rewrite clone_at, clone_In in Hv. destruct (cat_at_In _ _ _ Hv) as [J _]. apply (HV _ _ J Hv). }
  assert (VC' : forall i v, In v (cvalues (cat_at (clone_market m') i)) -> - B <= v <= B).
  { intros i v Hv. rewrite clone_at, clone_In in Hv. destruct (cat_at_In _ _ _ Hv) as [J _]. apply (HV' _ _ J Hv). }
  assert (L1 : (0 < sz s (tindex t))%nat) by (rewrite EC in LEFT; exact LEFT).
  destruct (outcome_near M B (length m) t rs (clone_market m) SU HD HS SD HB0 HM HMB VC p LOW s0 s u R0 E0 VS HR L1)
    as (f & Ef & Cf & Rf & Lf & Sf & L0 & N0 & ON).
  assert (PF : forall j, nth j (tt_prices r) 0 == f j) by (intros j; rewrite EP; apply Ef).
  destruct (stock_run M B (length m) t rs (clone_market m) SU HD HS SD HB0 HM HMB VC p LOW s0 s R0 E0 VS) as [R _].
  destruct (stock_run M B (length m) t rs (clone_market m') SU' HD HS' SD' HB0 HM HMB VC' p' LOW' s0' s' R0' E0' VS') as [R' _].
  assert (I := r_inv _ _ _ _ _ _ _ _ R). assert (I' := r_inv _ _ _ _ _ _ _ _ R').
  assert (DS : forall j, desc (V (clone_market m) j)) by (intros j; apply (Proof_Outsiders.vals_clone_desc m j)).
  assert (DS' : forall j, desc (V (clone_market m') j)) by (intros j; apply (Proof_Outsiders.vals_clone_desc m' j)).
  set (lft := fun j => cvalues (cat_at (cats_of s) j)).
  assert (SP : forall j, V (clone_market m) j = lft j ++ skipn (sz s j) (V (clone_market m) j)).
  { intros j. assert (PX := ia_pfx _ _ _ _ (t_A _ _ _ _ _ _ _ I) j). unfold pfx in PX. unfold lft. rewrite PX.
    change (length (cvalues (cat_at (cats_of s) j))) with (sz s j). unfold V. symmetry. apply firstn_skipn. }
  (* the second market: the new values and the values of the agents who leave *)
  assert (SV : forall j, In j (node_indices t) -> length (new j) = sz s j /\ Forall (fun v => f j < v) (new j)
     /\ same_values (V (clone_market m') j) (new j ++ skipn (sz s j) (V (clone_market m) j))).
  { intros j Hj. destruct (CL j Hj) as (_ & LN & G & others & S1 & S2). rewrite EC in LN, S1. split; [exact LN|]. split.
    - eapply Forall_impl; [|exact G]. cbn. intros v Hv. rewrite PF in Hv. assumption.
    - eapply same_values_trans; [apply same_values_perm, vals_at|]. eapply same_values_trans; [exact S2|].
      apply same_values_app; [apply same_values_perm, Permutation_refl|]. apply same_values_sym.
      apply (same_values_cancel (lft j) (lft j)); [apply same_values_perm, Permutation_refl|]. rewrite <- SP.
      eapply same_values_trans; [apply same_values_perm, vals_at|]. exact S1. }
  (* shortly before the end of the first auction *)
  assert (TR : forall g, can M B (V (clone_market m)) t g -> ripe M B g t -> level g t < 0 -> (forall j, exceed (g j) (V (clone_market m) j) = sz s j) ->
    can M B (V (clone_market m')) t g
    /\ forall j, In j (node_indices t) -> g j <= f j /\ exceed (g j) (V (clone_market m') j) = sz s j /\ Forall (fun v => v <= g j) (skipn (sz s j) (V (clone_market m) j))).
  { intros g Cg Rg Lg Xg. assert (LE : forall j, In j (node_indices t) -> g j <= f j) by (apply (can_mono M B (V (clone_market m)) t g f); auto; lra).
    assert (TE : forall j, Forall (fun v => g j < v) (lft j) /\ Forall (fun v => v <= g j) (skipn (sz s j) (V (clone_market m) j))).
    { intros j. apply top_exceed; [rewrite <- SP; apply DS|]. rewrite <- SP, Xg. reflexivity. }
    assert (SE : forall j q, In j (node_indices t) -> q <= g j -> exceed q (V (clone_market m') j) = exceed q (V (clone_market m) j)).
    { intros j q Hj Hq. destruct (SV j Hj) as (V1 & V2 & V3). rewrite (exceed_same_values q _ _ V3). rewrite (SP j) at 2. rewrite !exceed_app. f_equal.
      rewrite !exceed_all; [exact V1| |].
      - intros v Hv. destruct (TE j) as [X _]. rewrite Forall_forall in X. specialize (X v Hv). lra.
      - intros v Hv. rewrite Forall_forall in V2. specialize (V2 v Hv). specialize (LE j Hj). lra. }
    split; [apply (can_below M B t (V (clone_market m))); assumption|].
    intros j Hj. split; [auto|]. split; [rewrite SE by (assumption || lra); apply Xg|apply TE]. }
  assert (L2 : (0 < sz s' (tindex t))%nat).
  { destruct (Nat.eq_dec (sz s' (tindex t)) 0) as [Z|Z]; [exfalso|lia].
    assert (C' := r_can _ _ _ _ _ _ _ _ R').
    assert (F := empty_root_ripe M B (length m) t rs (clone_market m') HB0 HMB s' I' Z).
    destruct (ia_good _ _ _ _ (t_A _ _ _ _ _ _ _ I')) as [S [G NS]]. assert (LS := run_level M B (length m) t rs (clone_market m') SU' HD s' S I' G).
    destruct (Qmax_exists (level (pr s') t) L0) as (L & B1 & B2 & B3).
    assert (LN : L < 0) by (destruct B3; subst; lra).
    destruct (ON L B2 LN) as (g & G1 & G2 & G3 & G4 & G5).
    destruct (TR g G1 G2) as [T1 T2]; [lra|assumption|].
    assert (RP : ripe M B (raised t s' 0) t).
    { apply (level_ripe M B (length m) t rs (clone_market m') SU' HD HS' HB0 HM HMB VC' s' 0 I' (within_zero _ _ _ _ _ _ _ I') t (st_here t)).
      rewrite (level_ext (raised t s' 0) (pr s')) by (intros j _; apply raised_zero). assumption. }
    assert (X : raised t s' 0 (tindex t) <= g (tindex t)).
    { apply (can_mono M B (V (clone_market m')) t (raised t s' 0) g); auto; [|rewrite (level_ext (raised t s' 0) (pr s')) by (intros j _; apply raised_zero); lra|apply tindex_node].
      apply (can_ext M B _ t (pr s')); [intros j _; symmetry; apply raised_zero|assumption]. }
    rewrite raised_zero in X. assert (Y := exceed_anti _ _ (V (clone_market m') (tindex t)) X).
    rewrite (size_now M B (length m) t rs (clone_market m') HS' s' (tindex t) I') in Y.
    destruct (T2 _ (tindex_node t)) as (_ & T3 & _). lia. }
  destruct (outcome_near M B (length m) t rs (clone_market m') SU' HD HS' SD' HB0 HM HMB VC' p' LOW' s0' s' u' R0' E0' VS' HR' L2)
    as (f' & Ef' & Cf' & Rf' & Lf' & Sf' & L0' & N0' & ON').
  assert (PF' : forall j, nth j (tt_prices r') 0 == f' j) by (intros j; rewrite EP'; apply Ef').
  assert (NEAR : forall L j, L0 <= L -> L < 0 -> In j (node_indices t) -> f' j <= f j - L /\ f j <= f' j - L).
  { intros L j B1 B2 Hj. destruct (ON L B1 B2) as (g & G1 & G2 & G3 & G4 & G5). destruct (TR g G1 G2) as [T1 T2]; [lra|assumption|].
    assert (LE : forall k, In k (node_indices t) -> g k <= f' k) by (apply (can_mono M B (V (clone_market m')) t g f'); auto; lra).
    assert (GE : f' j <= g j + - L) by (apply (up_bound M B (V (clone_market m')) (V (clone_market m')) (- L) t g f'); auto; lra).
    assert (GE2 : f j <= g j + - L).
    { apply (up_bound M B (V (clone_market m)) (V (clone_market m)) (- L) t g f); auto; [intros k Hk; apply T2; assumption|lra]. }
    assert (X := LE j Hj). destruct (T2 j Hj) as (Y & _). lra. }
  assert (FE : forall j, In j (node_indices t) -> f' j == f j).
  { intros j Hj. destruct (Qlt_le_dec (f j) (f' j)) as [A|A].
    - destruct (Qmax_exists L0 (- ((1 # 2) * (f' j - f j)))) as (L & B1 & B2 & B3). assert (LN : L < 0) by (destruct B3; subst; lra).
      destruct (NEAR L j B1 LN Hj). lra.
    - destruct (Qlt_le_dec (f' j) (f j)) as [A'|A']; [|lra].
      destruct (Qmax_exists L0 (- ((1 # 2) * (f j - f' j)))) as (L & B1 & B2 & B3). assert (LN : L < 0) by (destruct B3; subst; lra).
      destruct (NEAR L j B1 LN Hj). lra. }
  destruct (Qmax_exists L0 L0') as (L & B1 & B2 & B3). assert (LN : L < 0) by (destruct B3; subst; lra).
  destruct (ON L B1 LN) as (g & G1 & G2 & G3 & G4 & G5). destruct (ON' L B2 LN) as (g' & G1' & G2' & G3' & G4' & G5').
  destruct (TR g G1 G2) as [T1 T2]; [lra|assumption|].
  assert (GE : forall j, In j (node_indices t) -> g' j == g j) by (apply (can_unique M B (V (clone_market m')) t g' g); auto; lra).
  intros i Hi. split; [rewrite PF, PF'; apply FE; assumption|].
  destruct (T2 i Hi) as (X1 & X2 & X3). destruct (SV i Hi) as (V1 & V2 & V3).
  assert (SZ : sz s' i = sz s i) by (rewrite <- X2, <- G5'; apply exceed_compat; apply GE; assumption).
  assert (E : Forall2 Qeq (V (clone_market m') i) (sort_desc (new i) ++ skipn (sz s i) (V (clone_market m) i))).
  { apply same_values_desc; [apply DS'| |].
    - apply desc_app; [apply sort_desc_desc|assert (X := DS i); rewrite SP in X; apply desc_app_inv in X; apply X|].
      intros x y Hx Hy. rewrite Forall_forall in X3, V2. specialize (X3 y Hy).
      assert (Y : f i < x) by (apply V2; eapply Permutation_in; [apply sort_desc_perm|exact Hx]). lra.
    - eapply same_values_trans; [exact V3|]. apply same_values_app; [apply same_values_perm, Permutation_sym, sort_desc_perm|apply same_values_perm, Permutation_refl]. }
  change (same_values (new i) (cvalues (cat_at (tt_cats r') i))). rewrite EC'.
  assert (PX' := ia_pfx _ _ _ _ (t_A _ _ _ _ _ _ _ I') i). unfold pfx in PX'. rewrite PX'.
  change (length (cvalues (cat_at (cats_of s') i))) with (sz s' i). rewrite SZ.
  exists (sort_desc (new i)). split; [apply Permutation_sym, sort_desc_perm|]. apply F2_sym.
  assert (X := firstn_F2 (sz s i) _ _ E). rewrite firstn_all_app in X by (rewrite sort_desc_length; assumption). exact X.
Qed.
