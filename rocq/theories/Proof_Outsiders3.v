(** * Agents with values below the prices (C114): the tree auction *)

From Coq Require Import String List Arith Lia QArith Lqa Permutation Sorted Bool.
From Verif Require Import Base Model_Agents Model_Trade Model_Prices Model_Market Model_RecipeTree Model_TreeAuction
  Spec_Market Spec_RecipeTree Spec_TreeAuction Spec_Statics Spec_Reorder Spec_Better Spec_Outsiders Proof_Market Proof_Tree Proof_Tree2 Proof_Tree3 Proof_TA1 Proof_TA2 Proof_TA3 Proof_TA4
  Proof_TA6 Proof_TA7 Proof_TA10 Proof_Renumber Proof_Initial Proof_Better Proof_Better3 Proof_Better4 Proof_Lipschitz3 Proof_Outsiders.
Import ListNotations.
Open Scope Q_scope.

Lemma Qmax_exists : forall a b : Q, exists c, a <= c /\ b <= c /\ (c = a \/ c = b).
Proof. intros a b. destruct (Qlt_le_dec a b) as [A|A]; [exists b|exists a]; (split; [lra|]; split; [lra|auto]). Qed.

(** Prices that are right for one market are right for another one in which the same agents have values down to a little below these prices. *)
Lemma can_transfer : forall M B V V' x f delta, can M B V x f -> ripe M B f x -> supply M B V x f -> 0 < delta ->
  (forall j p, In j (node_indices x) -> f j - delta <= p -> exceed p (V' j) = exceed p (V j)) -> can M B V' x f.
Proof.
  intros M B V V' x. induction x as [i ch IH] using rtree_ind'. intros f delta Hf Rf Sf HD HE. rewrite Forall_forall in IH.
  apply can_node in Hf. destruct Hf as (F1 & F2 & F3 & F4). assert (Cf := fun d Hd => ripe_child M B f i ch d Rf Hd).
  assert (HC : forall d j p, In d ch -> In j (node_indices d) -> f j - delta <= p -> exceed p (V' j) = exceed p (V j)).
  { intros d j p Hd Hj L. apply HE; [eapply child_node; eassumption|assumption]. }
  assert (CT : forall g, (forall d, In d ch -> f (tindex d) - delta <= g (tindex d)) -> count V' g ch = count V g ch).
  { intros g Hg. unfold count. f_equal. apply map_ext_in. intros d Hd. apply (HC d); [assumption|apply tindex_node|auto]. }
  apply can_node. split; [|split; [assumption|split]].
  - intros d Hd. apply (IH d Hd f delta); auto; [eapply supply_child; eassumption|intros j p; apply HC; assumption].
  - intros q Q1 Q2. rewrite CT by (intros d _; lra). destruct (Qmax_exists q (f i - delta)) as (q0 & A1 & A2 & A3).
    assert (q0 < f i) by (destruct A3; subst; lra). assert (X := F3 q0 ltac:(lra) H). assert (Y := exceed_anti _ _ (V' i) A1).
    rewrite (HE i q0) in Y by (auto using in_eq || left; reflexivity || assumption). lia.
  - intros g' G1 G2 G3 GL. rewrite (HE i (f i)) by ((left; reflexivity) || lra).
    assert (NE : ch <> []) by (intros ->; unfold clevel in GL; cbn in GL; lra).
    destruct (Qmax_exists (clevel g' ch) (clevel f ch - (1 # 2) * delta)) as (L & A1 & A2 & A3).
    assert (A4 : L < clevel f ch) by (destruct A3; subst; lra).
    destruct (Sf i ch L (st_here _) NE) as (g & S1 & S2 & S3 & S4); [|lra|].
    { intros d Hd. assert (X := proj1 (G2 d Hd d (st_here d))). rewrite (G3 d Hd) in X. lra. }
    destruct (F4 g S1 S2 S3) as [Y1 Y2]; [lra|].
    assert (LE : forall d j, In d ch -> In j (node_indices d) -> g j <= f j).
    { intros d j Hd. apply (can_mono M B V d g f); auto. rewrite (S3 d Hd), (F2 d Hd). lra. }
    assert (GE : forall d j, In d ch -> In j (node_indices d) -> f j <= g j + (1 # 2) * delta).
    { intros d j Hd. apply (up_bound M B V V ((1 # 2) * delta) d g f); auto; [intros k Hk; apply (LE d); assumption|]. rewrite (S3 d Hd), (F2 d Hd). lra. }
    assert (CG : forall d, In d ch -> can M B V' d g).
    { intros d Hd. apply (IH d Hd g ((1 # 2) * delta)); auto; [|lra|].
      - apply (supply_less M B V d f); [eapply supply_child; eassumption|intros j; apply LE; assumption].
      - intros j p Hj L'. apply (HC d); [assumption|assumption|]. assert (X := GE d j Hd Hj). lra. }
    assert (CN : (count V' g ch <= count V' g' ch)%nat).
    { unfold count. apply nsum_map_le. intros d Hd. apply exceed_anti. apply (can_mono M B V' d g' g); auto; [|apply tindex_node].
      rewrite (S3 d Hd), (G3 d Hd). lra. }
    rewrite (CT g) in CN by (intros d Hd; assert (X := GE d (tindex d) Hd (tindex_node d)); lra). lia.
Qed.

Section Supply.
  Variables (M B : Q) (n : nat) (t : rtree) (rs : list (list nat)) (m : market).
  Hypothesis SU : setup n t rs.
  Hypothesis HD : distinct_categories t.
  Hypothesis HS : sorted_cats m.
  Hypothesis HSD : forall i, sdesc (cvalues (cat_at m i)).
  Hypothesis HB0 : 0 <= B.
  Hypothesis HM : 0 < M.
  Hypothesis HMB : 2 * B * Qn (height t) <= M.
  Hypothesis HV : forall i v, In v (cvalues (cat_at m i)) -> - B <= v <= B.
  Variable p : list Q.
  Hypothesis HP : forall i, In i (node_indices t) -> nth i p 0 <= - M.

  (** Shortly before the end the prices are right and the agents that are left at the end are those with higher values. *)
  Lemma outcome_near : forall s0 s u, run M B n t rs m p s0 -> (forall j, pr s0 j = nth j p 0) -> tree_visited M t s0 s ->
    tree_round M t s = Ok (true, u) -> (0 < sz s (tindex t))%nat ->
    exists f, (forall j, pr u j == f j) /\ can M B (V m) t f /\ ripe M B f t /\ level f t == 0 /\ supply M B (V m) t f
      /\ exists L0, L0 < 0 /\ forall L, L0 <= L -> L < 0 -> exists g, can M B (V m) t g /\ ripe M B g t /\ level g t == L /\ supply M B (V m) t g
           /\ forall j, exceed (g j) (V m j) = sz s j.
  Proof.
    intros s0 s u R0 E0 VS HR NZ. destruct (stock_run M B n t rs m SU HD HS HSD HB0 HM HMB HV p HP s0 s R0 E0 VS) as [R [SP SL]].
    assert (I := r_inv _ _ _ _ _ _ _ _ R). assert (C := r_can _ _ _ _ _ _ _ _ R).
    destruct (ia_good _ _ _ _ (t_A _ _ _ _ _ _ _ I)) as [S [G NS]].
    assert (LS := run_level M B n t rs m SU HD s S I G).
    destruct (round_inv _ _ _ _ _ _ _ _ SU G HR) as [(_ & -> & Z)|[d [MV [Gd [[_ [Hd Ec]]|[X _]]]]]]; [lia| |discriminate].
    destruct (moved_within M B n t rs m s u S d I (Qlt_le_weak _ _ NS) MV) as [D W].
    assert (LA := fun e => level_active t HD s e t (st_here t) (root_active t s)).
    assert (FN := floor_neg M B t HB0 HM HMB).
    assert (RP : forall e, within M t s e -> floor M B t <= level (pr s) t + e -> ripe M B (raised t s e) t).
    { intros e We F. apply (level_ripe M B n t rs m SU HD HS HB0 HM HMB HV); [assumption|assumption|constructor|rewrite LA; assumption]. }
    assert (CR : forall e, within M t s e -> can M B (V m) t (raised t s e)).
    { intros e We. apply (can_raised M B n t rs m SU HD HS HB0 HM HMB HV); [assumption|constructor|assumption|assumption]. }
    assert (ST : forall e, within M t s e -> stock M B t m (raised t s e)).
    { intros e We. eapply stock_raised; try eassumption. split; assumption. }
    assert (RF : ripe M B (raised t s d) t) by (apply RP; [assumption|lra]).
    exists (raised t s d). split; [intros j; eapply moved_raised; eassumption|]. split; [auto|]. split; [assumption|].
    split; [rewrite LA; lra|]. split; [apply ST; assumption|].
    destruct (Qmax_exists (floor M B t) (level (pr s) t)) as (L0 & A1 & A2 & A3). exists L0. split; [destruct A3; subst; lra|].
    intros L HL0 LN. set (e := L - level (pr s) t). assert (We : within M t s e) by (apply (within_less M t s d e W); unfold e; lra).
    exists (raised t s e). split; [auto|]. split; [apply RP; [assumption|unfold e; lra]|]. split; [rewrite LA; unfold e; lra|].
    split; [apply ST; assumption|].
    intros j. apply (size_exceed M B n t rs m HS s d e j I W); [unfold e; lra|right; unfold e; lra].
  Qed.
End Supply.

(** Room between the prices and the values below. *)
Lemma gap_list : forall p l, Forall (fun v : Q => v < p) l -> exists d, 0 < d /\ Forall (fun v => v <= p - d) l.
Proof.
  intros p l H. induction H as [|v l Hv HF (d & D1 & D2)]; [exists 1; split; [reflexivity|constructor]|].
  destruct (Qlt_le_dec d (p - v)) as [A|A].
  - exists d. split; [assumption|]. constructor; [lra|assumption].
  - exists (p - v). split; [lra|]. constructor; [lra|]. eapply Forall_impl; [|exact D2]. cbn. intros w Hw. lra.
Qed.

Lemma exceed_low : forall q l, Forall (fun v => v <= q) l -> exceed q l = 0%nat.
Proof. intros q l H. apply exceed_zero. rewrite Forall_forall in H. exact H. Qed.

Lemma gap_all : forall (f : nat -> Q) (V V' : nat -> list Q) l,
  (forall j, In j l -> exists common low low', Permutation (V j) (common ++ low) /\ Permutation (V' j) (common ++ low')
     /\ Forall (fun v => v < f j) low /\ Forall (fun v => v < f j) low') ->
  exists d, 0 < d /\ forall j, In j l -> exists common low low', Permutation (V j) (common ++ low) /\ Permutation (V' j) (common ++ low')
     /\ Forall (fun v => v <= f j - d) low /\ Forall (fun v => v <= f j - d) low'.
Proof.
  intros f V V' l. induction l as [|a l IH]; intros H; [exists 1; split; [reflexivity|intros j []]|].
  destruct IH as (d & D1 & D2); [intros j Hj; apply H; right; assumption|].
  destruct (H a (or_introl eq_refl)) as (cm & low & low' & P1 & P2 & F1 & F2).
  destruct (gap_list _ _ F1) as (d1 & E1 & E2). destruct (gap_list _ _ F2) as (d2 & E3 & E4).
  assert (K : exists e, 0 < e /\ e <= d /\ e <= d1 /\ e <= d2).
  { destruct (Qlt_le_dec d d1), (Qlt_le_dec d d2), (Qlt_le_dec d1 d2);
      first [exists d; repeat (split; [lra|]); lra|exists d1; repeat (split; [lra|]); lra|exists d2; repeat (split; [lra|]); lra]. }
  destruct K as (e & K1 & K2 & K3 & K4). exists e. split; [assumption|]. intros j [<-|Hj].
  - exists cm, low, low'. split; [assumption|]. split; [assumption|].
    split; [eapply Forall_impl; [|exact E2]|eapply Forall_impl; [|exact E4]]; cbn; intros v Hv; lra.
  - destruct (D2 j Hj) as (cj & lj & lj' & Q1 & Q2 & Q3 & Q4). exists cj, lj, lj'. split; [assumption|]. split; [assumption|].
    split; [eapply Forall_impl; [|exact Q3]|eapply Forall_impl; [|exact Q4]]; cbn; intros v Hv; lra.
Qed.

Lemma gap_exceed : forall x V V' common low low' p, Permutation V (common ++ low) -> Permutation V' (common ++ low') ->
  Forall (fun v => v <= x) low -> Forall (fun v => v <= x) low' -> x <= p -> exceed p V' = exceed p V.
Proof.
  intros x V V' cm low low' p P1 P2 E2 E4 L.
  rewrite (exceed_perm p _ _ P1), (exceed_perm p _ _ P2), !exceed_app.
  rewrite (exceed_low p low), (exceed_low p low'); [reflexivity| |].
  - eapply Forall_impl; [|exact E4]. cbn. intros v Hv. lra.
  - eapply Forall_impl; [|exact E2]. cbn. intros v Hv. lra.
Qed.

(** Remaining agents: the same number of the highest values. *)
Lemma firstn_top : forall A A' B B' k, Forall2 Qeq A A' -> (k <= length A)%nat -> Forall2 Qeq (firstn k (A ++ B)) (firstn k (A' ++ B')).
Proof.
  intros A A' B B' k H. revert k. induction H as [|a a' A A' E F IH]; intros [|k] L; cbn in *; try constructor; try lia; [assumption|apply IH; lia].
Qed.

Theorem tree_outsiders : forall M B p p' fuel fuel' m m' st r r' rs, 0 < M -> length m' = length m ->
  tree_auction M p fuel m st = Ok r -> tree_auction M p' fuel' m' st = Ok r' -> recipes (length m) (tt_tree r) = Ok rs ->
  distinct_categories (tt_tree r) ->
  initial_prices_ok (length m) rs (- M) p -> initial_prices_ok (length m) rs (- M) p' ->
  values_within B m -> values_within B m' -> 2 * B * Qn (height (tt_tree r)) <= M -> no_ties m -> no_ties m' ->
  (forall i, In i (node_indices (tt_tree r)) -> (0 < csize (nth i m no_category))%nat /\ (0 < csize (nth i m' no_category))%nat) ->
  (forall i, In i (node_indices (tt_tree r)) -> category_differs_below (nth i (tt_prices r) 0) (nth i m no_category) (nth i m' no_category)) ->
  (0 < csize (nth (tindex (tt_tree r)) (tt_cats r) no_category))%nat ->
  forall i, In i (node_indices (tt_tree r)) ->
    nth i (tt_prices r') 0 == nth i (tt_prices r) 0 /\ same_agents (nth i (tt_cats r) no_category) (nth i (tt_cats r') no_category).
Proof.
  intros M B0 p p' fuel fuel' m m' st r r' rs HM LM H H' Hrs HD HP HP' HV0 HV0' HMB0 NT NT' NE2 DB LEFT.
  destruct (room_for_values M B0 (tt_tree r) m HM HV0 HMB0) as (B & HB & LB & HMB).
  assert (HV : values_within B m) by (intros x v Hx Hv; destruct (HV0 x v Hx Hv); lra).
  assert (HV' : values_within B m') by (intros x v Hx Hv; destruct (HV0' x v Hx Hv); lra). clear HV0 HV0' HMB0 LB B0.
  assert (HB0 : 0 <= B) by lra.
  assert (ET : tt_tree r' = tt_tree r).
  { destruct (auction_returned _ _ _ _ _ _ H) as (? & ? & ? & R). destruct (auction_returned _ _ _ _ _ _ H') as (? & ? & ? & R').
    assert (X := rt_tree _ _ _ _ _ _ _ _ _ R). assert (X' := rt_tree _ _ _ _ _ _ _ _ _ R'). unfold new_tree, clone_market in X, X'.
    rewrite map_length in X, X'. rewrite LM in X'. congruence. }
  assert (NE := fun i Hi => proj1 (NE2 i Hi)). assert (NE' := fun i Hi => proj2 (NE2 i Hi)).
  destruct (auction_run M B p fuel m st r rs HM HB H Hrs HD HP HV HMB NT NE) as (s0 & s & u & SU & R0 & E0 & VS & HR & LOW & EP & EC).
  destruct (auction_run M B p' fuel' m' st r' rs HM HB H') as (s0' & s' & u' & SU' & R0' & E0' & VS' & HR' & LOW' & EP' & EC');
    try (rewrite ?ET, ?LM; assumption).
  rewrite ET, LM in *. set (t := tt_tree r) in *.
  assert (HS := Proof_TA3.clone_sorted m). assert (HS' := Proof_TA3.clone_sorted m').
  assert (SD := clone_sdesc m NT). assert (SD' := clone_sdesc m' NT').
  assert (VC : forall i v, In v (cvalues (cat_at (clone_market m) i)) -> - B <= v <= B).
  { intros i v Hv. rewrite clone_at, clone_In in Hv. destruct (cat_at_In _ _ _ Hv) as [J _]. apply (HV _ _ J Hv). }
  assert (VC' : forall i v, In v (cvalues (cat_at (clone_market m') i)) -> - B <= v <= B).
  { intros i v Hv. rewrite clone_at, clone_In in Hv. destruct (cat_at_In _ _ _ Hv) as [J _]. apply (HV' _ _ J Hv). }
  assert (L1 : (0 < sz s (tindex t))%nat) by (rewrite EC in LEFT; exact LEFT).
  destruct (outcome_near M B (length m) t rs (clone_market m) SU HD HS SD HB0 HM HMB VC p LOW s0 s u R0 E0 VS HR L1)
    as (f & Ef & Cf & Rf & Lf & Sf & L0 & N0 & ON).
  assert (PF : forall j, nth j (tt_prices r) 0 == f j) by (intros j; rewrite EP; apply Ef).
  assert (DF : forall j, In j (node_indices t) -> exists common low low', Permutation (V (clone_market m) j) (common ++ low)
    /\ Permutation (V (clone_market m') j) (common ++ low') /\ Forall (fun v => v < f j) low /\ Forall (fun v => v < f j) low').
  { intros j Hj. destruct (DB j Hj) as (_ & cm & low & low' & P1 & P2 & F1 & F2). exists cm, low, low'.
    split; [eapply Permutation_trans; [apply vals_at|exact P1]|]. split; [eapply Permutation_trans; [apply vals_at|exact P2]|].
    split; (eapply Forall_impl; [|eassumption]); cbn; intros v Hv; rewrite PF in Hv; assumption. }
  destruct (gap_all f _ _ _ DF) as (delta & D0 & GP).
  assert (GAP : forall j q, In j (node_indices t) -> f j - delta <= q -> exceed q (V (clone_market m') j) = exceed q (V (clone_market m) j)).
  { intros j q Hj L. destruct (GP j Hj) as (cm & low & low' & P1 & P2 & F1 & F2). eapply gap_exceed; eassumption. }
  (* prices of the first auction shortly before its end suit the second market *)
  assert (TR : forall g, can M B (V (clone_market m)) t g -> ripe M B g t -> supply M B (V (clone_market m)) t g -> level g t <= 0 -> - ((1 # 2) * delta) <= level g t ->
    can M B (V (clone_market m')) t g /\ forall j, In j (node_indices t) -> exceed (g j) (V (clone_market m') j) = exceed (g j) (V (clone_market m) j)).
  { intros g Cg Rg Sg Lg Lg'. assert (LE : forall j, In j (node_indices t) -> g j <= f j) by (apply (can_mono M B (V (clone_market m)) t g f); auto; lra).
    assert (GE : forall j, In j (node_indices t) -> f j <= g j + (1 # 2) * delta).
    { apply (up_bound M B (V (clone_market m)) (V (clone_market m)) ((1 # 2) * delta) t g f); auto. lra. }
    split.
    - apply (can_transfer M B (V (clone_market m)) _ t g ((1 # 2) * delta)); auto; [lra|]. intros j q Hj L. apply GAP; [assumption|]. assert (X := GE j Hj). lra.
    - intros j Hj. apply GAP; [assumption|]. assert (X := GE j Hj). lra. }
  assert (L2 : (0 < sz s' (tindex t))%nat).
  { destruct (Nat.eq_dec (sz s' (tindex t)) 0) as [Z|Z]; [exfalso|lia].
    destruct (stock_run M B (length m) t rs (clone_market m') SU' HD HS' SD' HB0 HM HMB VC' p' LOW' s0' s' R0' E0' VS') as [R' _].
    assert (I' := r_inv _ _ _ _ _ _ _ _ R'). assert (C' := r_can _ _ _ _ _ _ _ _ R').
    assert (F := empty_root_ripe M B (length m) t rs (clone_market m') HB0 HMB s' I' Z).
    destruct (ia_good _ _ _ _ (t_A _ _ _ _ _ _ _ I')) as [S [G NS]]. assert (LS := run_level M B (length m) t rs (clone_market m') SU' HD s' S I' G).
    destruct (Qmax_exists (level (pr s') t) (- ((1 # 2) * delta))) as (La & A1 & A2 & A3).
    destruct (Qmax_exists La L0) as (L & B1 & B2 & B3).
    assert (LN : L < 0) by (destruct B3; subst; [destruct A3; subst; lra|lra]).
    destruct (ON L B2 LN) as (g & G1 & G2 & G3 & G4 & G5).
    destruct (TR g G1 G2 G4) as [T1 T2]; [lra|lra|].
    assert (RP : ripe M B (raised t s' 0) t).
    { apply (level_ripe M B (length m) t rs (clone_market m') SU' HD HS' HB0 HM HMB VC' s' 0 I' (within_zero _ _ _ _ _ _ _ I') t (st_here t)).
      rewrite (level_ext (raised t s' 0) (pr s')) by (intros j _; apply raised_zero). assumption. }
    assert (X : raised t s' 0 (tindex t) <= g (tindex t)).
    { apply (can_mono M B (V (clone_market m')) t (raised t s' 0) g); auto; [|rewrite (level_ext (raised t s' 0) (pr s')) by (intros j _; apply raised_zero); lra|apply tindex_node].
      apply (can_ext M B _ t (pr s')); [intros j _; symmetry; apply raised_zero|assumption]. }
    rewrite raised_zero in X. assert (Y := exceed_anti _ _ (V (clone_market m') (tindex t)) X).
    rewrite (size_now M B (length m) t rs (clone_market m') HS' s' (tindex t) I') in Y.
    rewrite (T2 _ (tindex_node t)), G5 in Y. lia. }
  destruct (outcome_near M B (length m) t rs (clone_market m') SU' HD HS' SD' HB0 HM HMB VC' p' LOW' s0' s' u' R0' E0' VS' HR' L2)
    as (f' & Ef' & Cf' & Rf' & Lf' & Sf' & L0' & N0' & ON').
  assert (PF' : forall j, nth j (tt_prices r') 0 == f' j) by (intros j; rewrite EP'; apply Ef').
  destruct (TR f Cf Rf Sf) as [Cf2 _]; [lra|lra|].
  assert (FE : forall j, In j (node_indices t) -> f' j == f j) by (apply (can_unique M B (V (clone_market m')) t f' f); auto; lra).
  (* sizes *)
  destruct (Qmax_exists L0 L0') as (La & A1 & A2 & A3). destruct (Qmax_exists La (- ((1 # 2) * delta))) as (L & B1 & B2 & B3).
  assert (LN : L < 0) by (destruct B3; subst; [destruct A3; subst; lra|lra]).
  destruct (ON L ltac:(lra) LN) as (g & G1 & G2 & G3 & G4 & G5). destruct (ON' L ltac:(lra) LN) as (g' & G1' & G2' & G3' & G4' & G5').
  destruct (TR g G1 G2 G4) as [T1 T2]; [lra|lra|].
  assert (GE : forall j, In j (node_indices t) -> g' j == g j) by (apply (can_unique M B (V (clone_market m')) t g' g); auto; lra).
  assert (SZ : forall j, In j (node_indices t) -> sz s' j = sz s j).
  { intros j Hj. rewrite <- G5, <- G5', <- (T2 j Hj). apply exceed_compat. apply GE. assumption. }
  intros i Hi. split; [rewrite PF, PF'; apply FE; assumption|].
  destruct (stock_run M B (length m) t rs (clone_market m) SU HD HS SD HB0 HM HMB VC p LOW s0 s R0 E0 VS) as [R _].
  destruct (stock_run M B (length m) t rs (clone_market m') SU' HD HS' SD' HB0 HM HMB VC' p' LOW' s0' s' R0' E0' VS') as [R' _].
  assert (I := r_inv _ _ _ _ _ _ _ _ R). assert (I' := r_inv _ _ _ _ _ _ _ _ R').
  assert (PX := ia_pfx _ _ _ _ (t_A _ _ _ _ _ _ _ I) i). assert (PX' := ia_pfx _ _ _ _ (t_A _ _ _ _ _ _ _ I') i).
  destruct (GP i Hi) as (cm & low & low' & P1 & P2 & F1 & F2). unfold pfx in PX, PX'.
  assert (GB : f i <= g i + (1 # 2) * delta).
  { apply (up_bound M B (V (clone_market m)) (V (clone_market m)) ((1 # 2) * delta) t g f); auto; [|lra].
    apply (can_mono M B (V (clone_market m)) t g f); auto; lra. }
  destruct (below_split (g i) _ _ cm low low' (Proof_Outsiders.vals_clone_desc m i) (Proof_Outsiders.vals_clone_desc m' i) P1 P2) as (A & A' & Z & Z' & EA & EA' & FA & _ & FZ & _).
  3: change (Proof_Ascending.vals (clone_market m) i) with (cvalues (cat_at (clone_market m) i)) in EA;
     change (Proof_Ascending.vals (clone_market m') i) with (cvalues (cat_at (clone_market m') i)) in EA'.
  { eapply Forall_impl; [|exact F1]. cbn. intros v Hv. lra. }
  { eapply Forall_impl; [|exact F2]. cbn. intros v Hv. lra. }
  assert (LA : (sz s i <= length A)%nat).
  { rewrite <- G5. unfold V. rewrite EA, exceed_app, (exceed_low _ Z); [assert (X := exceed_length (g i) A); lia|].
    eapply Forall_impl; [|exact FZ]. cbn. intros v Hv. lra. }
  split.
  - change (cname (cat_at (tt_cats r') i) = cname (cat_at (tt_cats r) i)). rewrite EC, EC'.
    rewrite (ia_name _ _ _ _ (t_A _ _ _ _ _ _ _ I) i), (ia_name _ _ _ _ (t_A _ _ _ _ _ _ _ I') i), !clone_at. cbn. apply (DB i Hi).
  - change (Forall2 Qeq (cvalues (cat_at (tt_cats r) i)) (cvalues (cat_at (tt_cats r') i))). rewrite EC, EC', PX, PX', EA, EA'.
    change (length (cvalues (cat_at (cats_of s') i))) with (sz s' i). change (length (cvalues (cat_at (cats_of s) i))) with (sz s i).
    rewrite (SZ i Hi). apply firstn_top; assumption.
Qed.
