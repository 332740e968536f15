(** * Prices in a better market (C112): the tree auction, states at a level *)

From Coq Require Import String List Arith Lia QArith Lqa Permutation Sorted Bool.
From Verif Require Import Base Model_Agents Model_Trade Model_Prices Model_Market Model_RecipeTree Model_TreeAuction
  Spec_Market Spec_RecipeTree Spec_TreeAuction Spec_Better Proof_Tree Proof_Tree2 Proof_Tree3 Proof_TA1 Proof_TA2 Proof_TA3 Proof_TA4
  Proof_TA6 Proof_TA7 Proof_TA10 Proof_Renumber Proof_Initial.
Import ListNotations.
Open Scope Q_scope.

Lemma node_path : forall x j, In j (node_indices x) -> exists a, is_path x a /\ In j a.
Proof.
  intros x. induction x as [i ch IH] using rtree_ind'. intros j Hj. rewrite Forall_forall in IH. destruct Hj as [<-|Hj].
  - destruct (level_path [] (Node i ch)) as [a [Ha _]]. exists a. split; [assumption|]. inversion Ha; left; reflexivity.
  - apply in_concat in Hj. destruct Hj as [l [Hl Hj]]. apply in_map_iff in Hl. destruct Hl as [d [<- Hd]].
    destruct (IH d Hd j Hj) as [a [Ha Hja]]. exists (i :: a). split; [econstructor; eassumption|right; assumption].
Qed.

Lemma path_nodes : forall x a j, is_path x a -> In j a -> In j (node_indices x).
Proof.
  intros x a j H. induction H as [i|i ch d a Hd H IH]; intros Hj.
  - destruct Hj as [<-|[]]. left. reflexivity.
  - destruct Hj as [<-|Hj]; [left; reflexivity|]. eapply child_node; [exact Hd|auto].
Qed.

Lemma node_cases : forall i ch j, In j (node_indices (Node i ch)) -> j = i \/ exists d, In d ch /\ In j (node_indices d).
Proof.
  intros i ch j [H|H]; [left; auto|right]. apply in_concat in H. destruct H as [l [Hl Hj]]. apply in_map_iff in Hl.
  destruct Hl as [d [<- Hd]]. exists d. auto.
Qed.

(** Just below a price there is at most one more value. *)
Lemma near_below : forall l lo p, sdesc l -> lo < p -> exists q, lo <= q /\ q < p /\ (exceed q l <= exceed p l + 1)%nat.
Proof.
  intros l lo p H L.
  assert (N : exists q, lo <= q /\ q < p /\ forall v, In v l -> v < p -> v <= q).
  { clear H. induction l as [|v l IH]; [exists lo; split; [lra|]; split; [assumption|]; intros v []|].
    destruct IH as (q & Q1 & Q2 & Q3). destruct (Qlt_le_dec v p) as [A|A].
    - destruct (Qlt_le_dec q v) as [C|C].
      + exists v. split; [lra|]. split; [assumption|]. intros w [<-|Hw] W; [lra|]. specialize (Q3 w Hw W). lra.
      + exists q. split; [assumption|]. split; [assumption|]. intros w [<-|Hw] W; [assumption|auto].
    - exists q. split; [assumption|]. split; [assumption|]. intros w [<-|Hw] W; [lra|auto]. }
  destruct N as (q & Q1 & Q2 & Q3). exists q. split; [assumption|]. split; [assumption|].
  clear Q1 L. induction H as [|v l H IH HF]; [cbn; lia|]. rewrite Forall_forall in HF.
  destruct (exceed_cons q v l) as [[A E]|[A E]]; destruct (exceed_cons p v l) as [[A' E']|[A' E']]; rewrite E, E'; try lra.
  - specialize (IH (fun w Hw => Q3 w (or_intror Hw))). lia.
  - destruct (Qlt_le_dec v p) as [C|C]; [assert (X := Q3 v (or_introl eq_refl) C); lra|].
    enough (Z : exceed q l = exceed p l) by lia. rewrite !exceed_zero; [reflexivity| |].
    + intros w Hw. specialize (HF w Hw). lra.
    + intros w Hw. apply Q3; [right; assumption|]. specialize (HF w Hw). lra.
  - specialize (IH (fun w Hw => Q3 w (or_intror Hw))). lia.
Qed.

Lemma exceed_anti_lt : forall p q l, (exceed p l < exceed q l)%nat -> q < p.
Proof. intros p q l H. destruct (Qlt_le_dec q p) as [A|A]; [assumption|]. assert (X := exceed_anti _ _ l A). lia. Qed.

Lemma nsum_lt_one : forall (F G : rtree -> nat) l d, In d l -> (forall b, In b l -> b = d \/ (G b <= F b)%nat) ->
  (nsum (map F l) < nsum (map G l))%nat -> (F d < G d)%nat.
Proof.
  intros F G l d Hd H L. destruct (le_lt_dec (G d) (F d)) as [A|A]; [|assumption].
  enough (nsum (map G l) <= nsum (map F l))%nat by lia. apply nsum_map_le. intros b Hb. destruct (H b Hb) as [->|X]; assumption.
Qed.

Lemma level_mono : forall f g x, (forall j, In j (node_indices x) -> f j <= g j) -> level f x <= level g x.
Proof.
  intros f g x. induction x as [i ch IH] using rtree_ind'. intros H. rewrite !level_node. assert (X := H i (or_introl eq_refl)).
  destruct ch as [|c ch]; [unfold clevel; cbn [map hd]; lra|]. unfold clevel. cbn [map hd]. inversion IH as [|? ? IHc _]; subst.
  assert (Y : level f c <= level g c); [|lra]. apply IHc. intros j Hj. apply H. eapply child_node; [left; reflexivity|assumption].
Qed.

Lemma clevel_mono : forall f g ch, (forall d j, In d ch -> In j (node_indices d) -> f j <= g j) -> clevel f ch <= clevel g ch.
Proof.
  intros f g [|d ch] H; [unfold clevel; cbn [map hd]; lra|]. unfold clevel. cbn [map hd]. apply level_mono. intros j Hj.
  apply (H d); [left; reflexivity|assumption].
Qed.

Section One.
  Variables (M B : Q).

  Lemma can_same : forall V V' x, (forall j p, In j (node_indices x) -> exceed p (V' j) = exceed p (V j)) ->
    forall f, can M B V x f <-> can M B V' x f.
  Proof.
    intros V V' x. induction x as [i ch IH] using rtree_ind'. intros H f. rewrite Forall_forall in IH.
    assert (HC : forall d, In d ch -> forall g, can M B V d g <-> can M B V' d g).
    { intros d Hd. apply IH; [assumption|]. intros j p Hj. apply H. eapply child_node; eassumption. }
    assert (CT : forall g, count V' g ch = count V g ch).
    { intros g. unfold count. f_equal. apply map_ext_in. intros d Hd. apply H. eapply child_node; [exact Hd|apply tindex_node]. }
    assert (HI := fun p => H i p (or_introl eq_refl)).
    rewrite !can_node. split; intros (H1 & H2 & H3 & H4); (split; [intros d Hd; apply HC; auto|]; split; [assumption|]; split).
    - intros p' P L. rewrite CT, HI. auto.
    - intros g G1 G2 G3 L. rewrite CT, HI. apply H4; try assumption. intros d Hd. apply HC; auto.
    - intros p' P L. rewrite <- CT, <- HI. auto.
    - intros g G1 G2 G3 L. rewrite <- CT, <- HI. apply H4; try assumption. intros d Hd. apply HC; auto.
  Qed.

  Variable V : nat -> list Q.

  Lemma can_sub : forall x f, can M B V x f -> forall y, subtree x y -> can M B V y f.
  Proof.
    intros x f H y Hy. induction Hy as [|i ch d Hy IH Hd]; [assumption|]. apply can_node in IH. apply IH. assumption.
  Qed.

  (** All prices go up with the level. *)
  Lemma can_mono : forall x f g, can M B V x f -> can M B V x g -> ripe M B f x -> ripe M B g x -> level f x <= level g x ->
    forall j, In j (node_indices x) -> f j <= g j.
  Proof.
    intros x. induction x as [i ch IH] using rtree_ind'. intros f g Hf Hg Rf Rg L j Hj. rewrite Forall_forall in IH.
    apply can_node in Hf. apply can_node in Hg. destruct Hf as (F1 & F2 & F3 & F4). destruct Hg as (G1 & G2 & G3 & G4).
    rewrite !level_node in L.
    assert (Cf := fun c Hc => ripe_child M B f i ch c Rf Hc). assert (Cg := fun c Hc => ripe_child M B g i ch c Rg Hc).
    destruct (Rf _ (st_here _)) as [_ Rfi]. destruct (Rg _ (st_here _)) as [_ Rgi]. cbn [tindex] in *.
    assert (E : f i <= g i).
    { destruct (Qlt_le_dec (g i) (f i)) as [A|A]; [exfalso|assumption]. assert (X := F3 (g i) Rgi A).
      destruct (G4 f F1 Cf F2) as [Y1 Y2]; [lra|]. lia. }
    assert (EL : clevel f ch <= clevel g ch).
    { destruct (Qlt_le_dec (clevel g ch) (clevel f ch)) as [A|A]; [exfalso|assumption]. assert (LI : f i < g i) by lra.
      assert (X := G3 (f i) Rfi LI). destruct (F4 g G1 Cg G2 A) as [Y1 Y2]. lia. }
    apply node_cases in Hj. destruct Hj as [->|[d [Hd Hj]]]; [assumption|].
    apply (IH d Hd f g); auto. rewrite (F2 d Hd), (G2 d Hd). assumption.
  Qed.

  (** There is a state at each level below. *)
  Definition supply (x : rtree) (f : nat -> Q) : Prop := forall i ch L, subtree x (Node i ch) -> ch <> [] ->
    (forall d, In d ch -> floor M B d <= L) -> L <= clevel f ch ->
    exists g, (forall d, In d ch -> can M B V d g) /\ (forall d, In d ch -> ripe M B g d) /\ even g ch /\ clevel g ch == L.

  Lemma supply_child : forall i ch d f, supply (Node i ch) f -> In d ch -> supply d f.
  Proof.
    intros i ch d f H Hd i' ch' L Hs. apply (H i' ch' L). eapply subtree_trans; [|exact Hs]. eapply st_down; [constructor|assumption].
  Qed.

  Lemma supply_less : forall x f g, supply x f -> (forall j, In j (node_indices x) -> g j <= f j) -> supply x g.
  Proof.
    intros x f g H LE i ch L Hs NE HF HL. apply (H i ch L Hs NE HF). eapply Qle_trans; [exact HL|]. apply clevel_mono.
    intros d j Hd Hj. apply LE. eapply subtree_nodes; [exact Hs|]. eapply child_node; eassumption.
  Qed.
End One.

Section Better.
  Variables (M B : Q) (V V' : nat -> list Q) (c : nat).
  Hypothesis same : forall j p, j <> c -> exceed p (V' j) = exceed p (V j).
  Hypothesis more : forall p, (exceed p (V c) <= exceed p (V' c))%nat.
  Hypothesis ND : sdesc (V c).
  Hypothesis ND' : sdesc (V' c).

  Lemma can_away : forall x f, ~ In c (node_indices x) -> can M B V x f <-> can M B V' x f.
  Proof. intros x f H. apply can_same. intros j p Hj. apply same. intros ->. contradiction. Qed.

  Lemma count_away : forall f ch, (forall d, In d ch -> ~ In c (node_indices d)) -> count V' f ch = count V f ch.
  Proof.
    intros f ch H. unfold count. f_equal. apply map_ext_in. intros d Hd. apply same. intros E. apply (H d Hd). rewrite <- E. apply tindex_node.
  Qed.

  (** At the same level: the root of the subtree has a lower price, or a higher one if it is the better category itself; in both
      cases at least as many agents are left. *)
  Lemma compare : forall x f f', distinct_categories x -> In c (node_indices x) -> can M B V x f -> can M B V' x f' ->
    ripe M B f x -> ripe M B f' x -> supply M B V x f -> level f x == level f' x ->
    (tindex x = c -> f c <= f' c) /\ (tindex x <> c -> f' (tindex x) <= f (tindex x))
    /\ (exceed (f (tindex x)) (V (tindex x)) <= exceed (f' (tindex x)) (V' (tindex x)))%nat.
  Proof.
    intros x. induction x as [i ch IH] using rtree_ind'. intros f f' HD Hc Hf Hf' Rf Rf' SP L. rewrite Forall_forall in IH. cbn [tindex].
    apply can_node in Hf. apply can_node in Hf'. destruct Hf as (F1 & F2 & F3 & F4). destruct Hf' as (G1 & G2 & G3 & G4).
    rewrite !level_node in L. destruct (distinct_inv _ _ HD) as [Hi HDc].
    assert (Cf := fun d Hd => ripe_child M B f i ch d Rf Hd). assert (Cf' := fun d Hd => ripe_child M B f' i ch d Rf' Hd).
    destruct (Rf _ (st_here _)) as [_ Rfi]. destruct (Rf' _ (st_here _)) as [_ Rfi']. cbn [tindex] in *.
    destruct (Nat.eq_dec i c) as [->|NI].
    - assert (AW : forall d, In d ch -> ~ In c (node_indices d)).
      { intros d Hd X. apply Hi. apply in_concat. exists (node_indices d). split; [apply in_map; assumption|assumption]. }
      assert (CT := fun g => count_away g ch AW).
      assert (E : f c <= f' c).
      { destruct (Qlt_le_dec (f' c) (f c)) as [A|A]; [exfalso|assumption]. assert (X := F3 (f' c) Rfi' A).
        destruct (G4 f) as [Y1 Y2]; [intros d Hd; apply can_away; auto|assumption|assumption|lra|]. rewrite CT in Y1, Y2.
        assert (Z := more (f' c)). lia. }
      split; [intros _; assumption|]. split; [congruence|].
      destruct (Qlt_le_dec (f c) (f' c)) as [A|A].
      + destruct (F4 f') as [Y1 Y2]; [intros d Hd; apply can_away; auto|assumption|assumption|lra|].
        destruct (near_below (V' c) (f c) (f' c) ND' A) as (q & Q1 & Q2 & Q3). assert (X := G3 q ltac:(lra) Q2). rewrite CT in X. lia.
      + rewrite <- (exceed_compat (f c) (f' c)) by lra. apply more.
    - split; [congruence|].
      assert (E : f' i <= f i); [|split; [intros _; assumption|rewrite same by assumption; apply exceed_anti; assumption]].
      destruct (Qlt_le_dec (f i) (f' i)) as [A|A]; [exfalso|assumption].
      assert (NE : ch <> []) by (intros ->; unfold clevel in L; cbn [map hd] in L; lra).
      destruct (SP i ch (clevel f' ch) (st_here _) NE) as (g & S1 & S2 & S3 & S4);
        [intros d Hd; rewrite <- (G2 d Hd); apply (Cf' d Hd d (st_here d))|lra|].
      destruct (F4 g S1 S2 S3) as [Y1 Y2]; [lra|]. assert (X := G3 (f i) Rfi A). rewrite same in X by assumption.
      enough (Z : (count V g ch <= count V' f' ch)%nat) by lia. unfold count. apply nsum_map_le. intros d Hd.
      assert (LE : level g d == level f' d) by (rewrite (S3 d Hd), (G2 d Hd); assumption).
      destruct (in_dec Nat.eq_dec c (node_indices d)) as [J|J].
      + destruct (IH d Hd g f') as (_ & _ & Z); auto; [eapply distinct_child; eassumption|].
        apply (supply_less M B V d f); [eapply supply_child; eassumption|]. apply (can_mono M B V d g f); auto. rewrite LE, (F2 d Hd), (G2 d Hd). lra.
      + assert (tindex d <> c) by (intros E; apply J; rewrite <- E; apply tindex_node). rewrite same by assumption.
        rewrite (exceed_compat (g (tindex d)) (f' (tindex d))); [lia|]. apply (can_unique M B V d g f'); auto; [|apply tindex_node].
        apply can_away; auto.
  Qed.

  (** The whole subtree, when the level in the better market is at least as high, because there were more agents on the way. *)
  Lemma chain : forall x f f', distinct_categories x -> In c (node_indices x) -> can M B V x f -> can M B V' x f' ->
    ripe M B f x -> ripe M B f' x -> supply M B V x f -> supply M B V' x f' -> - M < f c -> level f x <= level f' x ->
    (forall g, can M B V' x g -> ripe M B g x -> level f x <= level g x -> level g x < level f' x ->
       (exceed (f (tindex x)) (V (tindex x)) < exceed (g (tindex x)) (V' (tindex x)))%nat) ->
    (forall L, level f x <= L -> L < level f' x -> exists g, can M B V' x g /\ ripe M B g x /\ level g x == L) ->
    f c <= f' c /\ forall j, In j (node_indices x) -> j <> c -> (related x j c -> f' j <= f j) /\ (~ related x j c -> f j <= f' j).
  Proof.
    intros x. induction x as [i ch IH] using rtree_ind'. intros f f' HD Hc Hf Hf' Rf Rf' SP SP' FM L HQ HE. rewrite Forall_forall in IH. cbn [tindex] in HQ.
    assert (CMP := fun K => compare _ f f' HD Hc Hf Hf' Rf Rf' SP K). cbn [tindex] in CMP.
    assert (Hf0 := Hf). assert (Hf0' := Hf').
    apply can_node in Hf. apply can_node in Hf'. destruct Hf as (F1 & F2 & F3 & F4). destruct Hf' as (G1 & G2 & G3 & G4).
    destruct (distinct_inv _ _ HD) as [Hi HDc].
    assert (Cf := fun d Hd => ripe_child M B f i ch d Rf Hd). assert (Cf' := fun d Hd => ripe_child M B f' i ch d Rf' Hd).
    destruct (Rf _ (st_here _)) as [_ Rfi]. destruct (Rf' _ (st_here _)) as [_ Rfi']. cbn [tindex] in *.
    assert (MONO : forall g, can M B V' (Node i ch) g -> ripe M B g (Node i ch) -> level g (Node i ch) < level f' (Node i ch) ->
      g i <= f' i /\ clevel g ch <= clevel f' ch).
    { intros g Hg Rg Lg. assert (X := can_mono M B V' _ g f' Hg Hf0' Rg Rf' (Qlt_le_weak _ _ Lg)). split; [apply X; left; reflexivity|].
      apply clevel_mono. intros d j Hd Hj. apply X. eapply child_node; eassumption. }
    rewrite !level_node in L. setoid_rewrite level_node in HQ. setoid_rewrite level_node in HE. setoid_rewrite level_node in MONO.
    setoid_rewrite level_node in CMP.
    destruct (Nat.eq_dec i c) as [->|NI].
    - assert (AW : forall d, In d ch -> ~ In c (node_indices d)).
      { intros d Hd X. apply Hi. apply in_concat. exists (node_indices d). split; [apply in_map; assumption|assumption]. }
      assert (CT := fun g => count_away g ch AW).
      assert (F1' : forall d, In d ch -> can M B V' d f) by (intros d Hd; apply can_away; auto).
      assert (E : f c <= f' c).
      { destruct (Qlt_le_dec (f' c) (f c)) as [A|A]; [exfalso|assumption]. assert (X := F3 (f' c) Rfi' A).
        destruct (G4 f F1' Cf F2) as [Y1 Y2]; [lra|]. rewrite CT in Y1, Y2. assert (Z := more (f' c)). lia. }
      assert (EL : clevel f' ch <= clevel f ch).
      { destruct (Qlt_le_dec (clevel f ch) (clevel f' ch)) as [A|A]; [exfalso|assumption].
        assert (exists K, f c + clevel f ch <= K /\ K < f' c + clevel f' ch /\ f' c + clevel f ch < K) as (K & K1 & K2 & K3).
        { destruct (Qlt_le_dec (f c + clevel f ch) (f' c + (1#2) * (clevel f ch + clevel f' ch))) as [C|C].
          - exists (f' c + (1#2) * (clevel f ch + clevel f' ch)). lra.
          - exfalso. lra. }
        destruct (HE K K1 K2) as (g & Hg & Rg & Lg).
        destruct (MONO g Hg Rg) as [M1 M2]; [lra|]. assert (Q1 := HQ g Hg Rg). specialize (Q1 ltac:(lra) ltac:(lra)).
        apply can_node in Hg. destruct Hg as (_ & _ & _ & H4). destruct (H4 f F1' Cf F2) as [Y1 Y2]; [lra|]. rewrite CT in Y1, Y2.
        destruct (near_below (V c) (- M) (f c) ND FM) as (q & q1 & q2 & q3). assert (X := F3 q q1 q2). lia. }
      split; [assumption|]. intros j Hj NJ. apply node_cases in Hj. destruct Hj as [->|[d [Hd Hj]]]; [congruence|]. split.
      + intros _. apply (can_mono M B V' d f' f); auto. rewrite (F2 d Hd), (G2 d Hd). assumption.
      + intros NR. exfalso. apply NR. destruct (node_path d j Hj) as [a [Ha Hja]]. exists (c :: a).
        split; [econstructor; eassumption|]. split; [right; assumption|left; reflexivity].
    - assert (Ei : f' i <= f i).
      { destruct (Qlt_le_dec (f i) (f' i)) as [A|A]; [exfalso|assumption].
        destruct (Qlt_le_dec (f i + clevel f ch) (f' i + clevel f' ch)) as [A2|A2].
        - assert (exists K, f i + clevel f ch <= K /\ K < f' i + clevel f' ch /\ f i + clevel f' ch <= K) as (K & K1 & K2 & K3).
          { destruct (Qlt_le_dec (clevel f ch) (clevel f' ch)) as [C|C]; [exists (f i + clevel f' ch)|exists (f i + clevel f ch)]; lra. }
          destruct (HE K K1 K2) as (g & Hg & Rg & Lg). destruct (MONO g Hg Rg) as [M1 M2]; [lra|].
          assert (Q1 := HQ g Hg Rg ltac:(lra) ltac:(lra)). rewrite same in Q1 by assumption. apply exceed_anti_lt in Q1. lra.
        - destruct CMP as (_ & X & _); [lra|]. specialize (X NI). lra. }
      assert (EL : clevel f ch <= clevel f' ch) by lra.
      assert (INFO : forall g, (forall d, In d ch -> can M B V' d g) -> (forall d, In d ch -> ripe M B g d) -> even g ch ->
        clevel f ch <= clevel g ch -> clevel g ch < clevel f' ch -> (count V f ch < count V' g ch)%nat).
      { intros g H1 H2 H3 L1 L2. destruct (Qlt_le_dec (f' i) (f i)) as [A|A].
        - destruct (G4 g H1 H2 H3 L2) as [Y1 Y2]. rewrite same in Y1 by assumption. assert (X := F3 (f' i) Rfi' A). lia.
        - assert (exists K, f i + clevel f ch <= K /\ K < f' i + clevel f' ch /\ f' i + clevel g ch < K) as (K & K1 & K2 & K3).
          { exists (f' i + (1#2) * (clevel g ch + clevel f' ch)). lra. }
          destruct (HE K K1 K2) as (h & Hh & Rh & Lh). destruct (MONO h Hh Rh) as [M1 M2]; [lra|].
          assert (Q1 := HQ h Hh Rh ltac:(lra) ltac:(lra)). rewrite same in Q1 by assumption. apply exceed_anti_lt in Q1.
          apply can_node in Hh. destruct Hh as (_ & _ & _ & H4). destruct (H4 g H1 H2 H3) as [Y1 Y2]; [lra|]. rewrite same in Y1 by assumption.
          destruct (Rh _ (st_here _)) as [_ Rhi]. cbn [tindex] in Rhi. assert (X := F3 (h i) Rhi Q1). lia. }
      apply node_cases in Hc. destruct Hc as [->|[d0 [Hd0 Hc]]]; [congruence|].
      assert (ONE : forall d, In d ch -> In c (node_indices d) -> d = d0).
      { intros d Hd Hcd. eapply (NoDup_concat_same _ node_indices); eassumption. }
      assert (ALL : forall K, clevel f ch <= K -> K < clevel f' ch -> exists g, (forall d, In d ch -> can M B V' d g)
        /\ (forall d, In d ch -> ripe M B g d) /\ even g ch /\ clevel g ch == K).
      { intros K K1 K2. apply (SP' i ch K (st_here _)); [intros ->; destruct Hd0| |lra].
        intros d Hd. assert (X := proj1 (Cf d Hd d (st_here d))). rewrite (F2 d Hd) in X. lra. }
      assert (REL : forall d j, In d ch -> In j (node_indices d) -> related (Node i ch) j c <-> d = d0 /\ related d0 j c).
      { intros d j Hd Hj. split.
        - intros (a & Ha & J1 & J2). inversion Ha as [|? ? e b He Hb]; subst; [destruct J2 as [<-|[]]; congruence|].
          destruct J2 as [<-|J2]; [congruence|]. assert (Ee : e = d0) by (apply ONE; [assumption|eapply path_nodes; eassumption]). subst e.
          destruct J1 as [<-|J1].
          + exfalso. apply Hi. apply in_concat. exists (node_indices d). split; [apply in_map; assumption|assumption].
          + assert (Ed : d = d0). { eapply (NoDup_concat_same _ node_indices); [exact HDc|exact Hd|exact He|exact Hj|eapply path_nodes; eassumption]. }
            split; [assumption|]. exists b. auto.
        - intros [-> (a & Ha & J1 & J2)]. exists (i :: a). split; [econstructor; eassumption|]. split; right; assumption. }
      assert (REC : f c <= f' c /\ forall j, In j (node_indices d0) -> j <> c -> (related d0 j c -> f' j <= f j) /\ (~ related d0 j c -> f j <= f' j)).
      { apply (IH d0 Hd0); auto; try (eapply distinct_child; eassumption); try (eapply supply_child; eassumption).
        - rewrite (F2 d0 Hd0), (G2 d0 Hd0). assumption.
        - intros g Hg Rg L1 L2. rewrite (F2 d0 Hd0) in L1. rewrite (G2 d0 Hd0) in L2.
          destruct (ALL (level g d0) L1 L2) as (h & H1 & H2 & H3 & H4).
          assert (EQ : forall j, In j (node_indices d0) -> h j == g j) by (apply (can_unique M B V' d0); auto; rewrite (H3 d0 Hd0); assumption).
          assert (X := INFO h H1 H2 H3 ltac:(lra) ltac:(lra)). unfold count in X.
          rewrite <- (exceed_compat _ _ (V' (tindex d0)) (EQ (tindex d0) (tindex_node d0))).
          apply (nsum_lt_one (fun d => exceed (f (tindex d)) (V (tindex d))) (fun d => exceed (h (tindex d)) (V' (tindex d))) ch d0 Hd0); [|exact X].
          intros b Hb. destruct (in_dec Nat.eq_dec c (node_indices b)) as [J|J]; [left; auto|right].
          assert (tindex b <> c) by (intros E; apply J; rewrite <- E; apply tindex_node). rewrite same by assumption.
          apply exceed_anti. apply (can_mono M B V b f h); auto; [apply can_away; auto| |apply tindex_node].
          rewrite (F2 b Hb), (H3 b Hb). lra.
        - intros K K1 K2. rewrite (F2 d0 Hd0) in K1. rewrite (G2 d0 Hd0) in K2.
          destruct (ALL K K1 K2) as (h & H1 & H2 & H3 & H4). exists h. split; [auto|]. split; [auto|]. rewrite (H3 d0 Hd0). assumption. }
      destruct REC as [R1 R2]. split; [assumption|]. intros j Hj NJ. apply node_cases in Hj. destruct Hj as [->|[d [Hd Hj]]].
      + split; [intros _; assumption|]. intros NR. exfalso. apply NR. destruct (node_path d0 c Hc) as [a [Ha Hca]].
        exists (i :: a). split; [econstructor; eassumption|]. split; [left; reflexivity|right; assumption].
      + destruct (in_dec Nat.eq_dec c (node_indices d)) as [J|J].
        * assert (d = d0) by auto. subst d. destruct (R2 j Hj NJ) as [S1 S2]. split; intros X.
          -- apply S1. apply (REL d0 j Hd Hj). assumption.
          -- apply S2. intros Y. apply X. apply (REL d0 j Hd Hj). auto.
        * split; intros X.
          -- exfalso. apply (REL d j Hd Hj) in X. destruct X as [-> _]. contradiction.
          -- apply (can_mono M B V d f f'); auto; [apply can_away; auto|]. rewrite (F2 d Hd), (G2 d Hd). assumption.
  Qed.
End Better.
