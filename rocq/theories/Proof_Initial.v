(** * The initial prices of the tree auction do not matter (C111) *)

From Coq Require Import String List Arith Lia QArith Lqa Permutation Sorted Bool.
From Verif Require Import Base Model_Agents Model_Trade Model_Prices Model_Market Model_RecipeTree Model_TreeAuction
  Spec_Market Spec_RecipeTree Spec_TreeAuction Proof_Tree Proof_Tree2 Proof_Tree3 Proof_TA1 Proof_TA2 Proof_TA3 Proof_TA4
  Proof_TA6 Proof_TA7 Proof_TA10 Proof_Renumber.
Import ListNotations.
Open Scope Q_scope.

(** ** Levels: the sum of the prices from a node to the leaf that is always first *)

Fixpoint level (f : nat -> Q) (x : rtree) : Q :=
  match x with Node i ch => f i + hd 0 (map (level f) ch) end.
Definition clevel (f : nat -> Q) (ch : list rtree) : Q := hd 0 (map (level f) ch).

Lemma level_node : forall f i ch, level f (Node i ch) = f i + clevel f ch.
Proof. reflexivity. Qed.

Lemma level_ext : forall f g x, (forall j, In j (node_indices x) -> f j == g j) -> level f x == level g x.
Proof.
  intros f g x. induction x as [i ch IH] using rtree_ind'. intros H. rewrite !level_node. rewrite (H i (or_introl eq_refl)).
  destruct ch as [|c ch]; [reflexivity|]. unfold clevel. cbn [map hd]. inversion IH as [|? ? IHc _]; subst. rewrite IHc; [reflexivity|].
  intros j Hj. apply H. eapply child_node; [left; reflexivity|assumption].
Qed.

Lemma clevel_ext : forall f g ch, (forall c j, In c ch -> In j (node_indices c) -> f j == g j) -> clevel f ch == clevel g ch.
Proof.
  intros f g [|c ch] H; [reflexivity|]. unfold clevel. cbn [map hd]. apply level_ext. intros j Hj. apply (H c j); [left; reflexivity|assumption].
Qed.

Lemma level_path : forall p x, exists a, is_path x a /\ level (fun i => nth i p 0) x == path_sum p a.
Proof.
  intros p x. induction x as [i ch IH] using rtree_ind'. destruct ch as [|c ch].
  - exists [i]. split; [constructor|]. rewrite path_sum_one, level_node. unfold clevel. cbn. lra.
  - inversion IH as [|? ? [a [Ha E]] _]; subst. exists (i :: a). split; [econstructor; [left; reflexivity|assumption]|].
    rewrite path_sum_cons, <- E. reflexivity.
Qed.

Definition even (f : nat -> Q) (ch : list rtree) : Prop := forall c, In c ch -> level f c == clevel f ch.

Lemma balanced_even : forall p t i ch, balanced p t -> subtree t (Node i ch) -> even (fun i => nth i p 0) ch.
Proof.
  intros p t i ch HB H c Hc. destruct ch as [|c0 ch]; [destruct Hc|]. unfold clevel. cbn [map hd].
  destruct (level_path p c) as [a [Ha Ea]]. destruct (level_path p c0) as [b [Hb Eb]]. rewrite Ea, Eb.
  eapply balanced_siblings; [eapply balanced_sub; eassumption|exact Hc|left; reflexivity|assumption|assumption].
Qed.

Lemma subtree_inv : forall i ch y, subtree (Node i ch) y -> y = Node i ch \/ exists c, In c ch /\ subtree c y.
Proof.
  intros i ch y H. induction H as [|j ch' c H IH Hc]; [left; reflexivity|]. right. destruct IH as [E|[c' [Hc' H']]].
  - injection E; intros -> ->. exists c. split; [assumption|constructor].
  - exists c'. split; [assumption|]. eapply st_down; eassumption.
Qed.

Lemma exceed_anti : forall p q l, p <= q -> (exceed q l <= exceed p l)%nat.
Proof.
  intros p q l H. induction l as [|v l IH]; [reflexivity|].
  destruct (exceed_cons p v l) as [[L E]|[L E]]; destruct (exceed_cons q v l) as [[L' E']|[L' E']]; rewrite E, E'; try lra; lia.
Qed.

Lemma exceed_all : forall p l, (forall v, In v l -> p < v) -> exceed p l = length l.
Proof.
  intros p l H. induction l as [|v l IH]; [reflexivity|]. destruct (exceed_cons p v l) as [[L E]|[L E]]; rewrite E.
  - specialize (H v (or_introl eq_refl)). lra.
  - cbn [length]. rewrite IH; [reflexivity|]. intros w Hw. apply H. right. assumption.
Qed.

(** ** The prices that the auction can reach, without reference to where it started *)

Section Canonical.
  Variables (M B : Q) (V : nat -> list Q).

  Definition count (f : nat -> Q) (ch : list rtree) : nat := nsum (map (fun c => exceed (f (tindex c)) (V (tindex c))) ch).
  Definition floor (x : rtree) : Q := - M + B * Qn (height x).

  Definition ripe (g : nat -> Q) (x : rtree) : Prop := forall y, subtree x y -> floor y <= level g y /\ - M <= g (tindex y).

  (** A price passed p' only while fewer agents were left below; the prices below passed a level only while at least
      as many agents were left there. *)
  Fixpoint can (x : rtree) : (nat -> Q) -> Prop :=
    match x with
    | Node i ch => fun f =>
        Forall (fun P => P f) (map can ch) /\ even f ch
        /\ (forall p', - M <= p' -> p' < f i -> (count f ch < exceed p' (V i) \/ count f ch = 0)%nat)
        /\ (forall g, Forall (fun P => P g) (map can ch) -> (forall c, In c ch -> ripe g c) -> even g ch -> clevel g ch < clevel f ch ->
              (exceed (f i) (V i) <= count g ch /\ 0 < count g ch)%nat)
    end.

  Lemma can_node : forall i ch f, can (Node i ch) f <->
    (forall c, In c ch -> can c f) /\ even f ch
    /\ (forall p', - M <= p' -> p' < f i -> (count f ch < exceed p' (V i) \/ count f ch = 0)%nat)
    /\ (forall g, (forall c, In c ch -> can c g) -> (forall c, In c ch -> ripe g c) -> even g ch -> clevel g ch < clevel f ch ->
          (exceed (f i) (V i) <= count g ch /\ 0 < count g ch)%nat).
  Proof.
    intros i ch f. cbn [can].
    assert (K : forall g, Forall (fun P : (nat -> Q) -> Prop => P g) (map can ch) <-> (forall c, In c ch -> can c g)).
    { intros g. rewrite Forall_forall. split.
      - intros H c Hc. apply H. apply in_map. assumption.
      - intros H P HP. apply in_map_iff in HP. destruct HP as [c [<- Hc]]. apply H. assumption. }
    rewrite (K f). split; intros (H1 & H2 & H3 & H4); (split; [assumption|]; split; [assumption|]; split; [assumption|]);
      intros g Hg; apply H4; apply K; exact Hg.
  Qed.

  Lemma count_ext : forall f g ch, (forall c, In c ch -> f (tindex c) == g (tindex c)) -> count f ch = count g ch.
  Proof. intros f g ch H. unfold count. f_equal. apply map_ext_in. intros c Hc. apply exceed_compat. apply H. assumption. Qed.

  Lemma count_anti : forall f g ch, (forall c, In c ch -> f (tindex c) <= g (tindex c)) -> (count g ch <= count f ch)%nat.
  Proof. intros f g ch H. unfold count. apply nsum_map_le. intros c Hc. apply exceed_anti. apply H. assumption. Qed.

  Lemma even_ext : forall f g ch, (forall c j, In c ch -> In j (node_indices c) -> f j == g j) -> even f ch -> even g ch.
  Proof.
    intros f g ch H E c Hc. rewrite <- (clevel_ext f g ch H), <- (E c Hc). symmetry. apply level_ext. intros j Hj. apply (H c); assumption.
  Qed.

  Lemma can_ext : forall x f g, (forall j, In j (node_indices x) -> f j == g j) -> can x f -> can x g.
  Proof.
    intros x. induction x as [i ch IH] using rtree_ind'. intros f g H HC. apply can_node in HC. destruct HC as (H1 & H2 & H3 & H4).
    rewrite Forall_forall in IH. assert (HC : forall c j, In c ch -> In j (node_indices c) -> f j == g j).
    { intros c j Hc Hj. apply H. eapply child_node; eassumption. }
    assert (Hi := H i (or_introl eq_refl)).
    assert (EC : count f ch = count g ch).
    { apply count_ext. intros c Hc. apply (HC c); [assumption|apply tindex_node]. }
    apply can_node. split; [|split; [|split]].
    - intros c Hc. apply (IH c Hc f); [|auto]. intros j Hj. apply (HC c); assumption.
    - eapply even_ext; eassumption.
    - intros p' Hp L. rewrite <- EC. apply H3; [assumption|lra].
    - intros h Hh1 Hh2 Hh3 L. rewrite <- (exceed_compat _ _ (V i) Hi). apply H4; try assumption. rewrite (clevel_ext f g ch HC). assumption.
  Qed.

  Lemma ripe_child : forall g i ch c, ripe g (Node i ch) -> In c ch -> ripe g c.
  Proof.
    intros g i ch c H Hc y Hy. apply H. eapply subtree_trans; [|exact Hy]. eapply st_down; [constructor|assumption].
  Qed.

  (** At each level there is only one such state. *)
  Lemma can_unique : forall x f g, can x f -> can x g -> ripe f x -> ripe g x -> level f x == level g x ->
    forall j, In j (node_indices x) -> f j == g j.
  Proof.
    intros x. induction x as [i ch IH] using rtree_ind'. intros f g Hf Hg Rf Rg L. rewrite Forall_forall in IH.
    apply can_node in Hf. apply can_node in Hg. destruct Hf as (F1 & F2 & F3 & F4). destruct Hg as (G1 & G2 & G3 & G4).
    rewrite !level_node in L.
    destruct (Rf _ (st_here _)) as [_ Rfi]. destruct (Rg _ (st_here _)) as [_ Rgi]. cbn [tindex] in *.
    assert (E : f i == g i).
    { destruct (Qlt_le_dec (f i) (g i)) as [A|A].
      - exfalso. assert (X := G3 (f i) Rfi A). destruct (F4 g G1) as [Y1 Y2]; [intros c Hc; eapply ripe_child; eassumption|assumption|lra|]. lia.
      - destruct (Qlt_le_dec (g i) (f i)) as [A'|A']; [|lra].
        exfalso. assert (X := F3 (g i) Rgi A'). destruct (G4 f F1) as [Y1 Y2]; [intros c Hc; eapply ripe_child; eassumption|assumption|lra|]. lia. }
    intros j [<-|Hj]; [assumption|].
    apply in_concat in Hj. destruct Hj as [l [Hl Hj]]. apply in_map_iff in Hl. destruct Hl as [c [<- Hc]].
    apply (IH c Hc f g); try auto; try (eapply ripe_child; eassumption). rewrite (F2 c Hc), (G2 c Hc). lra.
  Qed.
End Canonical.

(** ** One round *)

Section Round.
  Variables (M B : Q) (n : nat) (t : rtree) (rs : list (list nat)) (m : market).
  Hypothesis SU : setup n t rs.
  Hypothesis HD : distinct_categories t.
  Hypothesis HS : sorted_cats m.
  Hypothesis HSD : forall i, sdesc (cvalues (cat_at m i)).
  Hypothesis HB0 : 0 <= B.
  Hypothesis HM : 0 < M.
  Hypothesis HMB : 2 * B * Qn (height t) <= M.
  Hypothesis HV : forall i v, In v (cvalues (cat_at m i)) -> - B <= v <= B.

  Let inv := invT M B n t rs m.
  Definition V (i : nat) : list Q := cvalues (cat_at m i).

  Definition raised (s : tree_state) (e : Q) (j : nat) : Q := pr s j + (if in_dec Nat.eq_dec j (chosen t s) then e else 0).
  Definition within (s : tree_state) (e : Q) : Prop := 0 <= e /\ forall i, In i (chosen t s) -> e <= tgt M (cat_at (cats_of s) i) - pr s i.

  Lemma raised_in : forall s e j, In j (chosen t s) -> raised s e j == pr s j + e.
  Proof. intros s e j H. unfold raised. destruct (in_dec Nat.eq_dec j (chosen t s)); [reflexivity|contradiction]. Qed.
  Lemma raised_out : forall s e j, ~ In j (chosen t s) -> raised s e j == pr s j.
  Proof. intros s e j H. unfold raised. destruct (in_dec Nat.eq_dec j (chosen t s)); [contradiction|lra]. Qed.
  Lemma raised_ge : forall s e j, 0 <= e -> pr s j <= raised s e j.
  Proof. intros s e j H. unfold raised. destruct (in_dec Nat.eq_dec j (chosen t s)); lra. Qed.

  Lemma within_zero : forall s, inv s -> within s 0.
  Proof.
    intros s I. split; [lra|]. intros i Hi. unfold tgt. destruct (cvalues (cat_at (cats_of s) i)) as [|v l] eqn:E.
    - assert (X := ib_max _ _ _ (t_B _ _ _ _ _ _ _ I) i). lra.
    - assert (X := t_strict _ _ _ _ _ _ _ I i (last (v :: l) 0)). rewrite E in X. assert (NN : v :: l <> []) by discriminate. specialize (X (last_In _ NN)). lra.
  Qed.

  Lemma within_less : forall s e e', within s e -> 0 <= e' <= e -> within s e'.
  Proof. intros s e e' [H1 H2] H. split; [lra|]. intros i Hi. specialize (H2 i Hi). lra. Qed.

  (** The nodes of a subtree during a raise. *)
  Definition still (s : tree_state) (x : rtree) : Prop := forall j, In j (node_indices x) -> ~ In j (chosen t s).
  Definition active (s : tree_state) (x : rtree) : Prop :=
    forall j, In j (node_indices x) -> (In j (chosen t s) <-> In j (snd (largest_categories (cats_of s) x))).

  Lemma still_or_active : forall s x, subtree t x -> still s x \/ active s x.
  Proof. intros s x H. exact (chosen_restrict t (cats_of s) x HD H). Qed.

  Lemma still_child : forall s i ch c, still s (Node i ch) -> In c ch -> still s c.
  Proof. intros s i ch c H Hc j Hj. apply H. eapply child_node; eassumption. Qed.

  (** The three ways in which a subtree may take part in a round. *)
  Lemma round_cases : forall s i ch, subtree t (Node i ch) ->
    still s (Node i ch)
    \/ (In i (chosen t s) /\ (forall c, In c ch -> still s c) /\ (children_size (cats_of s) ch < sz s i \/ children_size (cats_of s) ch = 0)%nat)
    \/ (~ In i (chosen t s) /\ (forall c, In c ch -> active s c) /\ (sz s i <= children_size (cats_of s) ch /\ children_size (cats_of s) ch <> 0)%nat).
  Proof.
    intros s i ch H. destruct (still_or_active s _ H) as [K|K]; [left; assumption|right].
    destruct (largest_node (cats_of s) i ch) as [[E C]|[E C]].
    - left. assert (Ci : In i (chosen t s)) by (apply K; [left; reflexivity|rewrite E; left; reflexivity]).
      split; [assumption|]. split; [|assumption]. intros c Hc j Hj. destruct (chosen_node t (cats_of s) i ch HD H Ci) as [_ N]. apply (N c); assumption.
    - right. assert (HDx := subtree_distinct _ _ HD H). destruct (distinct_inv _ _ HDx) as [Hi HDc].
      split; [|split; [|assumption]].
      + intros Ci. destruct (chosen_node t (cats_of s) i ch HD H Ci) as [C' _]. unfold sz in *. lia.
      + intros c Hc j Hj. rewrite (K j) by (eapply child_node; eassumption). rewrite E. rewrite in_concat. split.
        * intros [l [Hl Hjl]]. apply in_map_iff in Hl. destruct Hl as [c' [<- Hc']].
          assert (c' = c); [|subst; assumption].
          eapply (NoDup_concat_same _ node_indices); [exact HDc|exact Hc'|exact Hc| |exact Hj].
          eapply cut_incl; [apply (largest_cut (cats_of s) c')|assumption].
        * intros Hjl. exists (snd (largest_categories (cats_of s) c)). split; [|assumption]. apply in_map_iff. exists c. auto.
  Qed.

  Lemma active_not_still : forall s x, subtree t x -> active s x -> still s x -> False.
  Proof.
    intros s x H A. destruct (largest_categories (cats_of s) x) as [[a b] l] eqn:E. intros T.
    assert (N : exists j, In j (snd (largest_categories (cats_of s) x)) /\ In j (node_indices x)).
    { clear -x. induction x as [i ch IH] using rtree_ind'. destruct (largest_node (cats_of s) i ch) as [[E C]|[E [C1 C2]]]; rewrite E.
      - exists i. split; left; reflexivity.
      - destruct ch as [|c ch]; [exfalso; apply C2; reflexivity|]. inversion IH as [|? ? [j [J1 J2]] _]; subst.
        exists j. split; [cbn [map concat]; apply in_app_iff; left; assumption|eapply child_node; [left; reflexivity|assumption]]. }
    destruct N as [j [J1 J2]]. apply (T j J2). apply A; assumption.
  Qed.

  Lemma level_still : forall s e x, still s x -> level (raised s e) x == level (pr s) x.
  Proof. intros s e x H. apply level_ext. intros j Hj. apply raised_out. apply H. assumption. Qed.

  Lemma level_active : forall s e x, subtree t x -> active s x -> level (raised s e) x == level (pr s) x + e.
  Proof.
    intros s e x. induction x as [i ch IH] using rtree_ind'. intros H A. rewrite Forall_forall in IH. rewrite !level_node.
    destruct (round_cases s i ch H) as [K|[(K1 & K2 & _)|(K1 & K2 & K3 & K4)]].
    - exfalso. eapply active_not_still; eassumption.
    - rewrite (raised_in _ _ _ K1). rewrite (clevel_ext _ (pr s) ch); [lra|]. intros c j Hc Hj. apply raised_out. apply (K2 c Hc j Hj).
    - rewrite (raised_out _ _ _ K1). destruct ch as [|c ch]; [exfalso; apply K4; reflexivity|]. unfold clevel. cbn [map hd].
      rewrite (IH c (or_introl eq_refl)); [lra|eapply st_down; [exact H|left; reflexivity]|apply K2; left; reflexivity].
  Qed.

  Lemma even_start : forall s i ch, inv s -> subtree t (Node i ch) -> even (pr s) ch.
  Proof.
    intros s i ch I H. destruct (ia_good _ _ _ _ (t_A _ _ _ _ _ _ _ I)) as [S [G _]].
    exact (balanced_even _ _ _ _ (good_balanced _ _ _ _ _ SU HD G) H).
  Qed.

  Lemma even_raised : forall s e i ch, inv s -> subtree t (Node i ch) -> even (raised s e) ch.
  Proof.
    intros s e i ch I H. assert (E := even_start s i ch I H).
    assert (ST : (forall c, In c ch -> still s c) -> even (raised s e) ch).
    { intros K. apply (even_ext (pr s)); [|assumption]. intros c j Hc Hj. symmetry. apply raised_out. apply (K c); assumption. }
    destruct (round_cases s i ch H) as [K|[(K1 & K2 & _)|(K1 & K2 & K3 & K4)]].
    - apply ST. intros c Hc. eapply still_child; eassumption.
    - apply ST. assumption.
    - intros c Hc. destruct ch as [|c0 ch0]; [destruct Hc|]. unfold clevel. cbn [map hd].
      assert (S1 := st_down _ _ _ _ H Hc). assert (S2 := st_down _ _ _ c0 H (or_introl eq_refl)).
      rewrite (level_active s e c S1 (K2 c Hc)), (level_active s e c0 S2 (K2 c0 (or_introl eq_refl))).
      rewrite (E c Hc). reflexivity.
  Qed.

  (** The number of remaining agents is the number of values above the price, until the end of the raise. *)
  Lemma size_exceed : forall s e e' j, inv s -> within s e -> 0 <= e' -> e' == 0 \/ e' < e -> exceed (raised s e' j) (V j) = sz s j.
  Proof.
    intros s e e' j I [_ W] H0 HE.
    assert (P := ia_pfx _ _ _ _ (t_A _ _ _ _ _ _ _ I) j). unfold pfx in P.
    unfold V. rewrite <- (firstn_skipn (sz s j) (cvalues (cat_at m j))), exceed_app.
    rewrite (exceed_zero _ (skipn _ _)).
    2: { intros v Hv. assert (X := ib_gone _ _ _ (t_B _ _ _ _ _ _ _ I) j v Hv). assert (Y := raised_ge s e' j H0). lra. }
    unfold sz at 1, csize. rewrite <- P. rewrite exceed_all; [unfold sz, csize; lia|].
    intros v Hv. assert (X := t_strict _ _ _ _ _ _ _ I j v Hv). unfold raised. destruct (in_dec Nat.eq_dec j (chosen t s)) as [C|C]; [|lra].
    destruct HE as [HE|HE]; [lra|]. specialize (W j C). unfold tgt in W.
    assert (D : desc (cvalues (cat_at (cats_of s) j))).
    { eapply pfx_desc; [apply (ia_pfx _ _ _ _ (t_A _ _ _ _ _ _ _ I))|]. apply sorted_cats_at. assumption. }
    assert (Y := last_le _ _ D Hv). destruct (cvalues (cat_at (cats_of s) j)); [destruct Hv|]. lra.
  Qed.

  Lemma size_now : forall s j, inv s -> exceed (pr s j) (V j) = sz s j.
  Proof.
    intros s j I. assert (W := within_zero s I). rewrite <- (size_exceed s 0 0 j I W); [|lra|left; reflexivity].
    apply exceed_compat. unfold raised. destruct (in_dec Nat.eq_dec j (chosen t s)); lra.
  Qed.

  Lemma count_now : forall s ch, inv s -> count V (pr s) ch = children_size (cats_of s) ch.
  Proof. intros s ch I. unfold count, children_size. f_equal. apply map_ext. intros c. rewrite size_now by assumption. reflexivity. Qed.

  Lemma count_raised : forall s e e' ch, inv s -> within s e -> 0 <= e' -> e' == 0 \/ e' < e -> count V (raised s e') ch = children_size (cats_of s) ch.
  Proof. intros s e e' ch I W H0 HE. unfold count, children_size. f_equal. apply map_ext. intros c. rewrite (size_exceed s e) by assumption. reflexivity. Qed.

  (** A non-empty category has a small price, and small prices below. *)
  Lemma price_small : forall s e j, inv s -> within s e -> (0 < sz s j)%nat -> raised s e j <= B.
  Proof.
    intros s e j I [W0 W] Hs. destruct (nonempty_val s j Hs) as [v Hv]. destruct (cur_val M B n t rs m HV s j v I Hv) as [_ X].
    assert (Y := t_strict _ _ _ _ _ _ _ I j v Hv). unfold raised. destruct (in_dec Nat.eq_dec j (chosen t s)) as [C|C]; [|lra].
    specialize (W j C). unfold tgt in W.
    assert (D : desc (cvalues (cat_at (cats_of s) j))).
    { eapply pfx_desc; [apply (ia_pfx _ _ _ _ (t_A _ _ _ _ _ _ _ I))|]. apply sorted_cats_at. assumption. }
    assert (Z := last_le _ _ D Hv). destruct (cvalues (cat_at (cats_of s) j)); [destruct Hv|]. lra.
  Qed.

  Lemma Qn_pred : forall i ch, Qn (height (Node i ch)) == Qn (height (Node i ch) - 1) + 1.
  Proof.
    intros i ch. assert (HP := height_pos (Node i ch)). rewrite <- Qn_S.
    replace (Datatypes.S (height (Node i ch) - 1)) with (height (Node i ch)) by lia. reflexivity.
  Qed.

  Lemma level_small : forall s e, inv s -> within s e -> forall x, subtree t x -> (0 < sz s (tindex x))%nat ->
    level (raised s e) x <= B * Qn (height x) /\ clevel (raised s e) (tchildren x) <= B * Qn (height x - 1).
  Proof.
    intros s e I W x. induction x as [i ch IH] using rtree_ind'. intros H Hs. cbn [tindex tchildren] in *. rewrite Forall_forall in IH.
    assert (PI := price_small s e i I W Hs).
    assert (CH : clevel (raised s e) ch <= B * Qn (height (Node i ch) - 1)).
    { destruct ch as [|c0 ch0]; [unfold clevel; cbn [map hd height fold_right Nat.sub]; rewrite Qn_0; lra|].
      assert (EV := even_raised s e i _ I H).
      destruct (Nat.eq_dec (children_size (cats_of s) (c0 :: ch0)) 0) as [Z|Z].
      - assert (ST : forall c, In c (c0 :: ch0) -> still s c).
        { intros c Hc j Hj X. destruct (chosen_below t (cats_of s) i _ c j HD H Hc Hj X) as [[_ Y] _]. contradiction. }
        rewrite (clevel_ext _ (pr s)) by (intros c j Hc Hj; apply raised_out; apply (ST c Hc j Hj)).
        unfold clevel. cbn [map hd]. destruct (level_path (prices_of s) c0) as [a [Ha Ea]]. unfold pr. rewrite Ea.
        apply (t_K _ _ _ _ _ _ _ I i (c0 :: ch0) H Hs) with (c := c0); [|left; reflexivity|assumption].
        intros c Hc. apply (nsum_zero _ _ _ Z c Hc).
      - apply nsum_nonzero in Z. destruct Z as [c' [Hc' Hp']].
        destruct (IH c' Hc' (st_down _ _ _ _ H Hc') Hp') as [X _]. rewrite <- (EV c' Hc').
        assert (Y := height_child i _ c' Hc'). assert (L : (height c' <= height (Node i (c0 :: ch0)) - 1)%nat) by lia.
        apply (BQ_mono B _ _ HB0) in L. lra. }
    split; [|assumption]. rewrite level_node, Qn_pred. lra.
  Qed.

  (** Below an empty category all prices are at least - B. *)
  Lemma empty_below : forall s, inv s -> forall x, subtree t x -> sz s (tindex x) = 0%nat -> forall y, subtree x y -> sz s (tindex y) = 0%nat.
  Proof.
    intros s I x H Hs y Hy. induction Hy as [|i ch c Hy IH Hc]; [assumption|]. cbn [tindex] in IH.
    eapply (t_down _ _ _ _ _ _ _ I i ch); [eapply subtree_trans; eassumption|exact IH|exact Hc].
  Qed.

  Lemma level_low : forall f, forall x, (forall y, subtree x y -> - B <= f (tindex y)) -> - B * Qn (height x) <= level f x.
  Proof.
    intros f x. induction x as [i ch IH] using rtree_ind'. intros H. rewrite Forall_forall in IH. rewrite level_node.
    assert (X := H _ (st_here _)). cbn [tindex] in X. rewrite Qn_pred.
    assert (CL : - B * Qn (height (Node i ch) - 1) <= clevel f ch).
    { destruct ch as [|c ch]; [unfold clevel; cbn [map hd height fold_right Nat.sub]; rewrite Qn_0; lra|]. unfold clevel. cbn [map hd].
      assert (Y := IH c (or_introl eq_refl)). assert (HC := height_child i (c :: ch) c (or_introl eq_refl)).
      assert (L : (height c <= height (Node i (c :: ch)) - 1)%nat) by lia. apply (BQ_mono B _ _ HB0) in L.
      enough (Z : - B * Qn (height c) <= level f c) by lra. apply Y. intros y Hy. apply H. eapply subtree_trans; [|exact Hy].
      eapply st_down; [constructor|left; reflexivity]. }
    lra.
  Qed.

  Lemma BH : forall x, subtree t x -> 2 * (B * Qn (height x)) <= M /\ 1 <= Qn (height x).
  Proof.
    intros x H. assert (X := height_sub _ _ H). apply (BQ_mono B _ _ HB0) in X. assert (Y := height_pos x). apply Qn_mono in Y. rewrite Qn_1 in Y.
    split; [lra|assumption].
  Qed.

  Lemma BleM : B <= M.
  Proof. destruct (BH t (st_here t)) as [X Y]. nra. Qed.

  (** From a certain level on, all prices are at least - M. *)
  Lemma level_ripe : forall s e, inv s -> within s e -> forall x, subtree t x -> floor M B x <= level (raised s e) x -> ripe M B (raised s e) x.
  Proof.
    intros s e I W x. induction x as [i ch IH] using rtree_ind'. intros H L. rewrite Forall_forall in IH.
    destruct (Nat.eq_dec (sz s i) 0) as [Z|Z].
    - intros y Hy.
      assert (LOW : forall z, subtree y z -> - B <= raised s e (tindex z)).
      { intros z Hz. assert (Hz' := subtree_trans _ _ _ H (subtree_trans _ _ _ Hy Hz)).
        assert (X := t_low _ _ _ _ _ _ _ I (tindex z) (subtree_nodes _ _ _ Hz' (tindex_node z))
          (empty_below s I _ H Z z (subtree_trans _ _ _ Hy Hz))).
        assert (Y := raised_ge s e (tindex z) (proj1 W)). lra. }
      assert (X := level_low _ y LOW). destruct (BH y (subtree_trans _ _ _ H Hy)) as [Y _]. assert (BM := BleM).
      unfold floor. split; [lra|]. specialize (LOW y (st_here y)). lra.
    - assert (Hs : (0 < sz s i)%nat) by lia. destruct (level_small s e I W _ H Hs) as [_ CS]. cbn [tchildren] in CS.
      assert (PI := price_small s e i I W Hs). assert (L' := L). unfold floor in L'. rewrite level_node, Qn_pred in L'.
      assert (EV := even_raised s e i ch I H).
      intros y Hy. apply subtree_inv in Hy. destruct Hy as [->|[c [Hc Hy]]].
      + split; [assumption|]. cbn [tindex]. lra.
      + assert (Hsub := st_down _ _ _ _ H Hc). apply (IH c Hc Hsub); [|assumption]. rewrite (EV c Hc). unfold floor.
        assert (HC := height_child i ch c Hc). assert (LL : (height c <= height (Node i ch) - 1)%nat) by lia.
        apply (BQ_mono B _ _ HB0) in LL. lra.
  Qed.

  (** Where a run may be: the state is one of those described above, whatever the first prices were. *)
  Lemma can_raised : forall s, inv s -> forall x, subtree t x -> can M B V x (pr s) ->
    forall e, within s e -> can M B V x (raised s e).
  Proof.
    intros s I x. induction x as [i ch IH] using rtree_ind'. intros H CX e W. rewrite Forall_forall in IH.
    destruct (round_cases s i ch H) as [K|K].
    { apply (can_ext M B V _ (pr s)); [|assumption]. intros j Hj. symmetry. apply raised_out. apply K. assumption. }
    apply can_node in CX. destruct CX as (C1 & C2 & C3 & C4). apply can_node.
    split; [intros c Hc; apply IH; try assumption; [eapply st_down; eassumption|auto]|]. split; [eapply even_raised; eassumption|].
    destruct K as [(K1 & K2 & K3)|(K1 & K2 & K3 & K4)].
    - assert (EC : count V (raised s e) ch = children_size (cats_of s) ch).
      { rewrite <- count_now by assumption. apply count_ext. intros c Hc. apply raised_out. apply (K2 c Hc). apply tindex_node. }
      assert (CL : clevel (raised s e) ch == clevel (pr s) ch).
      { apply clevel_ext. intros c j Hc Hj. apply raised_out. apply (K2 c Hc j Hj). }
      split.
      + intros p' Hp L. rewrite EC. rewrite (raised_in _ _ _ K1) in L. destruct (Qlt_le_dec p' (pr s i)) as [A|A].
        * assert (X := C3 p' Hp A). rewrite count_now in X by assumption. assumption.
        * enough (E : exceed p' (V i) = sz s i) by lia.
          rewrite <- (size_exceed s e (p' - pr s i) i I W); [|lra|right; lra]. apply exceed_compat. rewrite (raised_in _ _ _ K1). lra.
      + intros g G1 G2 G3 L. rewrite CL in L. destruct (C4 g G1 G2 G3 L) as [X Y]. split; [|assumption].
        assert (Z := exceed_anti _ _ (V i) (raised_ge s e i (proj1 W))). lia.
    - assert (NE : ch <> []) by (intros ->; apply K4; reflexivity).
      assert (CL : forall e', clevel (raised s e') ch == clevel (pr s) ch + e').
      { intros e'. destruct ch as [|c ch]; [congruence|]. unfold clevel. cbn [map hd].
        apply level_active; [eapply st_down; [exact H|left; reflexivity]|apply K2; left; reflexivity]. }
      assert (XI := raised_out s e i K1). split.
      + intros p' Hp L. rewrite XI in L. assert (X := C3 p' Hp L).
        assert (Y : (count V (raised s e) ch <= count V (pr s) ch)%nat) by (apply count_anti; intros c Hc; apply raised_ge; apply W). lia.
      + intros g G1 G2 G3 L. rewrite (exceed_compat _ _ (V i) XI).
        destruct (Qlt_le_dec (clevel g ch) (clevel (pr s) ch)) as [A|A]; [apply C4; assumption|].
        rewrite CL in L. set (e' := clevel g ch - clevel (pr s) ch) in *.
        assert (E0 : 0 <= e' <= e) by (unfold e'; lra). assert (E1 : e' < e) by (unfold e'; lra).
        assert (W' := within_less s e e' W E0).
        assert (EG : forall c, In c ch -> forall j, In j (node_indices c) -> raised s e' j == g j).
        { intros c Hc. assert (Hsub := st_down _ _ _ _ H Hc).
          assert (LE : level (raised s e') c == level g c).
          { rewrite (level_active s e' c Hsub (K2 c Hc)), (C2 c Hc), (G3 c Hc). unfold e'. lra. }
          apply (can_unique M B V c); [apply IH; auto|auto| |auto|assumption].
          apply level_ripe; try assumption. rewrite LE. apply (G2 c Hc c (st_here c)). }
        rewrite (count_ext V g (raised s e')) by (intros c Hc; symmetry; apply (EG c Hc); apply tindex_node).
        rewrite (count_raised s e e' ch I W) by (try (apply E0); right; assumption). rewrite size_now by assumption. lia.
  Qed.

  (** ** Whole runs *)

  Variable p0 : list Q.
  Hypothesis HP0 : forall i, In i (node_indices t) -> nth i p0 0 <= - M.

  Record run (s : tree_state) : Prop := mkRun {
    r_inv : inv s;
    r_can : can M B V t (pr s);
    r_out : forall j, ~ In j (node_indices t) -> pr s j = nth j p0 0
  }.

  Lemma moved_within : forall s s' S d, inv s -> S <= 0 -> moved M t s s' S d -> 0 <= d /\ within s d.
  Proof.
    intros s s' S d I HS0 MV. assert (W := within_zero s I). assert (D : 0 <= d).
    { destruct (mv_min _ _ _ _ _ _ MV) as [E|[i [Hi E]]]; [lra|]. destruct W as [_ W]. specialize (W i Hi). lra. }
    split; [assumption|]. split; [assumption|]. apply (mv_target _ _ _ _ _ _ MV).
  Qed.

  Lemma moved_raised : forall s s' S d, moved M t s s' S d -> forall j, pr s' j == raised s d j.
  Proof.
    intros s s' S d MV j. unfold raised. destruct (in_dec Nat.eq_dec j (chosen t s)) as [C|C].
    - rewrite (mv_chosen _ _ _ _ _ _ MV j C). reflexivity.
    - rewrite (mv_other _ _ _ _ _ _ MV j C). lra.
  Qed.

  Lemma run_step : forall s s', run s -> tree_round M t s = Ok (false, s') -> run s'.
  Proof.
    intros s s' [I C O] HR. destruct (invT_step _ _ _ _ _ _ SU HD HS HSD HB0 HM HMB HV _ _ I HR) as [I' _].
    destruct (ia_good _ _ _ _ (t_A _ _ _ _ _ _ _ I)) as [S [G NS]].
    destruct (round_inv _ _ _ _ _ _ _ _ SU G HR) as [[X _]|[d [MV _]]]; [discriminate|].
    destruct (moved_within s s' S d I (Qlt_le_weak _ _ NS) MV) as [D W].
    split; [assumption| |].
    - apply (can_ext M B V t (raised s d)); [intros j _; symmetry; eapply moved_raised; eassumption|].
      apply can_raised; [assumption|constructor|assumption|assumption].
    - intros j Hj. rewrite (mv_other _ _ _ _ _ _ MV); [apply O; assumption|]. intros Y. apply Hj. eapply chosen_incl. exact Y.
  Qed.

  Lemma start_level : forall x, subtree t x -> level (fun i => nth i p0 0) x <= - M.
  Proof.
    intros x. induction x as [i ch IH] using rtree_ind'. intros H. rewrite level_node.
    assert (X := HP0 i (subtree_nodes _ _ _ H (or_introl eq_refl))). destruct ch as [|c ch]; [unfold clevel; cbn [map hd]; lra|].
    inversion IH as [|? ? IHc _]; subst. unfold clevel. cbn [map hd]. specialize (IHc (st_down _ _ _ _ H (or_introl eq_refl))). lra.
  Qed.

  Lemma start_can : forall s, inv s -> (forall j, pr s j = nth j p0 0) -> forall x, subtree t x -> can M B V x (pr s).
  Proof.
    intros s I E x. induction x as [i ch IH] using rtree_ind'. intros H. rewrite Forall_forall in IH. apply can_node.
    split; [intros c Hc; apply IH; [assumption|eapply st_down; eassumption]|]. split; [eapply even_start; eassumption|]. split.
    - intros p' Hp L. assert (X := HP0 i (subtree_nodes _ _ _ H (or_introl eq_refl))). rewrite E in L. lra.
    - intros g _ R EV L. exfalso. destruct ch as [|c ch]; [unfold clevel in L; cbn [map hd] in L; lra|].
      destruct (R c (or_introl eq_refl) c (st_here c)) as [X _]. unfold clevel in L. cbn [map hd] in L.
      assert (Hc := st_down _ _ _ c H (or_introl eq_refl)). assert (Y := start_level c Hc). destruct (BH c Hc) as [_ Z].
      rewrite (level_ext (pr s) (fun i => nth i p0 0)) in L by (intros j _; rewrite E; reflexivity). unfold floor in X. nra.
  Qed.

  Lemma run_level : forall s S, inv s -> good n rs s S -> level (pr s) t == S.
  Proof.
    intros s S I G. destruct (level_path (prices_of s) t) as [a [Ha E]]. unfold pr. rewrite E.
    exact (sums_paths _ _ _ _ _ SU HD (g_prices _ _ _ _ G) (g_sums _ _ _ _ G) a Ha).
  Qed.

  Lemma root_active : forall s, active s t.
  Proof. intros s j Hj. reflexivity. Qed.

  Lemma raised_zero : forall s j, raised s 0 j == pr s j.
  Proof. intros s j. unfold raised. destruct (in_dec Nat.eq_dec j (chosen t s)); lra. Qed.

  Lemma floor_neg : floor M B t < 0.
  Proof. destruct (BH t (st_here t)) as [X Y]. unfold floor. lra. Qed.

  (** A state with an empty root is above the floor. *)
  Lemma empty_root_ripe : forall s, inv s -> sz s (tindex t) = 0%nat -> floor M B t <= level (pr s) t.
  Proof.
    intros s I Z.
    assert (X : - B * Qn (height t) <= level (pr s) t).
    { apply level_low. intros y Hy. apply (t_low _ _ _ _ _ _ _ I); [eapply subtree_nodes; [exact Hy|apply tindex_node]|].
      eapply (empty_below s I t); [constructor|assumption|assumption]. }
    destruct (BH t (st_here t)) as [Y _]. unfold floor. lra.
  Qed.
End Round.

Section Two.
  Variables (M B : Q) (n : nat) (t : rtree) (rs : list (list nat)) (m : market).
  Hypothesis SU : setup n t rs.
  Hypothesis HD : distinct_categories t.
  Hypothesis HS : sorted_cats m.
  Hypothesis HSD : forall i, sdesc (cvalues (cat_at m i)).
  Hypothesis HB0 : 0 <= B.
  Hypothesis HM : 0 < M.
  Hypothesis HMB : 2 * B * Qn (height t) <= M.
  Hypothesis HV : forall i v, In v (cvalues (cat_at m i)) -> - B <= v <= B.

  Lemma same_point : forall p p' s s' e e', run M B n t rs m p s -> run M B n t rs m p' s' -> within M t s e -> within M t s' e' ->
    level (pr s) t + e == level (pr s') t + e' -> floor M B t <= level (pr s) t + e ->
    forall j, In j (node_indices t) -> raised t s e j == raised t s' e' j.
  Proof.
    intros p p' s s' e e' [I C _] [I' C' _] W W' L F. assert (H := st_here t).
    assert (L1 := level_active t HD s e t H (root_active t s)).
    assert (L2 := level_active t HD s' e' t H (root_active t s')).
    apply (can_unique M B (V m) t).
    - apply (can_raised M B n t rs m SU HD HS HB0 HM HMB HV); assumption.
    - apply (can_raised M B n t rs m SU HD HS HB0 HM HMB HV); assumption.
    - apply (level_ripe M B n t rs m SU HD HS HB0 HM HMB HV); try assumption. rewrite L1. assumption.
    - apply (level_ripe M B n t rs m SU HD HS HB0 HM HMB HV); try assumption. rewrite L2, <- L. assumption.
    - rewrite L1, L2. assumption.
  Qed.

  (** The same sizes too, before the end of the raise. *)
  Lemma same_sizes : forall p p' s s' d d' e e', run M B n t rs m p s -> run M B n t rs m p' s' -> within M t s d -> within M t s' d' ->
    0 <= e -> 0 <= e' -> e == 0 \/ e < d -> e' == 0 \/ e' < d' ->
    level (pr s) t + e == level (pr s') t + e' -> floor M B t <= level (pr s) t + e ->
    forall j, In j (node_indices t) -> sz s j = sz s' j.
  Proof.
    intros p p' s s' d d' e e' R R' W W' H0 H0' H1 H1' L F j Hj.
    assert (We : within M t s e) by (apply (within_less M t s d e W); destruct W as [W0 _]; split; [assumption|destruct H1; lra]).
    assert (We' : within M t s' e') by (apply (within_less M t s' d' e' W'); destruct W' as [W0 _]; split; [assumption|destruct H1'; lra]).
    rewrite <- (size_exceed M B n t rs m HS s d e j (r_inv _ _ _ _ _ _ _ _ R) W H0 H1).
    rewrite <- (size_exceed M B n t rs m HS s' d' e' j (r_inv _ _ _ _ _ _ _ _ R') W' H0' H1').
    apply exceed_compat. eapply same_point; eassumption.
  Qed.

  (** A run with an empty root stops every other run at its level. *)
  Lemma not_above : forall p p' s s' S S' s2 d, run M B n t rs m p s -> run M B n t rs m p' s' -> good n rs s S -> good n rs s' S' ->
    sz s (tindex t) = 0%nat -> S' <= S -> moved M t s' s2 S' d -> S' < 0 -> S' + d <= S.
  Proof.
    intros p p' s s' S S' s2 d R R' G G' Z L MV NS.
    assert (I := r_inv _ _ _ _ _ _ _ _ R). assert (I' := r_inv _ _ _ _ _ _ _ _ R').
    destruct (Qlt_le_dec S (S' + d)) as [A|A]; [exfalso|assumption].
    assert (LS := run_level M B n t rs m SU HD s S I G). assert (LS' := run_level M B n t rs m SU HD s' S' I' G').
    destruct (moved_within M B n t rs m s' s2 S' d I' (Qlt_le_weak _ _ NS) MV) as [D W].
    assert (F := empty_root_ripe M B n t rs m HB0 HMB s I Z).
    assert (E : sz s (tindex t) = sz s' (tindex t)).
    { apply (same_sizes p p' s s' 0 d 0 (S - S') R R'); try lra; try assumption.
      - exact (within_zero M B n t rs m s I).
      - apply tindex_node. }
    assert (X := mv_root _ _ _ _ _ _ MV). lia.
  Qed.

  Lemma never_above : forall p p' s0 s S, run M B n t rs m p s -> good n rs s S -> sz s (tindex t) = 0%nat ->
    (forall i, In i (node_indices t) -> nth i p' 0 <= - M) ->
    run M B n t rs m p' s0 -> (forall j, pr s0 j = nth j p' 0) ->
    forall s', tree_visited M t s0 s' -> run M B n t rs m p' s' /\ forall S', good n rs s' S' -> S' <= S.
  Proof.
    intros p p' s0 s S R G Z HP R0 E0 s' VS. induction VS as [|s1 s2 VS IH HR].
    - split; [assumption|]. intros S' G'. assert (I := r_inv _ _ _ _ _ _ _ _ R). assert (I0 := r_inv _ _ _ _ _ _ _ _ R0).
      assert (LS := run_level M B n t rs m SU HD s S I G). assert (LS' := run_level M B n t rs m SU HD s0 S' I0 G').
      assert (F := empty_root_ripe M B n t rs m HB0 HMB s I Z).
      assert (SL := start_level M t HM p' HP t (st_here t)).
      rewrite (level_ext (pr s0) (fun i => nth i p' 0)) in LS' by (intros j _; rewrite E0; reflexivity).
      destruct (BH M B t HB0 HMB t (st_here t)) as [_ Y]. unfold floor in F. nra.
    - destruct IH as [R1 IH]. assert (R2 := run_step M B n t rs m SU HD HS HSD HB0 HM HMB HV p' s1 s2 R1 HR).
      split; [assumption|]. intros S' G'. destruct (ia_good _ _ _ _ (t_A _ _ _ _ _ _ _ (r_inv _ _ _ _ _ _ _ _ R1))) as [S1 [G1 NS]].
      destruct (round_inv _ _ _ _ _ _ _ _ SU G1 HR) as [[X _]|[d [MV [Gd _]]]]; [discriminate|].
      assert (X := not_above p p' s s1 S S1 s2 d R R1 G G1 Z (IH S1 G1) MV NS).
      assert (I2 := r_inv _ _ _ _ _ _ _ _ R2).
      assert (Y1 := run_level M B n t rs m SU HD s2 S' I2 G'). assert (Y2 := run_level M B n t rs m SU HD s2 _ I2 Gd). lra.
  Qed.

  Lemma final_same : forall p p' s0 s0' s s' u u',
    (forall i, In i (node_indices t) -> nth i p 0 <= - M) -> (forall i, In i (node_indices t) -> nth i p' 0 <= - M) ->
    run M B n t rs m p s0 -> run M B n t rs m p' s0' -> (forall j, pr s0 j = nth j p 0) -> (forall j, pr s0' j = nth j p' 0) ->
    tree_visited M t s0 s -> tree_visited M t s0' s' -> tree_round M t s = Ok (true, u) -> tree_round M t s' = Ok (true, u') ->
    run M B n t rs m p s /\ run M B n t rs m p' s' /\
    forall j, In j (node_indices t) -> pr u j == pr u' j /\ sz s j = sz s' j.
  Proof.
    intros p p' s0 s0' s s' u u' HP HP' R0 R0' E0 E0' VS VS' HR HR'.
    assert (RUN : forall q z0 z, run M B n t rs m q z0 -> tree_visited M t z0 z -> run M B n t rs m q z).
    { intros q z0 z Rz Vz. induction Vz as [|z1 z2 Vz IH HRz]; [assumption|]. eapply run_step; eassumption. }
    assert (R := RUN p s0 s R0 VS). assert (R' := RUN p' s0' s' R0' VS'). split; [assumption|]. split; [assumption|].
    assert (I := r_inv _ _ _ _ _ _ _ _ R). assert (I' := r_inv _ _ _ _ _ _ _ _ R').
    destruct (ia_good _ _ _ _ (t_A _ _ _ _ _ _ _ I)) as [S [G NS]]. destruct (ia_good _ _ _ _ (t_A _ _ _ _ _ _ _ I')) as [S' [G' NS']].
    assert (LS := run_level M B n t rs m SU HD s S I G). assert (LS' := run_level M B n t rs m SU HD s' S' I' G').
    assert (W0 := within_zero M B n t rs m s I). assert (W0' := within_zero M B n t rs m s' I').
    destruct (round_inv _ _ _ _ _ _ _ _ SU G HR) as [(_ & -> & Z)|[d [MV [Gd [[_ [Hd Ec]]|[X _]]]]]]; [| |discriminate];
    destruct (round_inv _ _ _ _ _ _ _ _ SU G' HR') as [(_ & -> & Z')|[d' [MV' [Gd' [[_ [Hd' Ec']]|[X _]]]]]]; try discriminate.
    - destruct (never_above p p' s0' s S R G Z HP' R0' E0' s' VS') as [_ A]. specialize (A S' G').
      destruct (never_above p' p s0 s' S' R' G' Z' HP R0 E0 s VS) as [_ A']. specialize (A' S G).
      assert (F := empty_root_ripe M B n t rs m HB0 HMB s I Z).
      intros j Hj. split.
      + rewrite <- (raised_zero t s), <- (raised_zero t s'). apply (same_point p p'); try assumption; lra.
      + apply (same_sizes p p' s s' 0 0 0 0); try assumption; lra.
    - exfalso. destruct (never_above p p' s0' s S R G Z HP' R0' E0' s' VS') as [_ A]. specialize (A S' G').
      assert (X := not_above p p' s s' S S' u' d' R R' G G' Z A MV' NS'). lra.
    - exfalso. destruct (never_above p' p s0 s' S' R' G' Z' HP R0 E0 s VS) as [_ A]. specialize (A S G).
      assert (X := not_above p' p s' s S' S u d R' R G' G Z' A MV NS). lra.
    - destruct (moved_within M B n t rs m s u S d I (Qlt_le_weak _ _ NS) MV) as [D W].
      destruct (moved_within M B n t rs m s' u' S' d' I' (Qlt_le_weak _ _ NS') MV') as [D' W'].
      assert (F := floor_neg M B t HB0 HM HMB).
      intros j Hj. split.
      + rewrite (moved_raised M t s u S d MV), (moved_raised M t s' u' S' d' MV'). apply (same_point p p'); try assumption; lra.
      + assert (T : exists T, T < 0 /\ S <= T /\ S' <= T /\ floor M B t <= T).
        { destruct (Qlt_le_dec S S') as [A|A].
          - destruct (Qlt_le_dec S' (floor M B t)) as [A2|A2]; [exists (floor M B t)|exists S']; lra.
          - destruct (Qlt_le_dec S (floor M B t)) as [A2|A2]; [exists (floor M B t)|exists S]; lra. }
        destruct T as (T & T1 & T2 & T3 & T4).
        apply (same_sizes p p' s s' d d' (T - S) (T - S')); try assumption; lra.
  Qed.
End Two.

(** ** The whole auction *)

Lemma explained_same : forall cats p p' t, indices_in_range (length p) t -> length p' = length p ->
  deals_explained cats p t = deals_explained cats p' t.
Proof.
  intros cats p p' t R L. revert R. induction t as [i ch IH] using rtree_ind'. intros R. rewrite Forall_forall in IH.
  assert (Hi : (i < length p)%nat) by (unfold indices_in_range in R; rewrite Forall_forall in R; apply R; left; reflexivity).
  assert (E : map_result (deals_explained cats p) ch = map_result (deals_explained cats p') ch).
  { assert (K : forall c, In c ch -> deals_explained cats p c = deals_explained cats p' c).
    { intros c Hc. apply IH; [assumption|]. unfold indices_in_range in *. rewrite Forall_forall in *. intros j Hj. apply R. eapply child_node; eassumption. }
    clear -K. induction ch as [|c ch IH]; [reflexivity|]. cbn [map_result]. rewrite (K c (or_introl eq_refl)).
    rewrite IH by (intros c' Hc'; apply K; right; assumption). reflexivity. }
  destruct ch as [|c ch].
  - cbn [deals_explained]. rewrite !(get_lt _ _ _ 0) by lia. reflexivity.
  - rewrite !explained_children by discriminate. rewrite !(get_lt _ _ _ 0) by lia. cbn [bind]. rewrite E. reflexivity.
Qed.

Theorem initial_prices_free : forall M B p p' fuel fuel' m st r r' rs, 0 < M ->
  tree_auction M p fuel m st = Ok r -> tree_auction M p' fuel' m st = Ok r' -> recipes (length m) (tt_tree r) = Ok rs ->
  distinct_categories (tt_tree r) -> initial_prices_ok (length m) rs (- M) p -> initial_prices_ok (length m) rs (- M) p' ->
  values_within B m -> 2 * B * Qn (height (tt_tree r)) <= M -> no_ties m ->
  (forall i, In i (node_indices (tt_tree r)) -> (0 < csize (cat_at m i))%nat) ->
  tt_tree r' = tt_tree r /\ tt_cats r' = tt_cats r /\ tt_deals r' = tt_deals r /\ tt_kmin r' = tt_kmin r /\ tt_kmax r' = tt_kmax r
  /\ tt_gft r' = tt_gft r /\ forall i, In i (node_indices (tt_tree r)) -> nth i (tt_prices r') 0 == nth i (tt_prices r) 0.
Proof.
  intros M B p p' fuel fuel' m st r r' rs HM H H' Hrs HD HP HP' HV HMB NT NE.
  assert (HB0 : 0 <= B).
  { assert (X := NE (tindex (tt_tree r)) (tindex_node _)). unfold csize in X. destruct (cvalues (cat_at m (tindex (tt_tree r)))) as [|v l] eqn:E; [simpl in X; lia|].
    assert (Hv : In v (cvalues (cat_at m (tindex (tt_tree r))))) by (rewrite E; left; reflexivity).
    destruct (cat_at_In _ _ _ Hv) as [HI _]. destruct (HV _ _ HI Hv). lra. }
  assert (HV' : forall i v, In v (cvalues (cat_at (clone_market m) i)) -> - B <= v <= B).
  { intros i v Hv. rewrite clone_at, clone_In in Hv. destruct (cat_at_In _ _ _ Hv) as [HI _]. apply (HV _ _ HI Hv). }
  assert (HSD : forall i, sdesc (cvalues (cat_at (clone_market m) i))).
  { intros i. rewrite clone_at. unfold clone, new_category. simpl. apply desc_differ; [apply sort_desc_desc|].
    eapply differ_perm; [apply Permutation_sym, sort_desc_perm|]. apply differ_intro. intros l1 x l2 y l3 E.
    unfold cat_at in E. destruct (lt_dec i (length m)) as [L|L].
    - eapply NT; [apply nth_In; exact L|exact E].
    - rewrite nth_overflow in E by lia. simpl in E. destruct l1; discriminate. }
  assert (BM2 : - M < - B).
  { assert (X := height_pos (tt_tree r)). apply Qn_mono in X. rewrite Qn_1 in X. destruct (Qlt_le_dec 0 B) as [P|P]; nra. }
  assert (VA : values_above (- M) m).
  { intros c v Hc Hv. destruct (HV c v Hc Hv). lra. }
  assert (ET : tt_tree r' = tt_tree r).
  { destruct (auction_returned _ _ _ _ _ _ H) as (? & ? & ? & R). destruct (auction_returned _ _ _ _ _ _ H') as (? & ? & ? & R').
    assert (X := rt_tree _ _ _ _ _ _ _ _ _ R). assert (X' := rt_tree _ _ _ _ _ _ _ _ _ R'). congruence. }
  assert (Hrs' : recipes (length m) (tt_tree r') = Ok rs) by (rewrite ET; assumption).
  destruct (auction_final _ _ _ _ _ _ _ HM H Hrs HP VA) as (sp & s & u & R & VS & I0 & EP & I & HR).
  destruct (auction_final _ _ _ _ _ _ _ HM H' Hrs' HP' VA) as (sp' & s' & u' & R' & VS' & I0' & EP' & I' & HR').
  rewrite ET in *. assert (SU := rt_setup _ _ _ _ _ _ _ _ _ R).
  set (t := tt_tree r) in *.
  assert (NE' : forall i, In i (node_indices t) -> (0 < csize (cat_at (clone_market m) i))%nat).
  { intros i Hi. specialize (NE i Hi). rewrite clone_at. unfold csize, clone, new_category in *. simpl. rewrite sort_desc_length. assumption. }
  assert (LOW : forall q, initial_prices_ok (length m) rs (- M) q -> forall i, In i (node_indices t) -> nth i q 0 <= - M).
  { intros q [HL [HF _]] i Hi. rewrite Forall_forall in HF. apply HF, nth_In. rewrite HL. assert (X := su_range _ _ _ SU).
    unfold indices_in_range in X. rewrite Forall_forall in X. apply X. assumption. }
  assert (START : forall q z, initial_prices_ok (length m) rs (- M) q -> invA (length m) rs (clone_market m) (clone_market m, z) ->
    prices_of (clone_market m, z) = q -> run M B (length m) t rs (clone_market m) q (clone_market m, z)).
  { intros q z HQ IA EQ. assert (LQ := LOW q HQ). destruct HQ as [HL [HF _]].
    assert (J0 := invB_start M (length m) q z m HM HL HF EQ).
    assert (T0 : invT M B (length m) t rs (clone_market m) (clone_market m, z)).
    { split; [exact IA|exact J0| | | | ].
      + intros i v Hv. assert (Hv' : In v (cvalues (cat_at (clone_market m) i))) by exact Hv.
        destruct (HV' i v Hv') as [X _]. enough (X0 : nth i q 0 < v) by (rewrite <- EQ in X0; exact X0).
        destruct (lt_dec i (length q)) as [L|L].
        * rewrite Forall_forall in HF. assert (Y := HF _ (nth_In q 0 L)). lra.
        * destruct (cat_at_In _ _ _ Hv') as [_ L']. unfold clone_market in L'. rewrite map_length in L'. lia.
      + intros i ch c Hx Hz. assert (X := NE' i (subtree_nodes _ _ _ Hx (or_introl eq_refl))).
        assert (Y : csize (cat_at (clone_market m) i) = 0%nat) by exact Hz. lia.
      + intros i Hi Hz. assert (X := NE' i Hi). assert (Y : csize (cat_at (clone_market m) i) = 0%nat) by exact Hz. lia.
      + intros i ch Hx Hp Hz c a Hc. assert (X := NE' (tindex c) (subtree_nodes _ _ _ (st_down _ _ _ _ Hx Hc) (tindex_node c))).
        assert (Y : csize (cat_at (clone_market m) (tindex c)) = 0%nat) by exact (Hz c Hc). lia. }
    split; [exact T0| |].
    - apply (start_can M B (length m) t rs (clone_market m) SU HD HB0 HM HMB q LQ); [exact T0| |constructor].
      intros j. unfold pr. rewrite EQ. reflexivity.
    - intros j _. unfold pr. rewrite EQ. reflexivity. }
  destruct (final_same M B (length m) t rs (clone_market m) SU HD (clone_sorted m) HSD HB0 HM HMB HV' p p' (clone_market m, sp) (clone_market m, sp')
    s s' u u' (LOW p HP) (LOW p' HP') (START p sp HP I0 EP) (START p' sp' HP' I0' EP')) as (RS & RS' & FS);
    try assumption; try (intros j; unfold pr; rewrite ?EP, ?EP'; reflexivity).
  destruct (final_shape _ _ _ _ _ _ _ SU (clone_sorted m) I HR) as (E & _ & L1 & L2).
  destruct (final_shape _ _ _ _ _ _ _ SU (clone_sorted m) I' HR') as (E' & _ & L1' & L2').
  assert (SZ : forall j, sz s j = sz s' j).
  { intros j. destruct (in_dec Nat.eq_dec j (node_indices t)) as [J|J]; [apply FS; assumption|].
    assert (K : forall q z, initial_prices_ok (length m) rs (- M) q -> run M B (length m) t rs (clone_market m) q z ->
      sz z j = length (cvalues (cat_at (clone_market m) j))).
    { intros q z [HL [HF _]] RZ. rewrite <- (size_now M B (length m) t rs (clone_market m) (clone_sorted m) z j (r_inv _ _ _ _ _ _ _ _ RZ)).
      apply exceed_all. intros v Hv. rewrite (r_out _ _ _ _ _ _ _ _ RZ j J). destruct (HV' j v Hv) as [X _].
      destruct (cat_at_In _ _ _ Hv) as [_ Lj]. unfold clone_market in Lj. rewrite map_length in Lj.
      rewrite Forall_forall in HF. assert (Y := HF _ (nth_In q 0 (eq_ind_r (fun k => (j < k)%nat) Lj HL))). lra. }
    rewrite (K p s HP RS), (K p' s' HP' RS'). reflexivity. }
  assert (EC : cats_of u' = cats_of u).
  { rewrite E, E'. apply (nth_ext _ _ (mkCat "" []) (mkCat "" [])); [rewrite <- E, <- E'; congruence|]. intros j _.
    fold (cat_at (cats_of s') j). fold (cat_at (cats_of s) j).
    assert (X1 := ia_pfx _ _ _ _ I j). assert (X2 := ia_pfx _ _ _ _ I' j). unfold pfx in X1, X2.
    assert (N1 := ia_name _ _ _ _ I j). assert (N2 := ia_name _ _ _ _ I' j). specialize (SZ j). unfold sz, csize in SZ.
    rewrite SZ in X1. destruct (cat_at (cats_of s) j) as [a1 b1]. destruct (cat_at (cats_of s') j) as [a2 b2]. cbn [cname cvalues] in *. congruence. }
  split; [reflexivity|].
  rewrite (rt_cats _ _ _ _ _ _ _ _ _ R), (rt_cats _ _ _ _ _ _ _ _ _ R'), (rt_prices _ _ _ _ _ _ _ _ _ R), (rt_prices _ _ _ _ _ _ _ _ _ R'),
    (rt_gft _ _ _ _ _ _ _ _ _ R), (rt_gft _ _ _ _ _ _ _ _ _ R'). rewrite ET, EC. split; [reflexivity|].
  assert (X := rt_explained _ _ _ _ _ _ _ _ _ R). assert (X' := rt_explained _ _ _ _ _ _ _ _ _ R'). rewrite ET, EC in X'.
  assert (XS : deals_explained (cats_of u) (prices_of u') t = deals_explained (cats_of u) (prices_of u) t).
  { apply explained_same; [rewrite L1'; apply SU|congruence]. }
  rewrite XS in X'.
  fold t in X. rewrite X in X'. injection X'; intros -> -> ->. split; [reflexivity|]. split; [reflexivity|]. split; [reflexivity|]. split; [reflexivity|].
  intros i Hi. destruct (FS i Hi) as [Y _]. symmetry. exact Y.
Qed.
