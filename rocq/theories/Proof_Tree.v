(** * Recipe trees: construction, paths, recipes, largest categories (C28 - C30) *)

From Coq Require Import String List Arith Lia QArith Permutation Bool.
From Verif Require Import Base Model_Agents Model_Trade Model_RecipeTree Spec_Market Spec_RecipeTree.
Import ListNotations.
Open Scope Q_scope.

(** ** Induction principles *)

Section RtreeInd.
  Variable P : rtree -> Prop.
  Hypothesis H : forall i ch, Forall P ch -> P (Node i ch).
  Fixpoint rtree_ind' (t : rtree) : P t :=
    match t with
    | Node i ch => H i ch ((fix go (l : list rtree) : Forall P l :=
                              match l with
                              | [] => Forall_nil P
                              | c :: l' => Forall_cons c (rtree_ind' c) (go l')
                              end) ch)
    end.
End RtreeInd.

Section StructInd.
  Variable P : pystruct -> Prop.
  Hypothesis H0 : P SNone.
  Hypothesis H1 : forall n, P (SInt n).
  Hypothesis H2 : forall l, Forall P l -> P (SList l).
  Fixpoint struct_ind' (s : pystruct) : P s :=
    match s with
    | SNone => H0
    | SInt n => H1 n
    | SList l => H2 l ((fix go (l : list pystruct) : Forall P l :=
                          match l with
                          | [] => Forall_nil P
                          | c :: l' => Forall_cons c (struct_ind' c) (go l')
                          end) l)
    end.
End StructInd.

(** ** Construction *)

Fixpoint build_children (n : nat) (l : list pystruct) : result (list rtree) :=
  match l with
  | [] => Ok []
  | [_] => Raise ValueError
  | a :: b :: l' => t <- build_node n a b ;; ts <- build_children n l' ;; Ok (t :: ts)
  end.

Lemma list_pair_ind : forall A (P : list A -> Prop), P [] -> (forall a, P [a]) ->
  (forall a b l, P l -> P (a :: b :: l)) -> forall l, P l.
Proof.
  intros A P H0 H1 H2 l. enough (P l /\ forall a, P (a :: l)) by tauto.
  induction l as [|a l [I1 I2]]; auto.
Qed.

Lemma build_node_list : forall n k l, build_node n (SInt k) (SList l) =
  if (k <? n)%nat then cs <- build_children n l ;; Ok (Node k cs) else Raise IndexError.
Proof.
  intros. cbn [build_node]. destruct (k <? n)%nat; [|reflexivity]. f_equal.
  induction l as [|a|a b l IH] using list_pair_ind; [reflexivity|reflexivity|].
  cbn [build_children]. destruct (build_node n a b); [|reflexivity|reflexivity]. cbn [bind].
  rewrite <- IH. reflexivity.
Qed.

Lemma pairs_In : forall l a b, In (a, b) (pairs l) -> In a l /\ In b l.
Proof.
  induction l using list_pair_ind; simpl; intros; [tauto|tauto|].
  destruct H as [E|H]; [injection E; intros; subst; tauto|]. apply IHl in H. tauto.
Qed.

(** What the construction of a node does, by cases on the struct. *)
Definition struct_ok (n : nat) (i ch : pystruct) : Prop :=
  struct_typed i ch /\ struct_in_range n i ch /\ struct_even i ch.

Lemma struct_ok_list : forall n k l, struct_ok n (SInt k) (SList l) <->
  (k < n)%nat /\ Nat.Even (length l) /\ forall a b, In (a, b) (pairs l) -> struct_ok n a b.
Proof.
  intros n k l. split.
  - intros [HT [HR HE]]. split; [apply (HR k (SList l)); constructor|].
    split; [apply (HE (SInt k)); constructor|].
    intros a b Hab. split; [|split].
    + intros a' b' Hn. apply HT. econstructor; eassumption.
    + intros k' b' Hn. eapply HR. econstructor; eassumption.
    + intros a' l' Hn. eapply HE. econstructor; eassumption.
  - intros [Hk [He Hch]]. split; [|split].
    + intros a b Hn. inversion Hn; subst.
      * split; [eexists; reflexivity|right; eexists; reflexivity].
      * match goal with H : In _ (pairs l) |- _ => apply (Hch _ _ H) end. assumption.
    + intros k' b Hn. inversion Hn; subst; [assumption|].
      match goal with H : In _ (pairs l) |- _ => destruct (Hch _ _ H) as [_ [HR _]] end. eauto.
    + intros a l' Hn. inversion Hn; subst; [assumption|].
      match goal with H : In _ (pairs l) |- _ => destruct (Hch _ _ H) as [_ [_ HR]] end. eauto.
Qed.

Lemma struct_ok_none : forall n k, struct_ok n (SInt k) SNone <-> (k < n)%nat.
Proof.
  intros n k. split.
  - intros [_ [HR _]]. apply (HR k SNone). constructor.
  - intros Hk. split; [|split].
    + intros a b Hn. inversion Hn; subst. split; [eexists; reflexivity|left; reflexivity].
    + intros k' b Hn. inversion Hn; subst. assumption.
    + intros a l Hn. inversion Hn.
Qed.

Lemma build_node_ok : forall n ch i t, build_node n i ch = Ok t <-> describes i ch t /\ struct_ok n i ch.
Proof.
  intros n ch. induction ch as [|m|l IH] using struct_ind'; intros i t.
  - destruct i; simpl; try (split; [discriminate|intros [H _]; inversion H]).
    rewrite struct_ok_none. destruct (Nat.ltb_spec n0 n) as [Hk|Hk].
    + split; [intros E; injection E; intros <-; split; [constructor|assumption]|].
      intros [H _]. inversion H. reflexivity.
    + split; [discriminate|]. intros [_ H]. lia.
  - destruct i; simpl; try (split; [discriminate|intros [H _]; inversion H]).
    destruct (n0 <? n)%nat; (split; [discriminate|intros [H _]; inversion H]).
  - destruct i; try (simpl; split; [discriminate|intros [H _]; inversion H]).
    rewrite build_node_list, struct_ok_list.
    assert (HC : forall ts, build_children n l = Ok ts <->
      Forall2 (fun ab t => describes (fst ab) (snd ab) t) (pairs l) ts /\ Nat.Even (length l)
      /\ forall a b, In (a, b) (pairs l) -> struct_ok n a b).
    { clear t n0. induction l as [|a|a b l IHl] using list_pair_ind; intros ts; cbn [build_children pairs].
      - split; [intros E; injection E; intros <-; split; [constructor|split; [exists 0%nat; reflexivity|intros a b []]]|].
        intros [H _]. inversion H. reflexivity.
      - split; [discriminate|]. intros [_ [[k H] _]]. simpl in H. lia.
      - inversion IH as [|? ? _ IH']; subst. inversion IH' as [|? ? Hb IHr]; subst. specialize (IHl IHr).
        split.
        + intros E. destruct (build_node n a b) as [t| |] eqn:Eb; try discriminate. cbn [bind] in E.
          destruct (build_children n l) as [ts'| |] eqn:Ec; try discriminate. injection E; intros <-.
          apply Hb in Eb. destruct Eb as [D O]. specialize (IHl ts'). destruct IHl as [IHl _].
          specialize (IHl eq_refl). destruct IHl as [F [[k Ek] A]]. split; [constructor; assumption|].
          split; [exists (S k); simpl; lia|]. intros a' b' [E'|Hin]; [injection E'; intros; subst; assumption|auto].
        + intros [F [[k Ek] A]]. inversion F as [|? t ? ts' D F']; subst.
          assert (Eb : build_node n a b = Ok t) by (apply Hb; split; [assumption|apply A; left; reflexivity]).
          assert (Ec : build_children n l = Ok ts').
          { apply IHl. split; [assumption|]. split; [exists (k - 1)%nat; simpl in Ek; lia|]. intros; apply A; right; assumption. }
          rewrite Eb, Ec. reflexivity. }
    destruct (Nat.ltb_spec n0 n) as [Hk|Hk].
    + split.
      * intros E. destruct (build_children n l) as [ts| |] eqn:Ec; try discriminate. injection E; intros <-.
        destruct (HC ts) as [HC1 _]. destruct (HC1 eq_refl) as [F [Ev A]].
        split; [constructor; assumption|auto].
      * intros [D [_ [Ev A]]]. inversion D as [|? ? ts F]; subst.
        destruct (HC ts) as [_ HC2]. rewrite HC2 by auto. reflexivity.
    + split; [discriminate|]. intros [_ [H _]]. lia.
Qed.

Lemma describes_total : forall n ch i, struct_ok n i ch -> exists t, describes i ch t.
Proof.
  intros n ch. induction ch as [|m|l IH] using struct_ind'; intros i Ho.
  - destruct Ho as [HT _]. destruct (HT i SNone) as [[k ->] _]; [constructor|]. eexists. constructor.
  - destruct Ho as [HT _]. destruct (HT i (SInt m)) as [_ [H|[l H]]]; try constructor; discriminate.
  - assert (Hi : exists k, i = SInt k) by (destruct Ho as [HT _]; destruct (HT i (SList l)); [constructor|assumption]).
    destruct Hi as [k ->]. apply struct_ok_list in Ho. destruct Ho as [_ [_ A]].
    assert (HF : exists ts, Forall2 (fun ab t => describes (fst ab) (snd ab) t) (pairs l) ts).
    { clear k. induction l as [|a|a b l IHl] using list_pair_ind; cbn [pairs].
      - exists []. constructor.
      - exists []. constructor.
      - inversion IH as [|? ? _ IH']; subst. inversion IH' as [|? ? Hb IHr]; subst.
        destruct (Hb a) as [t Ht]; [apply A; left; reflexivity|].
        destruct IHl as [ts Hts]; [assumption|intros; apply A; right; assumption|].
        exists (t :: ts). constructor; assumption. }
    destruct HF as [ts Hts]. exists (Node k ts). constructor. assumption.
Qed.

(** Which exceptions the construction may raise. *)
Lemma build_node_raise : forall n ch i e, build_node n i ch = Raise e ->
  (e = ValueError /\ ~ struct_even i ch) \/ (e = IndexError /\ ~ struct_in_range n i ch)
  \/ (e = TypeError /\ ~ struct_typed i ch).
Proof.
  intros n ch. induction ch as [|m|l IH] using struct_ind'; intros i e E.
  - destruct i; simpl in E.
    + right; right. injection E; intros <-. split; [reflexivity|]. intros H.
      destruct (H SNone SNone) as [[k Hk] _]; [constructor|discriminate].
    + destruct (Nat.ltb_spec n0 n) as [Hk|Hk]; [discriminate|]. injection E; intros <-. right; left.
      split; [reflexivity|]. intros H. specialize (H n0 SNone). specialize (H (sn_here _ _)). lia.
    + right; right. injection E; intros <-. split; [reflexivity|]. intros H.
      destruct (H (SList l) SNone) as [[k Hk] _]; [constructor|discriminate].
  - assert (HT : ~ struct_typed i (SInt m)).
    { intros H. destruct (H i (SInt m)) as [_ [X|[? X]]]; try constructor; discriminate. }
    destruct i; simpl in E.
    + right; right. injection E; intros <-. auto.
    + destruct (Nat.ltb_spec n0 n) as [Hk|Hk].
      * right; right. injection E; intros <-. auto.
      * injection E; intros <-. right; left.
        split; [reflexivity|]. intros H. specialize (H n0 (SInt m)). specialize (H (sn_here _ _)). lia.
    + right; right. injection E; intros <-. auto.
  - assert (HB : forall a b, In (a, b) (pairs l) -> forall i, struct_even i (SList l) -> struct_even a b).
    { intros a b Hab j H a' l' Hn. eapply H. econstructor; eassumption. }
    assert (HB2 : forall a b, In (a, b) (pairs l) -> forall i, struct_in_range n i (SList l) -> struct_in_range n a b).
    { intros a b Hab j H a' l' Hn. eapply H. econstructor; eassumption. }
    assert (HB3 : forall a b, In (a, b) (pairs l) -> forall i, struct_typed i (SList l) -> struct_typed a b).
    { intros a b Hab j H a' l' Hn. eapply H. econstructor; eassumption. }
    destruct i.
    + right; right. injection E; intros <-. split; [reflexivity|]. intros H.
      destruct (H SNone (SList l)) as [[k Hk] _]; [constructor|discriminate].
    + rewrite build_node_list in E. destruct (Nat.ltb_spec n0 n) as [Hk|Hk].
      * assert (HC : build_children n l = Raise e ->
          (e = ValueError /\ ~ Nat.Even (length l)) \/ exists a b, In (a, b) (pairs l) /\ build_node n a b = Raise e).
        { clear. induction l as [|a|a b l IHl] using list_pair_ind; cbn [build_children pairs]; intros E.
          - discriminate.
          - injection E; intros <-. left. split; [reflexivity|]. intros [k H]. simpl in H. lia.
          - destruct (build_node n a b) as [t|e'|] eqn:Eb; cbn [bind] in E; [|injection E; intros ->|discriminate].
            + destruct (build_children n l) as [ts|e'|]; [discriminate| |discriminate].
              injection E; intros ->. destruct IHl as [[-> Ho]|[a' [b' [Hin Hb']]]]; [reflexivity| |].
              * left. split; [reflexivity|]. intros [k H]. apply Ho. exists (k - 1)%nat. simpl in H. lia.
              * right. exists a', b'. split; [right; assumption|assumption].
            + right. exists a, b. split; [left; reflexivity|assumption]. }
        destruct (build_children n l) as [ts|e'|] eqn:Ec; [discriminate| |discriminate].
        injection E; intros ->. destruct (HC eq_refl) as [[-> Ho]|[a [b [Hin Hb]]]].
        -- left. split; [reflexivity|]. intros H. apply Ho. apply (H (SInt n0)). constructor.
        -- assert (Hp := pairs_In _ _ _ Hin). rewrite Forall_forall in IH.
           destruct (IH b (proj2 Hp) a e Hb) as [[-> X]|[[-> X]|[-> X]]]; [left|right; left|right; right];
             (split; [reflexivity|]; intros Y; apply X; eauto).
      * injection E; intros <-. right; left.
        split; [reflexivity|]. intros H. specialize (H n0 (SList l)). specialize (H (sn_here _ _)). lia.
    + right; right. injection E; intros <-. split; [reflexivity|]. intros H.
      destruct (H (SList l0) (SList l)) as [[k Hk] _]; [constructor|discriminate].
Qed.

Lemma build_node_no_timeout : forall n ch i, build_node n i ch <> Timeout.
Proof.
  intros n ch. induction ch as [|m|l IH] using struct_ind'; intros i.
  - destruct i; simpl; try discriminate. destruct (n0 <? n)%nat; discriminate.
  - destruct i; simpl; try discriminate. destruct (n0 <? n)%nat; discriminate.
  - destruct i; try (simpl; discriminate). rewrite build_node_list. destruct (n0 <? n)%nat; [|discriminate].
    assert (HC : build_children n l <> Timeout).
    { clear n0. induction l as [|a|a b l IHl] using list_pair_ind; cbn [build_children]; try discriminate.
      inversion IH as [|? ? _ IH']; subst. inversion IH' as [|? ? Hb IHr]; subst. specialize (IHl IHr).
      specialize (Hb a). destruct (build_node n a b); try discriminate; [|congruence].
      cbn [bind]. destruct (build_children n l); try discriminate. congruence. }
    destruct (build_children n l); [discriminate|discriminate|congruence].
Qed.

Lemma even_Even : forall n, Nat.even n = true <-> Nat.Even n.
Proof. apply Nat.even_spec. Qed.

Lemma new_tree_ok : forall cats s t, new_tree cats s = Ok t <->
  exists i ch rest, s = SList (i :: ch :: rest) /\ Nat.Even (length (i :: ch :: rest))
    /\ struct_typed i ch /\ struct_in_range (length cats) i ch /\ struct_even i ch /\ describes i ch t.
Proof.
  intros cats s t. unfold new_tree. destruct s as [|m|l];
    try (split; [discriminate|intros (? & ? & ? & E & _); discriminate]).
  destruct (Nat.even (length l)) eqn:Ev.
  - destruct l as [|i [|ch rest]].
    + split; [discriminate|intros (? & ? & ? & E & _); discriminate].
    + discriminate.
    + rewrite build_node_ok. unfold struct_ok. rewrite even_Even in Ev. split.
      * intros [D [A [B C]]]. exists i, ch, rest. tauto.
      * intros (i' & ch' & rest' & E & _ & A & B & C & D). injection E; intros; subst. tauto.
  - split; [discriminate|]. intros (i & ch & rest & E & H & _). injection E; intros ->.
    apply even_Even in H. congruence.
Qed.

(** The construction succeeds on every well-formed struct. *)
Lemma new_tree_total : forall cats i ch rest, Nat.Even (length (i :: ch :: rest)) ->
  struct_typed i ch -> struct_in_range (length cats) i ch -> struct_even i ch ->
  exists t, new_tree cats (SList (i :: ch :: rest)) = Ok t.
Proof.
  intros cats i ch rest Ev A B C.
  destruct (describes_total (length cats) ch i) as [t Ht]; [unfold struct_ok; auto|].
  exists t. apply new_tree_ok. exists i, ch, rest. auto 10.
Qed.

Lemma new_tree_raise : forall cats s e, new_tree cats s = Raise e ->
  (e = TypeError /\ forall l, s <> SList l)
  \/ (e = ValueError /\ exists l, s = SList l /\ ~ Nat.Even (length l))
  \/ (e = IndexError /\ s = SList [])
  \/ exists i ch rest, s = SList (i :: ch :: rest) /\
      ((e = ValueError /\ ~ struct_even i ch) \/ (e = IndexError /\ ~ struct_in_range (length cats) i ch)
       \/ (e = TypeError /\ ~ struct_typed i ch)).
Proof.
  intros cats s e. unfold new_tree. destruct s as [|m|l].
  - intros E; injection E; intros <-. left. split; [reflexivity|]. intros; discriminate.
  - intros E; injection E; intros <-. left. split; [reflexivity|]. intros; discriminate.
  - destruct (Nat.even (length l)) eqn:Ev.
    + destruct l as [|i [|ch rest]]; intros E.
      * injection E; intros <-. right; right; left. auto.
      * discriminate.
      * right; right; right. exists i, ch, rest. split; [reflexivity|]. apply build_node_raise. assumption.
    + intros E; injection E; intros <-. right; left. split; [reflexivity|]. exists l. split; [reflexivity|].
      intros H. apply even_Even in H. congruence.
Qed.

Lemma new_tree_no_timeout : forall cats s, new_tree cats s <> Timeout.
Proof.
  intros cats s. unfold new_tree. destruct s as [|m|l]; try discriminate.
  destruct (Nat.even (length l)); [|discriminate]. destruct l as [|i [|ch rest]]; try discriminate.
  apply build_node_no_timeout.
Qed.

(** The indices of the nodes are in range. *)
Lemma describes_indices : forall n ch i t, struct_ok n i ch -> describes i ch t -> indices_in_range n t.
Proof.
  intros n ch. induction ch as [|m|l IH] using struct_ind'; intros i t Ho D.
  - inversion D; subst. apply struct_ok_none in Ho. constructor; [assumption|constructor].
  - inversion D.
  - inversion D as [|k ? ts F]; subst. apply struct_ok_list in Ho. destruct Ho as [Hk [_ A]].
    unfold indices_in_range. simpl. constructor; [assumption|].
    clear D. revert ts F. induction l as [|a|a b l IHl] using list_pair_ind; intros ts F; cbn [pairs] in F.
    + inversion F; subst. constructor.
    + inversion F; subst. constructor.
    + inversion IH as [|? ? _ IH']; subst. inversion IH' as [|? ? Hb IHr]; subst.
      inversion F as [|? t ? ts' D F']; subst. cbn [map concat]. rewrite Forall_app. split.
      * eapply Hb; [|exact D]. apply A. left. reflexivity.
      * apply IHl; [assumption|intros; apply A; right; assumption|assumption].
Qed.

Lemma new_tree_indices : forall cats s t, new_tree cats s = Ok t -> indices_in_range (length cats) t.
Proof.
  intros cats s t H. apply new_tree_ok in H. destruct H as (i & ch & rest & _ & _ & A & B & C & D).
  eapply describes_indices; [|exact D]. unfold struct_ok. auto.
Qed.

(** ** Paths *)

Lemma paths_from_spec : forall A (label : nat -> A) t prefix,
  paths_from label prefix t = map (fun p => prefix ++ map label p) (root_leaf_paths t).
Proof.
  intros A label t. induction t as [i ch IH] using rtree_ind'. intros prefix.
  destruct ch as [|c ch]; [reflexivity|].
  change (paths_from label prefix (Node i (c :: ch)))
    with (concat (map (paths_from label (prefix ++ [label i])) (c :: ch))).
  change (root_leaf_paths (Node i (c :: ch))) with (map (cons i) (concat (map root_leaf_paths (c :: ch)))).
  rewrite map_map, concat_map, map_map. f_equal. apply map_ext_in. intros t Ht.
  rewrite Forall_forall in IH. rewrite IH by assumption. apply map_ext. intros p. cbn [map].
  rewrite <- app_assoc. reflexivity.
Qed.

Lemma paths_to_leaf_spec : forall t, paths_to_leaf t = root_leaf_paths t.
Proof.
  intros t. unfold paths_to_leaf. rewrite paths_from_spec. rewrite <- (map_id (root_leaf_paths t)) at 2.
  apply map_ext. intros p. simpl. apply map_id.
Qed.

Lemma paths_names_spec : forall cats t, paths_to_leaf_names cats t =
  map (map (fun i => cname (cat_at cats i))) (root_leaf_paths t).
Proof. intros. unfold paths_to_leaf_names. rewrite paths_from_spec. reflexivity. Qed.

Lemma root_leaf_paths_In : forall t p, In p (root_leaf_paths t) <-> is_path t p.
Proof.
  intros t. induction t as [i ch IH] using rtree_ind'. intros p.
  destruct ch as [|c ch].
  - simpl. split.
    + intros [<-|[]]. constructor.
    + intros H. inversion H; subst; [auto|contradiction].
  - change (root_leaf_paths (Node i (c :: ch))) with (map (cons i) (concat (map root_leaf_paths (c :: ch)))).
    rewrite in_map_iff. rewrite Forall_forall in IH. split.
    + intros [q [<- Hq]]. rewrite in_concat in Hq. destruct Hq as [ps [Hps Hq]].
      apply in_map_iff in Hps. destruct Hps as [t [<- Ht]]. econstructor; [exact Ht|]. apply IH; assumption.
    + intros H. inversion H as [|? ? t q Hin Hp]; subst. exists q. split; [reflexivity|].
      rewrite in_concat. exists (root_leaf_paths t). split; [apply in_map; assumption|]. apply IH; assumption.
Qed.

Lemma paths_nonempty : forall t, root_leaf_paths t <> [].
Proof.
  intros t. induction t as [i ch IH] using rtree_ind'. destruct ch as [|c ch]; [discriminate|].
  change (root_leaf_paths (Node i (c :: ch))) with (map (cons i) (root_leaf_paths c ++ concat (map root_leaf_paths ch))).
  inversion IH; subst. destruct (root_leaf_paths c); [congruence|discriminate].
Qed.

Lemma is_path_indices : forall t p i, is_path t p -> In i p -> In i (node_indices t).
Proof.
  intros t p i H. induction H as [k|k ch c p Hc H IH]; simpl; [tauto|]. intros [E|Hi]; [auto|]. right.
  rewrite in_concat. exists (node_indices c). split; [apply in_map; assumption|auto].
Qed.

(** ** Recipes *)

Lemma fill_recipe_ok : forall path n recipe, length recipe = n -> Forall (fun i => (i < n)%nat) path ->
  exists r, fill_recipe path [] recipe = Ok r /\ length r = n
    /\ forall i, nth i r 0%nat = if existsb (Nat.eqb i) path then 1%nat else nth i recipe 0%nat.
Proof.
  induction path as [|a path IH]; intros n recipe L HF; cbn [fill_recipe existsb].
  - exists recipe. auto.
  - inversion HF as [|? ? Ha HF']; subst. cbn [bind].
    rewrite (get_lt _ _ _ 0%nat) by assumption. cbn [bind].
    destruct (IH (length recipe) (set_nth a 1%nat recipe)) as [r [E [Lr Hr]]];
      [apply set_nth_length|assumption|]. exists r. split; [exact E|]. split; [assumption|].
    intros i. rewrite Hr. destruct (existsb (Nat.eqb i) path); [rewrite orb_true_r; reflexivity|].
    rewrite orb_false_r. destruct (Nat.eqb_spec i a) as [->|Hne].
    + rewrite nth_set_nth_same by assumption. reflexivity.
    + rewrite nth_set_nth_other by congruence. reflexivity.
Qed.


Lemma existsb_eqb_In : forall i l, existsb (Nat.eqb i) l = true <-> In i l.
Proof.
  intros i l. rewrite existsb_exists. split.
  - intros [x [Hx E]]. apply Nat.eqb_eq in E. congruence.
  - intros H. exists i. split; [assumption|apply Nat.eqb_refl].
Qed.

Lemma nth_repeat_zero : forall i n, nth i (repeat 0%nat n) 0%nat = 0%nat.
Proof. intros i n. revert i. induction n; destruct i; simpl; auto. Qed.

Lemma recipe_from_path_ok : forall path n, Forall (fun i => (i < n)%nat) path ->
  exists r, recipe_from_path path n [] = Ok r /\ path_recipe n path r.
Proof.
  intros path n HF. destruct (fill_recipe_ok path n (repeat 0%nat n)) as [r [E [L H]]];
    [apply repeat_length|assumption|].
  exists r. split; [exact E|]. split; [assumption|]. intros i Hi.
  assert (X : nth_error r i = Some (nth i r 0%nat)) by (apply nth_error_nth'; lia).
  rewrite X, H, nth_repeat_zero. split; intros HIn.
  - apply existsb_eqb_In in HIn. rewrite HIn. reflexivity.
  - destruct (existsb (Nat.eqb i) path) eqn:E'; [apply existsb_eqb_In in E'; contradiction|reflexivity].
Qed.

Lemma map_result_Forall2 : forall A B (f : A -> result B) (R : A -> B -> Prop) l,
  (forall a, In a l -> exists b, f a = Ok b /\ R a b) -> exists bs, map_result f l = Ok bs /\ Forall2 R l bs.
Proof.
  intros A B f R. induction l as [|a l IH]; intros H; simpl.
  - exists []. split; [reflexivity|constructor].
  - destruct (H a) as [b [E HR]]; [left; reflexivity|]. rewrite E. cbn [bind].
    destruct IH as [bs [E' HF]]; [intros; apply H; right; assumption|]. rewrite E'. cbn [bind].
    exists (b :: bs). split; [reflexivity|constructor; assumption].
Qed.

Lemma recipes_spec : forall n t, indices_in_range n t ->
  exists rs, recipes n t = Ok rs /\ Forall2 (path_recipe n) (root_leaf_paths t) rs.
Proof.
  intros n t H. unfold recipes. rewrite paths_to_leaf_spec. apply map_result_Forall2.
  intros p Hp. apply recipe_from_path_ok. apply root_leaf_paths_In in Hp.
  unfold indices_in_range in H. rewrite Forall_forall in H |- *. intros i Hi. apply H.
  eapply is_path_indices; eassumption.
Qed.

(** ** Largest categories *)

Lemma largest_cut : forall cats t, cut t (snd (largest_categories cats t)).
Proof.
  intros cats t. induction t as [i ch IH] using rtree_ind'. cbn [largest_categories].
  destruct ((nsum (map (fun c => csize (cat_at cats (tindex c))) ch) <? csize (cat_at cats i))%nat
            || (nsum (map (fun c => csize (cat_at cats (tindex c))) ch) =? 0)%nat) eqn:E.
  - simpl. constructor.
  - cbn [snd]. rewrite map_map. apply cut_children.
    + intros ->. apply orb_false_iff in E. destruct E as [_ E]. simpl in E. discriminate.
    + induction ch as [|c ch IHc]; cbn [map]; [constructor|]. inversion IH; subst.
      clear E. constructor; [assumption|]. clear IHc. induction H2; simpl; constructor; auto.
Qed.

Lemma largest_combined : forall cats t, snd (fst (largest_categories cats t)) = csize (cat_at cats (tindex t)).
Proof.
  intros cats [i ch]. cbn [largest_categories tindex].
  destruct (_ || _); reflexivity.
Qed.

Lemma cut_incl : forall t l, cut t l -> incl l (node_indices t).
Proof.
  intros t. induction t as [i ch IH] using rtree_ind'. intros l H. inversion H as [|? ? cuts Hne HF]; subst.
  - intros x [<-|[]]. left. reflexivity.
  - clear H Hne. simpl. intros x Hx. right. revert x Hx.
    induction HF as [|c l' ch cuts Hc HF IHF]; simpl; [tauto|]. intros x Hx. inversion IH; subst.
    rewrite in_app_iff in *. destruct Hx as [Hx|Hx]; [left; eapply H1; eassumption|right; apply IHF; assumption].
Qed.

Lemma NoDup_app_inv : forall A (l1 l2 : list A), NoDup (l1 ++ l2) ->
  NoDup l1 /\ NoDup l2 /\ forall x, In x l1 -> ~ In x l2.
Proof.
  intros A l1 l2. induction l1 as [|a l1 IH]; simpl; intros H.
  - split; [constructor|]. split; [assumption|tauto].
  - inversion H; subst. destruct (IH H3) as [N1 [N2 D]]. rewrite in_app_iff in H2. split.
    + constructor; tauto.
    + split; [assumption|]. intros x [<-|Hx]; [tauto|auto].
Qed.

Lemma NoDup_app_intro : forall A (l1 l2 : list A), NoDup l1 -> NoDup l2 -> (forall x, In x l1 -> ~ In x l2) ->
  NoDup (l1 ++ l2).
Proof.
  intros A l1 l2 H1 H2 D. induction H1 as [|a l1 Ha H1 IH]; simpl; [assumption|].
  constructor.
  - rewrite in_app_iff. intros [X|X]; [contradiction|]. apply (D a); [left; reflexivity|assumption].
  - apply IH. intros x Hx. apply D. right. assumption.
Qed.

(** With distinct categories, a cut has no repetitions and one element on every path. *)
Lemma cut_distinct : forall t l, distinct_categories t -> cut t l ->
  NoDup l /\ forall p, is_path t p -> exists x, In x l /\ In x p /\ forall y, In y l -> In y p -> y = x.
Proof.
  unfold distinct_categories. intros t. induction t as [i ch IH] using rtree_ind'. intros l HD HC.
  inversion HC as [|? ? cuts Hne HF]; subst.
  - split; [constructor; [tauto|constructor]|]. intros p Hp. exists i. split; [left; reflexivity|].
    split; [inversion Hp; left; reflexivity|]. intros y [<-|[]]. reflexivity.
  - simpl in HD. inversion HD as [|? ? Hi HDc]; subst. clear HC HD.
    assert (X : NoDup (concat cuts) /\ forall c p, In c ch -> is_path c p ->
      exists x, In x (concat cuts) /\ In x p /\ forall y, In y (concat cuts) -> In y p -> y = x).
    { clear Hne Hi. induction HF as [|c l' ch cuts Hc HF IHF]; [split; [constructor|intros c p []]|].
      inversion IH as [|? ? IHc IHch]; subst. cbn [map concat] in HDc.
      apply NoDup_app_inv in HDc. destruct HDc as [N1 [N2 D]].
      destruct (IHF IHch N2) as [M1 M2]. destruct (IHc l' N1 Hc) as [K1 K2].
      assert (I1 := cut_incl _ _ Hc).
      assert (I2 : incl (concat cuts) (concat (map node_indices ch))).
      { clear -HF. induction HF; simpl; [intros ? []|]. intros z Hy. rewrite in_app_iff in *. destruct Hy as [Hy|Hy].
        - left. eapply cut_incl; eassumption.
        - right. auto. }
      split.
      - cbn [concat]. apply NoDup_app_intro; [assumption|assumption|]. intros x Hx Hx'.
        apply (D x); auto.
      - intros c0 p [<-|Hc0] Hp; cbn [concat].
        + destruct (K2 p Hp) as [x [Hx [Hxp U]]]. exists x. rewrite in_app_iff. split; [auto|]. split; [assumption|].
          intros y Hy Hyp. rewrite in_app_iff in Hy. destruct Hy as [Hy|Hy]; [auto|].
          exfalso. apply (D y); [eapply is_path_indices; eassumption|auto].
        + destruct (M2 c0 p Hc0 Hp) as [x [Hx [Hxp U]]]. exists x. rewrite in_app_iff. split; [auto|]. split; [assumption|].
          intros y Hy Hyp. rewrite in_app_iff in Hy. destruct Hy as [Hy|Hy]; [|auto].
          exfalso. apply (D y); [auto|]. rewrite in_concat. exists (node_indices c0). split; [apply in_map; assumption|].
          eapply is_path_indices; eassumption. }
    destruct X as [X1 X2]. split; [assumption|]. intros p Hp. inversion Hp as [|? ? c q Hc Hq]; subst; [congruence|].
    destruct (X2 c q Hc Hq) as [x [Hx [Hxp U]]]. exists x. split; [assumption|]. split; [right; assumption|].
    intros y Hy [<-|Hyp]; [|auto]. exfalso. apply Hi.
    assert (Z : cut (Node i ch) (concat cuts)) by (constructor; assumption).
    clear -HF Hy. induction HF; simpl in *; [tauto|]. rewrite in_app_iff in *. destruct Hy as [Hy|Hy].
    + left. eapply cut_incl; eassumption.
    + right. auto.
Qed.

(** Every node in the selection has at least as many traders as its children together (or those have none), and
    no selected node below ... : the size of a selected node is a largest one, see [largest_bound]. *)
Lemma fold_max_ge : forall A (f : A -> nat) l m, (m <= fold_left (fun m r => Nat.max m (f r)) l m)%nat
  /\ forall r, In r l -> (f r <= fold_left (fun m r => Nat.max m (f r)) l m)%nat.
Proof.
  intros A f. induction l as [|a l IH]; simpl; intros m; [split; [lia|tauto]|].
  destruct (IH (Nat.max m (f a))) as [H1 H2]. split; [lia|]. intros r [<-|Hr]; [lia|auto].
Qed.

Lemma fold_max_in : forall A (f : A -> nat) l m, fold_left (fun m r => Nat.max m (f r)) l m = m
  \/ exists r, In r l /\ fold_left (fun m r => Nat.max m (f r)) l m = f r.
Proof.
  intros A f. induction l as [|a l IH]; simpl; intros m; [auto|].
  destruct (IH (Nat.max m (f a))) as [->|[r [Hr ->]]].
  - destruct (Nat.max_spec m (f a)) as [[_ ->]|[_ ->]]; [right; exists a; auto|auto].
  - right. exists r. auto.
Qed.

(** The first component is the largest size among the selected categories. *)
Lemma largest_size : forall cats t,
  (exists i, In i (snd (largest_categories cats t)) /\ csize (cat_at cats i) = fst (fst (largest_categories cats t)))
  /\ forall i, In i (snd (largest_categories cats t)) -> (csize (cat_at cats i) <= fst (fst (largest_categories cats t)))%nat.
Proof.
  intros cats t. induction t as [i ch IH] using rtree_ind'. cbn [largest_categories].
  destruct ((nsum (map (fun c => csize (cat_at cats (tindex c))) ch) <? csize (cat_at cats i))%nat
            || (nsum (map (fun c => csize (cat_at cats (tindex c))) ch) =? 0)%nat) eqn:E.
  - simpl. split; [exists i; auto|]. intros j [<-|[]]. lia.
  - cbn [fst snd]. rewrite map_map. rewrite Forall_forall in IH.
    assert (Hne : ch <> []).
    { intros ->. apply orb_false_iff in E. destruct E as [_ E]. simpl in E. discriminate. }
    clear E. split.
    + destruct (fold_max_in _ (fun r : nat * nat * list nat => fst (fst r)) (map (largest_categories cats) ch) 0%nat) as [E|[r [Hr E]]].
      * destruct ch as [|c ch]; [congruence|]. destruct (IH c (or_introl eq_refl)) as [[j [Hj Ej]] _].
        exists j. split; [cbn [map concat]; rewrite in_app_iff; auto|]. rewrite Ej.
        destruct (fold_max_ge _ (fun r : nat * nat * list nat => fst (fst r)) (map (largest_categories cats) (c :: ch)) 0%nat) as [_ G].
        specialize (G (largest_categories cats c) (or_introl eq_refl)). lia.
      * rewrite E. apply in_map_iff in Hr. destruct Hr as [c [<- Hc]].
        destruct (IH c Hc) as [[j [Hj Ej]] _]. exists j. split; [|assumption].
        rewrite in_concat. exists (snd (largest_categories cats c)). split; [|assumption].
        apply in_map_iff. exists c. auto.
    + intros j Hj. rewrite in_concat in Hj. destruct Hj as [l [Hl Hj]]. apply in_map_iff in Hl.
      destruct Hl as [c [<- Hc]]. destruct (IH c Hc) as [_ G]. specialize (G j Hj).
      destruct (fold_max_ge _ (fun r : nat * nat * list nat => fst (fst r)) (map (largest_categories cats) ch) 0%nat) as [_ G'].
      specialize (G' (largest_categories cats c) (in_map _ _ _ Hc)). lia.
Qed.
