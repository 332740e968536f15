(** * tree_calculations.py and get_prices_tree (C50, C51) *)

From Coq Require Import String List Arith Lia QArith Qround Lqa Permutation Bool.
From Verif Require Import Base Model_Agents Model_Prices Model_RecipeTree Model_TreeCalc Spec_Market Spec_RecipeTree Spec_TreeAuction Spec_TreeCalc
  Proof_Tree Proof_Tree2.
Import ListNotations.
Open Scope nat_scope.

Lemma struct_cons : forall i ch, struct_list (Node i ch) = [SInt i; match ch with [] => SNone | _ => SList (concat (map struct_list ch)) end].
Proof. intros i [|c ch]; reflexivity. Qed.

(** The struct of a tree is accepted by the constructor of RecipeTree, which gives the tree back. *)
Lemma struct_built : forall n t, indices_in_range n t -> build_node n (SInt (tindex t)) (match tchildren t with [] => SNone | ch => SList (concat (map struct_list ch)) end) = Ok t.
Proof.
  intros n t. induction t as [i ch IH] using rtree_ind'. intros HR. cbn [tindex tchildren].
  assert (Hi : (i <? n) = true) by (apply Nat.ltb_lt; unfold indices_in_range in HR; inversion HR; assumption).
  destruct ch as [|c ch]; [cbn [build_node]; rewrite Hi; reflexivity|].
  set (l := c :: ch) in *. rewrite build_node_list, Hi.
  assert (HC : build_children n (concat (map struct_list l)) = Ok l); [|rewrite HC; reflexivity].
  assert (HR' : forall x, In x l -> indices_in_range n x).
  { intros x Hx. unfold indices_in_range in *. rewrite Forall_forall in *. intros j Hj. apply HR. right. apply in_concat.
    exists (node_indices x). split; [apply in_map; assumption|assumption]. }
  clear HR Hi. clearbody l. clear c ch. induction l as [|c l IHl]; [reflexivity|]. inversion IH; subst. cbn [map concat].
  destruct c as [j chj]. rewrite struct_cons. cbn [app build_children].
  assert (X := H1 (HR' _ (or_introl eq_refl))). cbn [tindex tchildren] in X. replace (match chj with [] => SNone | _ :: _ => SList (concat (map struct_list chj)) end)
    with (match chj with [] => SNone | r :: l0 => SList (concat (map struct_list (r :: l0))) end) by (destruct chj; reflexivity).
  rewrite X. cbn [bind].
  rewrite IHl; [reflexivity|assumption|]. intros x Hx. apply HR'. right. assumption.
Qed.

Lemma struct_new_tree : forall cats t, indices_in_range (length cats) t -> new_tree cats (struct_of t) = Ok t.
Proof.
  intros cats t HR. assert (X := struct_built _ _ HR). destruct t as [i [|c ch]]; exact X.
Qed.

(** ** Depth and largest index *)

Fixpoint depth_loop (l : list pystruct) (d m : nat) : result (nat * nat) :=
  match l with
  | [] => Ok (d + 1, m)
  | [_] => Raise IndexError
  | a :: b :: l' =>
      r <- get_depth_and_agents_size b ;;
      match a with
      | SInt k => depth_loop l' (Nat.max d (fst r)) (Nat.max (Nat.max m k) (snd r))
      | _ => Raise TypeError
      end
  end.

Lemma depth_list : forall l, get_depth_and_agents_size (SList l) = depth_loop l 0 0.
Proof. reflexivity. Qed.

Lemma max_of_app : forall a b, max_of (a ++ b) = Nat.max (max_of a) (max_of b).
Proof. induction a as [|x a IH]; intros b; simpl; [reflexivity|]. rewrite IH. lia. Qed.

Lemma height_node : forall i ch, height (Node i ch) = S (max_of (map height ch)).
Proof. reflexivity. Qed.

Lemma height_pos : forall t, 0 < height t.
Proof. intros [i ch]. rewrite height_node. lia. Qed.

Lemma depth_forest : forall l, Forall (fun t => match tchildren t with [] => True | ch =>
    get_depth_and_agents_size (SList (concat (map struct_list ch))) = Ok (max_of (map height ch), max_of (concat (map node_indices ch))) end) l ->
  forall d m, depth_loop (concat (map struct_list l)) d m =
    Ok (Nat.max d (max_of (map height l) - 1) + 1, Nat.max m (max_of (concat (map node_indices l)))).
Proof.
  induction l as [|c l IH]; intros HF d m.
  - simpl. f_equal. f_equal; lia.
  - inversion HF; subst. cbn [map concat]. destruct c as [i ch]. rewrite struct_cons. cbn [tchildren] in H1. cbn [app depth_loop].
    assert (E : exists r, get_depth_and_agents_size (match ch with [] => SNone | _ => SList (concat (map struct_list ch)) end) = Ok r
       /\ fst r = height (Node i ch) - 1 /\ snd r = max_of (concat (map node_indices ch))).
    { destruct ch as [|c0 ch0]; [eexists; split; [reflexivity|split; reflexivity]|]. rewrite H1. eexists. split; [reflexivity|].
      cbn [fst snd]. rewrite height_node. split; [lia|reflexivity]. }
    destruct E as (r & E & E1 & E2). rewrite E. cbn [bind]. rewrite IH by assumption. rewrite E1, E2.
    assert (HP := height_pos (Node i ch)). cbn [node_indices max_of fold_right map concat app]. fold (max_of (map height l)).
    rewrite fold_right_app. fold (max_of (concat (map node_indices l))).
    assert (X : fold_right Nat.max (max_of (concat (map node_indices l))) (concat (map node_indices ch)) =
       Nat.max (max_of (concat (map node_indices ch))) (max_of (concat (map node_indices l)))).
    { rewrite <- max_of_app. unfold max_of. rewrite fold_right_app. reflexivity. }
    rewrite X. f_equal. f_equal; lia.
Qed.

Lemma depth_tree : forall t, match tchildren t with [] => True | ch =>
    get_depth_and_agents_size (SList (concat (map struct_list ch))) = Ok (max_of (map height ch), max_of (concat (map node_indices ch))) end.
Proof.
  intros t. induction t as [i ch IH] using rtree_ind'. cbn [tchildren]. destruct ch as [|c ch]; [exact I|].
  rewrite depth_list, depth_forest by assumption. assert (HP := height_pos c). cbn [map max_of fold_right]. fold (max_of (map height ch)).
  f_equal. f_equal. lia.
Qed.

Theorem depth_spec : forall t, get_depth_and_agents_size (struct_of t) = Ok (height t, max_of (node_indices t)).
Proof.
  intros t. unfold struct_of. rewrite depth_list. replace (struct_list t) with (concat (map struct_list [t])) by (simpl; apply app_nil_r).
  rewrite depth_forest by (constructor; [apply depth_tree|constructor]). cbn [map concat max_of fold_right]. rewrite app_nil_r.
  assert (HP := height_pos t). f_equal. f_equal. lia.
Qed.

(** ** Children counts *)

Fixpoint children_loop (l : list pystruct) (counts : list nat) : result (list nat) :=
  match l with
  | [] => Ok counts
  | [_] => Raise IndexError
  | a :: b :: l' =>
      counts' <- (match b with
                  | SNone => assign counts a 1
                  | SInt _ => Raise TypeError
                  | SList lb => c <- assign counts a (length lb / 2) ;; calculate_children_counts b c
                  end) ;;
      children_loop l' counts'
  end.

Lemma children_list : forall l c, calculate_children_counts (SList l) c = children_loop l c.
Proof. reflexivity. Qed.

Lemma struct_length : forall l, length (concat (map struct_list l)) = 2 * length l.
Proof. induction l as [|[i ch] l IH]; [reflexivity|]. cbn [map concat]. rewrite struct_cons, app_length, IH. simpl. lia. Qed.

(** The nodes of a forest. *)
Definition in_forest (l : list rtree) (x : rtree) : Prop := exists t, In t l /\ subtree t x.

Lemma subtree_trans : forall a b c, subtree a b -> subtree b c -> subtree a c.
Proof. intros a b c H1 H2. induction H2; [assumption|]. eapply st_down; eassumption. Qed.

Lemma subtree_cases : forall i ch x, subtree (Node i ch) x -> x = Node i ch \/ in_forest ch x.
Proof.
  intros i ch x H. induction H as [|j chj c H IH Hc]; [left; reflexivity|]. right.
  destruct IH as [E|(u & Hu & Hs)].
  - injection E; intros -> ->. exists c. split; [assumption|constructor].
  - exists u. split; [assumption|]. eapply st_down; eassumption.
Qed.

Lemma subtree_index : forall t x, subtree t x -> forall i, In i (node_indices x) -> In i (node_indices t).
Proof.
  intros t x H. induction H as [|j ch c H IH Hc]; intros i Hi; [assumption|]. apply IH. cbn [node_indices]. right. apply in_concat.
  exists (node_indices c). split; [apply in_map; assumption|assumption].
Qed.

Lemma index_subtree : forall t i, In i (node_indices t) -> exists ch, subtree t (Node i ch).
Proof.
  intros t. induction t as [j ch IH] using rtree_ind'. intros i Hi. cbn [node_indices] in Hi. destruct Hi as [->|Hi]; [exists ch; constructor|].
  apply in_concat in Hi. destruct Hi as (l & Hl & Hi). apply in_map_iff in Hl. destruct Hl as (c & <- & Hc).
  rewrite Forall_forall in IH. destruct (IH c Hc i Hi) as [chc Hs]. exists chc. eapply subtree_trans; [|exact Hs]. eapply st_down; [constructor|assumption].
Qed.

Lemma in_concat_map : forall A B (f : A -> list B) l a b, In a l -> In b (f a) -> In b (concat (map f l)).
Proof. intros A B f l a b Ha Hb. apply in_concat. exists (f a). split; [apply in_map; assumption|assumption]. Qed.

(** A loop over the pairs of a struct that gives each node of a forest a value [f level node], writing each category once. *)
Definition writes (f : rtree -> nat) (l : list rtree) (c c' : list nat) : Prop :=
  length c' = length c
  /\ (forall x, in_forest l x -> nth (tindex x) c' 0 = f x)
  /\ (forall i, ~ In i (concat (map node_indices l)) -> nth i c' 0 = nth i c 0).

Lemma writes_nil : forall f c, writes f [] c c.
Proof. intros f c. split; [reflexivity|]. split; [intros x (t & [] & _)|auto]. Qed.

Lemma writes_cons : forall f t l c c1 c2, NoDup (concat (map node_indices (t :: l))) -> writes f [t] c c1 -> writes f l c1 c2 -> writes f (t :: l) c c2.
Proof.
  intros f t l c c1 c2 ND (L1 & W1 & N1) (L2 & W2 & N2). split; [congruence|]. cbn [map concat] in ND.
  destruct (NoDup_app_inv _ _ _ ND) as (_ & _ & D). split.
  - intros x (u & [<-|Hu] & Hs).
    + rewrite N2; [apply W1; exists t; split; [left; reflexivity|assumption]|].
      intros Hin. eapply D; [|exact Hin]. eapply subtree_index; [exact Hs|]. destruct x; left; reflexivity.
    + apply W2. exists u. auto.
  - intros i Hi. cbn [map concat] in Hi. rewrite in_app_iff in Hi. rewrite N2 by tauto. apply N1. cbn [map concat].
    rewrite app_nil_r. tauto.
Qed.

Lemma assign_ok : forall c k v, k < length c -> assign c (SInt k) v = Ok (set_nth k v c).
Proof. intros c k v H. unfold assign. rewrite (get_lt _ _ _ 0) by assumption. reflexivity. Qed.

Lemma writes_node : forall f i ch c c1 c2, NoDup (i :: concat (map node_indices ch)) -> i < length c ->
  c1 = set_nth i (f (Node i ch)) c -> writes f ch c1 c2 -> writes f [Node i ch] c c2.
Proof.
  intros f i ch c c1 c2 ND Hi -> (L & W & N). rewrite set_nth_length in L. split; [assumption|]. inversion ND; subst. split.
  - intros x (t & [<-|[]] & Hs). destruct (subtree_cases _ _ _ Hs) as [->|Hx]; [|apply W; assumption].
    cbn [tindex]. rewrite N by assumption. apply nth_set_nth_same. assumption.
  - intros j Hj. cbn [map concat node_indices] in Hj. rewrite app_nil_r in Hj. rewrite N by (intros X; apply Hj; right; assumption).
    apply nth_set_nth_other. intros ->. apply Hj. left. reflexivity.
Qed.

Definition arity (t : rtree) : nat := match tchildren t with [] => 1 | ch => length ch end.

Lemma children_forest : forall n l, Forall (fun t => forall c, length c = n -> indices_in_range n t -> distinct_categories t ->
    exists c', children_loop (struct_list t) c = Ok c' /\ writes arity [t] c c') l ->
  forall c, length c = n -> (forall t, In t l -> indices_in_range n t) -> NoDup (concat (map node_indices l)) ->
  exists c', children_loop (concat (map struct_list l)) c = Ok c' /\ writes arity l c c'.
Proof.
  intros n. induction l as [|t l IH]; intros HF c HL HR ND; [exists c; split; [reflexivity|apply writes_nil]|].
  inversion HF; subst. cbn [map concat] in ND. destruct (NoDup_app_inv _ _ _ ND) as (N1 & N2 & _).
  destruct (H1 c eq_refl (HR t (or_introl eq_refl)) N1) as (c1 & E1 & W1).
  destruct (IH H2 c1 (proj1 W1)) as (c2 & E2 & W2); [intros; apply HR; right; assumption|assumption|].
  exists c2. split; [|eapply writes_cons; eassumption]. cbn [map concat]. destruct t as [i ch]. rewrite struct_cons in *. cbn [app children_loop] in *.
  set (X := match match ch with [] => SNone | _ => _ end with SNone => _ | SInt _ => _ | SList _ => _ end) in *.
  destruct X as [x|e|]; cbn [bind] in *; try discriminate. injection E1; intros ->. assumption.
Qed.

Lemma distinct_child : forall i ch c, distinct_categories (Node i ch) -> In c ch -> distinct_categories c.
Proof.
  intros i ch c H Hc. unfold distinct_categories in *. cbn [node_indices] in H. inversion H; subst. clear H H2.
  induction ch as [|x ch IH]; [destruct Hc|]. cbn [map concat] in H3. destruct (NoDup_app_inv _ _ _ H3) as (N1 & N2 & _).
  destruct Hc as [->|Hc]; [assumption|apply IH; assumption].
Qed.

Lemma range_child : forall n i ch c, indices_in_range n (Node i ch) -> In c ch -> indices_in_range n c.
Proof.
  intros n i ch c H Hc. unfold indices_in_range in *. rewrite Forall_forall in *. intros j Hj. apply H. right.
  eapply in_concat_map; eassumption.
Qed.

Lemma range_node : forall n i ch, indices_in_range n (Node i ch) -> i < n.
Proof. intros n i ch H. unfold indices_in_range in H. inversion H. assumption. Qed.

Lemma children_tree : forall n t c, length c = n -> indices_in_range n t -> distinct_categories t ->
    exists c', children_loop (struct_list t) c = Ok c' /\ writes arity [t] c c'.
Proof.
  intros n t. induction t as [i ch IH] using rtree_ind'. intros c HL HR HD.
  assert (Hi := range_node _ _ _ HR). rewrite struct_cons. destruct ch as [|c0 ch0].
  - cbn [children_loop]. rewrite assign_ok by lia. cbn [bind]. eexists. split; [reflexivity|].
    eapply writes_node; [exact HD|lia|reflexivity|]. apply writes_nil.
  - set (ch := c0 :: ch0) in *. cbn [children_loop]. rewrite assign_ok by lia. cbn [bind]. rewrite children_list, struct_length.
    replace (2 * length ch / 2) with (length ch) by (rewrite Nat.mul_comm, Nat.div_mul; lia).
    destruct (children_forest n ch IH (set_nth i (length ch) c)) as (c2 & E2 & W2).
    + rewrite set_nth_length. assumption.
    + intros; eapply range_child; eassumption.
    + unfold distinct_categories in HD. inversion HD. assumption.
    + rewrite E2. cbn [bind]. exists c2. split; [reflexivity|]. eapply writes_node; [exact HD|lia|reflexivity|exact W2].
Qed.

Theorem children_counts_spec : forall t n, indices_in_range n t -> distinct_categories t ->
  exists counts, get_children_counts (struct_of t) n = Ok counts /\ length counts = n
    /\ (forall i ch, subtree t (Node i ch) -> nth i counts 0 = match ch with [] => 1 | _ => length ch end)
    /\ (forall i, ~ In i (node_indices t) -> nth i counts 0 = 0).
Proof.
  intros t n HR HD. unfold get_children_counts, struct_of. rewrite children_list.
  destruct (children_tree n t (repeat 0 n) (repeat_length _ _) HR HD) as (c & E & L & W & N).
  exists c. split; [assumption|]. split; [rewrite L; apply repeat_length|]. split.
  - intros i ch Hs. assert (X := W (Node i ch)). destruct ch; apply X; exists t; (split; [left; reflexivity|assumption]).
  - intros i Hi. rewrite N by (cbn [map concat]; rewrite app_nil_r; assumption). rewrite nth_repeat. reflexivity.
Qed.

(** ** Agent counts *)

Fixpoint analyze_loop (depth : nat) (l : list pystruct) (counts : list nat) : result (list nat) :=
  match l with
  | [] => Ok counts
  | [_] => Raise IndexError
  | a :: b :: l' =>
      counts' <- (match b with
                  | SNone => assign counts a depth
                  | _ => analyze_recipe_tree b counts (depth - 1)
                  end) ;;
      analyze_loop depth l' counts'
  end.

Lemma analyze_list : forall l c d, analyze_recipe_tree (SList l) c d = analyze_loop d l c.
Proof.
  intros l c d. cbn [analyze_recipe_tree]. revert l c. fix IH 1. intros [|a [|b l]] c; [reflexivity|reflexivity|].
  cbn [analyze_loop]. destruct b as [|k|lb]; cbn [analyze_recipe_tree bind]; try reflexivity.
  - destruct (assign c a d); cbn [bind]; [apply IH|reflexivity|reflexivity].
  - change (analyze_recipe_tree (SList lb) c (d - 1)) with
      ((fix loop (l0 : list pystruct) (counts : list nat) : result (list nat) :=
         match l0 with
         | [] => Ok counts
         | [_] => Raise IndexError
         | a :: b :: l' =>
             counts' <- (match b with
                         | SNone => assign counts a (d - 1)
                         | _ => analyze_recipe_tree b counts (d - 1 - 1)
                         end) ;;
             loop l' counts'
         end) lb c).
    destruct ((fix loop (l0 : list pystruct) (counts : list nat) : result (list nat) :=
         match l0 with
         | [] => Ok counts
         | [_] => Raise IndexError
         | a :: b :: l' =>
             counts' <- (match b with
                         | SNone => assign counts a (d - 1)
                         | _ => analyze_recipe_tree b counts (d - 1 - 1)
                         end) ;;
             loop l' counts'
         end) lb c); cbn [bind]; [apply IH|reflexivity|reflexivity].
Qed.

(** The counts that the call leaves for a forest at depth [d]: on every path of a tree the sum of the counts is [d], if the inner
    categories have count 1 before. *)
Definition path_sums (d : nat) (l : list rtree) (c c' : list nat) : Prop :=
  length c' = length c
  /\ (forall t p, In t l -> is_path t p -> count_sum c' p = d)
  /\ (forall i, In i (concat (map node_indices l)) -> 0 < nth i c' 0)
  /\ (forall i, ~ In i (concat (map node_indices l)) -> nth i c' 0 = nth i c 0).

Lemma count_sum_eq : forall c c' p, (forall i, In i p -> nth i c 0 = nth i c' 0) -> count_sum c p = count_sum c' p.
Proof. intros c c' p H. unfold count_sum. f_equal. apply map_ext_in. assumption. Qed.

Lemma count_sum_cons : forall c i p, count_sum c (i :: p) = nth i c 0 + count_sum c p.
Proof. reflexivity. Qed.

Lemma sums_cons : forall d t l c c1 c2, NoDup (concat (map node_indices (t :: l))) -> path_sums d [t] c c1 -> path_sums d l c1 c2 ->
  path_sums d (t :: l) c c2.
Proof.
  intros d t l c c1 c2 ND (L1 & W1 & P1 & N1) (L2 & W2 & P2 & N2). split; [congruence|]. cbn [map concat] in *. rewrite app_nil_r in *.
  destruct (NoDup_app_inv _ _ _ ND) as (_ & _ & D). split; [|split].
  - intros u p [<-|Hu] Hp; [|apply (W2 u); assumption]. rewrite <- (W1 t p (or_introl eq_refl) Hp). apply count_sum_eq.
    intros i Hi. apply N2. intros X. eapply D; [|exact X]. eapply is_path_indices; eassumption.
  - intros i Hi. rewrite in_app_iff in Hi. destruct Hi as [Hi|Hi]; [|apply P2; assumption].
    destruct (in_dec Nat.eq_dec i (concat (map node_indices l))) as [Hj|Hj]; [apply P2; assumption|]. rewrite N2 by assumption. apply P1. assumption.
  - intros i Hi. rewrite in_app_iff in Hi. rewrite N2, N1 by tauto. reflexivity.
Qed.

Lemma analyze_forest : forall n l d, Forall (fun t => forall c, length c = n -> indices_in_range n t -> distinct_categories t ->
    (forall i, In i (node_indices t) -> nth i c 0 = 1) -> height t <= d ->
    exists c', analyze_loop d (struct_list t) c = Ok c' /\ path_sums d [t] c c') l ->
  forall c, length c = n -> (forall t, In t l -> indices_in_range n t) -> NoDup (concat (map node_indices l)) ->
  (forall i, In i (concat (map node_indices l)) -> nth i c 0 = 1) -> max_of (map height l) <= d ->
  exists c', analyze_loop d (concat (map struct_list l)) c = Ok c' /\ path_sums d l c c'.
Proof.
  intros n. induction l as [|t l IH]; intros d HF c HL HR ND H1 HH.
  { exists c. split; [reflexivity|]. split; [reflexivity|]. split; [intros t p []|]. split; [intros i []|auto]. }
  inversion HF as [|? ? HFt HFl]; subst. cbn [map concat max_of fold_right] in *. destruct (NoDup_app_inv _ _ _ ND) as (N1 & N2 & DJ).
  fold (max_of (map height l)) in HH.
  destruct (HFt c eq_refl (HR t (or_introl eq_refl)) N1) as (c1 & E1 & W1); [intros; apply H1; apply in_app_iff; auto|lia|].
  destruct (IH d HFl c1 (proj1 W1)) as (c2 & E2 & W2); [intros; apply HR; right; assumption|assumption| |lia|].
  { intros i Hi. destruct W1 as (_ & _ & _ & W1). rewrite W1; [apply H1; apply in_app_iff; auto|]. cbn [map concat]. rewrite app_nil_r.
    intros X. eapply DJ; eassumption. }
  exists c2. split; [|eapply sums_cons; eassumption]. destruct t as [i ch]. rewrite struct_cons in *. cbn [app analyze_loop] in *.
  set (X := match match ch with [] => SNone | _ => _ end with SNone => _ | SInt _ => _ | SList _ => _ end) in *.
  destruct X as [x|e|]; cbn [bind] in *; try discriminate. injection E1; intros ->. assumption.
Qed.

Lemma height_child : forall i ch c, In c ch -> height c < height (Node i ch).
Proof.
  intros i ch c H. rewrite height_node. enough (height c <= max_of (map height ch)) by lia.
  induction ch as [|x ch IH]; [destruct H|]. cbn [map max_of fold_right]. fold (max_of (map height ch)). destruct H as [->|H]; [lia|].
  specialize (IH H). lia.
Qed.

Lemma analyze_tree : forall n t d c, length c = n -> indices_in_range n t -> distinct_categories t ->
    (forall i, In i (node_indices t) -> nth i c 0 = 1) -> height t <= d ->
    exists c', analyze_loop d (struct_list t) c = Ok c' /\ path_sums d [t] c c'.
Proof.
  intros n t. induction t as [i ch IH] using rtree_ind'. intros d c HL HR HD H1 HH.
  assert (Hi := range_node _ _ _ HR). rewrite struct_cons. destruct ch as [|c0 ch0].
  - cbn [analyze_loop]. rewrite assign_ok by lia. cbn [bind]. eexists. split; [reflexivity|].
    split; [apply set_nth_length|]. assert (HP := height_pos (Node i [])). split; [|split].
    + intros t p [<-|[]] Hp. inversion Hp as [|? ? ? ? HX]; subst; [|destruct HX]. rewrite count_sum_cons, nth_set_nth_same by lia.
      unfold count_sum. simpl. lia.
    + intros j [<-|[]]. rewrite nth_set_nth_same by lia. lia.
    + intros j Hj. apply nth_set_nth_other. intros ->. apply Hj. left. reflexivity.
  - set (ch := c0 :: ch0) in *. cbn [analyze_loop]. rewrite analyze_list.
    rewrite height_node in HH. unfold distinct_categories in HD. cbn [node_indices] in HD, H1. apply NoDup_cons_iff in HD. destruct HD as [ND1 ND2].
    destruct (analyze_forest n ch (d - 1)) with (c := c) as (c2 & E2 & L & W & P & N).
    + eapply Forall_impl; [|exact IH]. intros x Hx cc A B C D E. apply Hx; assumption.
    + assumption.
    + intros; eapply range_child; eassumption.
    + assumption.
    + intros; apply H1; right; assumption.
    + lia.
    + rewrite E2. cbn [bind]. exists c2. split; [reflexivity|]. split; [assumption|]. cbn [map concat node_indices]. rewrite app_nil_r.
      assert (NI : nth i c2 0 = 1) by (rewrite N by assumption; apply H1; left; reflexivity).
      split; [|split].
      * intros t p [<-|[]] Hp. inversion Hp; subst. rewrite count_sum_cons, NI, (W c1 p0) by assumption. lia.
      * intros j [<-|Hj]; [lia|]. apply P. assumption.
      * intros j Hj. apply N. intros X. apply Hj. right. assumption.
Qed.

Lemma max_of_ge : forall l x, In x l -> x <= max_of l.
Proof. induction l as [|y l IH]; intros x H; [destruct H|]. cbn [max_of fold_right]. fold (max_of l). destruct H as [->|H]; [lia|]. specialize (IH x H). lia. Qed.

Theorem analyze_spec : forall ch, distinct_categories (Node 0 ch) -> ch <> [] ->
  exists counts, get_agents_analyze (struct_of (Node 0 ch)) = Ok counts
    /\ length counts = max_of (node_indices (Node 0 ch)) + 1
    /\ nth 0 counts 0 = height (Node 0 ch) - 1
    /\ (forall p, is_path (Node 0 ch) (0 :: p) -> count_sum counts p = nth 0 counts 0)
    /\ (forall i, In i (node_indices (Node 0 ch)) -> 0 < nth i counts 0).
Proof.
  intros ch HD HC. unfold get_agents_analyze. rewrite depth_spec. cbn [bind fst snd].
  set (t := Node 0 ch) in *. set (n := max_of (node_indices t) + 1).
  assert (HR : indices_in_range n t).
  { unfold indices_in_range. rewrite Forall_forall. intros i Hi. apply max_of_ge in Hi. unfold n. lia. }
  assert (RP : forall i, i < n -> nth i (repeat 1 n) 0 = 1).
  { intros i Hi. rewrite (nth_indep _ 0 1) by (rewrite repeat_length; assumption). apply nth_repeat. }
  unfold struct_of. rewrite analyze_list.
  destruct (analyze_tree n t (height t) (repeat 1 n) (repeat_length _ _) HR HD) as (c & E & L & W & P & N); [|lia|].
  { intros i Hi. apply RP. unfold indices_in_range in HR. rewrite Forall_forall in HR. apply HR. assumption. }
  rewrite E. cbn [bind]. rewrite repeat_length in L. rewrite (get_lt _ _ _ 0) by (rewrite L; unfold n; lia). cbn [bind].
  assert (Z : nth 0 (set_nth 0 (height t - 1) c) 0 = height t - 1) by (apply nth_set_nth_same; rewrite L; unfold n; lia).
  assert (HH : 1 < height t).
  { destruct ch as [|x ch]; [congruence|]. assert (X := height_child 0 (x :: ch) x (or_introl eq_refl)). assert (Y := height_pos x). fold t in X. lia. }
  eexists. split; [reflexivity|]. split; [rewrite set_nth_length; assumption|]. split; [assumption|]. split.
  - intros p Hp. rewrite Z. assert (X := W t (0 :: p) (or_introl eq_refl) Hp). rewrite count_sum_cons in X.
    assert (C0 : nth 0 c 0 = 1).
    { unfold t in E. rewrite struct_cons in E. destruct ch as [|x ch]; [congruence|]. cbn [analyze_loop] in E. rewrite analyze_list in E.
      unfold distinct_categories, t in HD. cbn [node_indices] in HD. apply NoDup_cons_iff in HD. destruct HD as [ND1 ND2].
      destruct (analyze_forest n (x :: ch) (height (Node 0 (x :: ch)) - 1)) with (c := repeat 1 n) as (c2 & E2 & L2 & W2 & P2 & N2).
      - rewrite Forall_forall. intros y Hy cc A1 A2 A3 A4 A5. apply (analyze_tree n); assumption.
      - apply repeat_length.
      - intros; eapply range_child; eassumption.
      - assumption.
      - intros i Hi. apply RP. unfold indices_in_range in HR. rewrite Forall_forall in HR. apply HR. right. assumption.
      - rewrite height_node. lia.
      - rewrite E2 in E. cbn [bind] in E. injection E; intros ->. rewrite N2 by assumption. apply RP. unfold n. lia. }
    assert (Y : count_sum (set_nth 0 (height t - 1) c) p = count_sum c p).
    { apply count_sum_eq. intros i Hi. apply nth_set_nth_other. intros <-.
      inversion Hp as [|? ? ch0 p0 Hc Hp0]; subst. { destruct Hi. }
      unfold distinct_categories, t in HD. cbn [node_indices] in HD. apply NoDup_cons_iff in HD. apply (proj1 HD).
      eapply in_concat_map; [exact Hc|]. eapply is_path_indices; eassumption. }
    lia.
  - intros i Hi. destruct (Nat.eq_dec i 0) as [->|Hn]; [lia|]. rewrite nth_set_nth_other by congruence. apply P. cbn [map concat]. rewrite app_nil_r. assumption.
Qed.

(** ** Splitting prices *)

Lemma share_spec : forall len s c, 0 < s -> share len s c = len * c / s.
Proof.
  intros len s c Hs. unfold share.
  assert (E : (Qn len / Qn s * Qn c == Qn (len * c) / Qn s)%Q).
  { rewrite Qn_mult. field. intros X. assert (Y := Qn_pos _ Hs). rewrite X in Y. discriminate Y. }
  rewrite (Qfloor_comp _ _ E). unfold Qn.
  rewrite (Qfloor_comp _ (Z.of_nat (len * c) # Pos.of_nat s)).
  - unfold Qfloor. replace (Z.pos (Pos.of_nat s)) with (Z.of_nat s) by (rewrite <- positive_nat_Z, Nat2Pos.id by lia; reflexivity).
    rewrite <- Nat2Z.inj_div. apply Nat2Z.id.
  - assert (X : (inject_Z (Z.of_nat s) == Z.pos (Pos.of_nat s) # 1)%Q).
    { unfold inject_Z. rewrite <- positive_nat_Z, Nat2Pos.id by lia. reflexivity. }
    rewrite X. unfold Qdiv, Qmult, Qinv, inject_Z, Qeq. simpl. lia.
Qed.

Lemma skipn_plus : forall A n k (l : list A), skipn n (skipn k l) = skipn (k + n) l.
Proof. intros A n k. induction k as [|k IH]; intros l; [reflexivity|]. destruct l; [simpl; apply skipn_nil|]. apply IH. Qed.

Lemma deal_values_spec : forall n sign data k values a, k + n <= length data -> a < length values ->
  deal_values n sign data k values a = Ok (map (fun d => sign * d * nth a values 0)%Q (firstn n (skipn k data)), k + n).
Proof.
  induction n as [|n IH]; intros sign data k values a Hk Ha; [simpl; f_equal; f_equal; lia|].
  cbn [deal_values]. rewrite (get_lt _ _ _ 0%Q) by lia. cbn [bind]. rewrite (get_lt _ _ _ 0%Q) by lia. cbn [bind]. rewrite IH by lia.
  cbn [bind fst snd].
  assert (E : skipn k data = nth k data 0%Q :: skipn (S k) data).
  { clear - Hk. revert k Hk. induction data as [|x data IHd]; intros [|k] Hk; simpl in *; try lia; [reflexivity|]. apply IHd. lia. }
  rewrite E. cbn [firstn map]. do 2 f_equal. lia.
Qed.

Lemma div_sum_le : forall len s counts, 0 < s -> nsum (map (fun c => len * c / s) counts) <= len * nsum counts / s.
Proof.
  intros len s counts Hs. induction counts as [|c counts IH]; [simpl; rewrite Nat.mul_0_r, Nat.div_0_l; lia|].
  cbn [map nsum fold_right]. fold (nsum counts). fold (nsum (map (fun c => len * c / s) counts)).
  rewrite Nat.mul_add_distr_l. assert (H1 := Nat.mul_div_le (len * c) s ltac:(lia)). assert (H2 := Nat.mul_div_le (len * nsum counts) s ltac:(lia)).
  enough (len * c / s + len * nsum counts / s <= (len * c + len * nsum counts) / s) by lia.
  apply Nat.div_le_lower_bound; lia.
Qed.

Lemma deal_categories_spec : forall counts a s data k values, 0 < s -> a + length counts <= length values ->
  k + nsum (map (fun c => length data * c / s) counts) <= length data ->
  exists split pieces, deal_categories counts a s data k values = Ok split
    /\ pieces_of (skipn k data) pieces
    /\ map (@length Q) pieces = map (fun c => length data * c / s) counts
    /\ length split = length counts
    /\ (forall i, i < length counts -> nth i split [] =
         map (fun d => (if (0 <? a + i) then -(1) else 1) * d * nth (a + i) values 0)%Q (nth i pieces [])).
Proof.
  induction counts as [|c counts IH]; intros a s data k values Hs Hv Hk.
  { exists [], []. split; [reflexivity|]. split; [exists (skipn k data); reflexivity|]. split; [reflexivity|]. split; [reflexivity|]. simpl. lia. }
  cbn [map nsum fold_right] in Hk. fold (nsum (map (fun c => length data * c / s) counts)) in Hk. cbn [length] in Hv.
  cbn [deal_categories]. rewrite share_spec by assumption. set (n := length data * c / s) in *.
  rewrite deal_values_spec by lia. cbn [bind fst snd].
  destruct (IH (S a) s data (k + n) values Hs ltac:(lia) ltac:(lia)) as (split & pieces & E & (rest & PR) & L & LS & V).
  rewrite E. cbn [bind]. exists (map (fun d => (if (0 <? a) then -(1) else 1) * d * nth a values 0)%Q (firstn n (skipn k data)) :: split),
    (firstn n (skipn k data) :: pieces).
  split; [reflexivity|]. split; [|split; [|split]].
  - exists rest. cbn [concat]. rewrite <- app_assoc, <- PR. rewrite <- (firstn_skipn n (skipn k data)) at 1. f_equal.
    apply skipn_plus.
  - cbn [map]. rewrite L. f_equal. rewrite firstn_length, skipn_length. lia.
  - simpl. rewrite LS. reflexivity.
  - intros [|i] Hi; cbn [nth].
    + rewrite Nat.add_0_r. reflexivity.
    + simpl in Hi. rewrite V by lia. replace (S a + i) with (a + S i) by lia. reflexivity.
Qed.

Theorem split_prices_spec : forall data counts values, 0 < nsum counts -> length counts <= length values ->
  exists split pieces, split_prices data counts values = Ok split
    /\ pieces_of data pieces
    /\ map (@length Q) pieces = map (fun c => length data * c / nsum counts) counts
    /\ length split = length counts
    /\ (forall i, i < length counts -> nth i split [] =
         map (fun d => (if (0 <? i) then -(1) else 1) * d * nth i values 0)%Q (nth i pieces [])).
Proof.
  intros data counts values Hs Hv. unfold split_prices.
  replace (nsum counts =? 0) with false by (symmetry; apply Nat.eqb_neq; lia).
  destruct (deal_categories_spec counts 0 (nsum counts) data 0 values Hs Hv) as (split & pieces & E & P & L & LS & V).
  { assert (X := div_sum_le (length data) (nsum counts) counts Hs). rewrite Nat.div_mul in X by lia. lia. }
  exists split, pieces. split; [|auto]. destruct counts; [simpl in Hs; lia|assumption].
Qed.
