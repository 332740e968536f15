(** * C38/C58: ties are harmless outside the deep inner categories *)

From Coq Require Import String List Arith Lia QArith Lqa.
From Verif Require Import Base Model_Agents Model_Trade Model_Prices Model_Market Model_RecipeTree Model_TreeAuction Model_IntTree Model_IntAuction
  Spec_Market Spec_RecipeTree Spec_TreeAuction Spec_Int Spec_Ties Proof_Int7 Props_TreeAuction Props_Int.
From Verif Require Proof_TA7 Proof_TA14 Proof_TA15.
Import ListNotations.
Open Scope Q_scope.
Open Scope string_scope.

(** Every tree, when no category is empty and the values are small compared with MAX_VALUE, if every category that has children and is
    neither the root nor a child of the root is free of ties. *)
Theorem C38_ties_terminate : forall M B p0 fuel m st t rs, 0 < M -> new_tree (clone_market m) st = Ok t ->
  distinct_categories t -> tchildren t <> [] -> recipes (length m) t = Ok rs ->
  initial_prices_ok (length m) rs (- M) p0 ->
  values_within B m -> 2 * B * Qn (height t) <= M -> (forall i, deep_inner t i -> distinct_values (cat_at m i)) ->
  (forall i, In i (node_indices t) -> (0 < csize (cat_at m i))%nat) -> (agents_number m < fuel)%nat ->
  exists r, tree_auction M p0 fuel m st = Ok r.
Proof. exact Proof_TA14.ties_terminates. Qed.
Print Assumptions C38_ties_terminate.

Lemma three_levels_shallow : forall t, (height t <= 3)%nat -> forall i, ~ deep_inner t i.
Proof.
  intros t H i (a & x & ch & Ha & Hx & Hi & N).
  destruct t as [k l]. cbn [tchildren] in Ha. assert (H1 := Proof_TA7.height_child k l a Ha). assert (H2 := Proof_TA7.height_sub _ _ Hx).
  destruct x as [k' l']. cbn [tchildren] in Hi. assert (H3 := Proof_TA7.height_child k' l' _ Hi).
  destruct ch as [|c ch]; [contradiction|]. assert (H4 := Proof_TA7.height_child i (c :: ch) c (or_introl eq_refl)).
  assert (H5 := Proof_TA7.height_pos c). lia.
Qed.

(** In particular every tree of at most three levels, with any ties. *)
Theorem C38_three_levels_terminate : forall M B p0 fuel m st t rs, 0 < M -> new_tree (clone_market m) st = Ok t ->
  distinct_categories t -> tchildren t <> [] -> (height t <= 3)%nat -> recipes (length m) t = Ok rs ->
  initial_prices_ok (length m) rs (- M) p0 ->
  values_within B m -> 2 * B * Qn (height t) <= M ->
  (forall i, In i (node_indices t) -> (0 < csize (cat_at m i))%nat) -> (agents_number m < fuel)%nat ->
  exists r, tree_auction M p0 fuel m st = Ok r.
Proof.
  intros M B p0 fuel m st t rs HM HT HD HC HH HR HP HV HB HN HF. eapply C38_ties_terminate; try eassumption.
  intros i HI. exfalso. eapply three_levels_shallow; eassumption.
Qed.
Print Assumptions C38_three_levels_terminate.

(** The tree of the paper's example, with ties everywhere. *)
Definition ties_struct : pystruct := SList [SInt 0; SList [SInt 1; SNone; SInt 2; SList [SInt 3; SNone]]].
Definition paper_tree : rtree := Node 0 [Node 1 []; Node 2 [Node 3 []]].
Definition paper_recipes : list (list nat) := [[1; 1; 0; 0]; [1; 0; 1; 1]]%nat.
Definition paper_p0 : list Q := [- MAX_VALUE; - (2) * MAX_VALUE; - MAX_VALUE; - MAX_VALUE].
Definition paper_ties : market :=
  [mkCat "buyer" [9; 9; 9]; mkCat "seller" [-(4); -(4)]; mkCat "A" [-(2); -(2)]; mkCat "B" [-(1); -(1)]].

Example C38_three_levels_witness : new_tree (clone_market paper_ties) ties_struct = Ok paper_tree /\ (height paper_tree <= 3)%nat
  /\ distinct_categories paper_tree /\ recipes 4 paper_tree = Ok paper_recipes
  /\ (forall i, In i (node_indices paper_tree) -> (0 < csize (cat_at paper_ties i))%nat)
  /\ values_within 9 paper_ties /\ 2 * 9 * Qn (height paper_tree) <= MAX_VALUE /\ ~ no_ties paper_ties.
Proof.
  split; [reflexivity|]. split; [vm_compute; lia|].
  split; [unfold distinct_categories; simpl; repeat constructor; simpl; intuition discriminate|].
  split; [reflexivity|]. split; [intros i [<-|[<-|[<-|[<-|[]]]]]; vm_compute; lia|].
  split; [unfold values_within; apply in_values; repeat constructor; unfold Qle; simpl; lia|].
  split; [unfold Qle; simpl; lia|].
  intros H. apply (H (mkCat "seller" [-(4); -(4)]) [] (-(4)) [] (-(4)) []); [right; left; reflexivity|reflexivity|reflexivity].
Qed.

(** The condition cannot be dropped: in the market of C38_ties_hang, the only ties outside the root are in the deep inner categories
    "d" and "d2", all other conditions hold, and the auction never ends. *)
Theorem C38_deep_ties_hang :
  (forall i, deep_inner tie_tree i <-> i = 2%nat \/ i = 5%nat)
  /\ (forall i, i <> 0%nat -> i <> 2%nat -> i <> 5%nat -> distinct_values (cat_at tie_market i))
  /\ ~ distinct_values (cat_at tie_market 2) /\ 2 * 10 * Qn (height tie_tree) <= MAX_VALUE
  /\ (forall i, In i (node_indices tie_tree) -> (0 < csize (cat_at tie_market i))%nat)
  /\ forall fuel, tree_auction MAX_VALUE tie_p0 fuel tie_market tie_struct = Timeout.
Proof.
  split; [|split; [|split; [|split; [|split]]]].
  - intros i. split.
    + intros (a & x & ch & Ha & Hx & Hi & N).
      assert (K : forall a' y, subtree a' y -> forall i' ch', In (Node i' ch') (tchildren y) -> ch' <> [] ->
                In a' (tchildren tie_tree) -> i' = 2%nat \/ i' = 5%nat).
      { clear. intros a' y Hy i' ch' Hi' N' Ha'.
        assert (L : a' = y \/ exists c, In c (tchildren a') /\ subtree c y).
        { clear - Hy. induction Hy as [|k l c Hy IH Hc]; [left; reflexivity|]. right. destruct IH as [->|(c' & A & B)].
          - exists c. split; [exact Hc|constructor].
          - exists c'. split; [exact A|eapply st_down; eassumption]. }
        cbn in Ha'. destruct Ha' as [<-|[<-|[<-|[]]]]; cbn in L.
        - destruct L as [<-|(c & [<-|[]] & Hc)].
          + cbn in Hi'. destruct Hi' as [E|[]]. injection E as <- _. left. reflexivity.
          + exfalso. apply N'. clear N'. assert (H1 := Proof_TA7.height_sub _ _ Hc). destruct y as [k l].
            assert (H2 := Proof_TA7.height_child k l _ Hi'). destruct ch' as [|z zs]; [reflexivity|].
            assert (H3 := Proof_TA7.height_child i' (z :: zs) z (or_introl eq_refl)). assert (H4 := Proof_TA7.height_pos z). change (height (Node 2 [Node 3 []])) with 2%nat in H1. lia.
        - destruct L as [<-|(c & [<-|[]] & Hc)].
          + cbn in Hi'. destruct Hi' as [E|[]]. injection E as <- _. right. reflexivity.
          + exfalso. apply N'. clear N'. assert (H1 := Proof_TA7.height_sub _ _ Hc). destruct y as [k l].
            assert (H2 := Proof_TA7.height_child k l _ Hi'). destruct ch' as [|z zs]; [reflexivity|].
            assert (H3 := Proof_TA7.height_child i' (z :: zs) z (or_introl eq_refl)). assert (H4 := Proof_TA7.height_pos z). change (height (Node 5 [Node 6 []])) with 2%nat in H1. lia.
        - destruct L as [<-|(c & [] & Hc)]. cbn in Hi'. destruct Hi'. }
      eapply K; eassumption.
    + intros [->| ->].
      * exists (Node 1 [Node 2 [Node 3 []]]), (Node 1 [Node 2 [Node 3 []]]), [Node 3 []]. split; [left; reflexivity|]. split; [constructor|].
        split; [left; reflexivity|discriminate].
      * exists (Node 4 [Node 5 [Node 6 []]]), (Node 4 [Node 5 [Node 6 []]]), [Node 6 []]. split; [right; left; reflexivity|]. split; [constructor|].
        split; [left; reflexivity|discriminate].
  - intros i H0 H2 H5 l1 x l2 y l3 E.
    destruct (le_lt_dec 8 i) as [L|L].
    { unfold cat_at in E. rewrite nth_overflow in E by exact L. destruct l1; discriminate. }
    destruct i as [|[|[|[|[|[|[|[|i]]]]]]]]; try congruence; try lia; cbn in E;
      try (apply (f_equal (@length Q)) in E; rewrite app_length in E; cbn in E; rewrite app_length in E; cbn in E; exfalso; lia).
    destruct l1 as [|a l1]; [|destruct l1 as [|b l1]; [|destruct l1; discriminate]].
    + destruct l2 as [|a l2]; [|destruct l2; [discriminate|destruct l2; discriminate]]. injection E as <- <- _. intros X. discriminate X.
    + destruct l2 as [|c l2]; [|destruct l2; discriminate]. discriminate.
  - intros H. apply (H [] (-(5)) [] (-(5)) []); reflexivity.
  - unfold Qle; simpl; lia.
  - intros i H. cbn in H. repeat (destruct H as [<-|H]; [vm_compute; lia|]). destruct H.
  - apply C38_ties_hang.
Qed.
Print Assumptions C38_deep_ties_hang.

(** ** The integer version with unit counts *)

Theorem C58_unit_ties_terminate : forall M B fuel m st counts t, 0 < M -> new_int_tree (clone_market m) counts st = Ok t ->
  unit_counts counts t -> distinct_categories t -> leaf_last t -> tchildren t <> [] ->
  values_within B m -> 2 * B * Qn (height t) <= M -> (forall i, deep_inner t i -> distinct_values (cat_at m i)) ->
  (forall i, In i (node_indices t) -> (0 < csize (cat_at m i))%nat) -> (agents_number m < fuel)%nat ->
  exists r, int_auction M fuel m st counts = Ok r.
Proof. exact Proof_TA15.int_unit_ties_terminates. Qed.
Print Assumptions C58_unit_ties_terminate.

Example C58_unit_ties_witness : new_int_tree (clone_market paper_ties) [1; 1; 1; 1]%nat ties_struct = Ok paper_tree
  /\ unit_counts [1; 1; 1; 1]%nat paper_tree /\ leaf_last paper_tree /\ (forall i, ~ deep_inner paper_tree i).
Proof.
  split; [reflexivity|]. split.
  { intros i H. cbn in H. repeat (destruct H as [<-|H]; [reflexivity|]). destruct H. }
  split; [apply leaf_last_check; reflexivity|]. apply three_levels_shallow. vm_compute. lia.
Qed.
