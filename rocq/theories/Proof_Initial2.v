(** * The tree auction: neither the initial prices nor the listing of the market matter (C111) *)

From Coq Require Import String List Arith Lia QArith Lqa Permutation Sorted Bool.
From Verif Require Import Base Model_Agents Model_Trade Model_Prices Model_Market Model_RecipeTree Model_TreeAuction
  Spec_Market Spec_RecipeTree Spec_TreeAuction Spec_Reorder Spec_Renumber Proof_Tree Proof_Reorder Proof_TA1 Proof_TA2 Proof_TA3
  Proof_TA6 Proof_Renumber Proof_Initial.
Import ListNotations.
Open Scope Q_scope.

Lemma renumbered_height : forall o n (Ho : is_order n o) t t', renumbered o t t' -> height t' = height t.
Proof.
  intros o n Ho. apply (children_ind o n Ho (fun t t' => height t' = height t)). intros i ch sh ch' Hi Hp HR HF. cbn [height]. f_equal.
  assert (E : map height ch' = map height sh).
  { clear -HF. induction HF as [|c c' l l' H _ IH]; [reflexivity|]. cbn [map]. rewrite H, IH. reflexivity. }
  rewrite E. assert (P : Permutation (map height ch) (map height sh)) by (apply Permutation_map; exact Hp).
  clear -P. induction P as [|x l l' P IH|x y l|l l' l'' P1 IH1 P2 IH2]; cbn [fold_right]; lia.
Qed.

Theorem listing_free : forall M B p p' fuel fuel' m o st st' r r' rs rs', 0 < M -> is_order (length m) o ->
  tree_auction M p fuel m st = Ok r -> tree_auction M p' fuel' (reorder no_category o m) st' = Ok r' -> renumbered o (tt_tree r) (tt_tree r') ->
  recipes (length m) (tt_tree r) = Ok rs -> recipes (length m) (tt_tree r') = Ok rs' ->
  distinct_categories (tt_tree r) -> initial_prices_ok (length m) rs (- M) p -> initial_prices_ok (length m) rs' (- M) p' ->
  values_within B m -> 2 * B * Qn (height (tt_tree r)) <= M -> no_ties m ->
  (forall i, In i (node_indices (tt_tree r)) -> (0 < csize (cat_at m i))%nat) ->
  tt_cats r' = reorder no_category o (tt_cats r) /\ tt_deals r' = tt_deals r /\ tt_kmin r' = tt_kmin r /\ tt_kmax r' = tt_kmax r
  /\ tt_gft r' == tt_gft r
  /\ forall i, In i (node_indices (tt_tree r')) -> nth i (tt_prices r') 0 == nth (nth i o 0%nat) (tt_prices r) 0.
Proof.
  intros M B p p' fuel fuel' m o st st' r r' rs rs' HM Ho H H' HT Hrs Hrs' HD HP HP' HV HMB NT NE.
  assert (Lo := order_length _ _ Ho). assert (Lm : length (reorder no_category o m) = length m) by (rewrite reorder_length; exact Lo).
  destruct (auction_returned _ _ _ _ _ _ H) as (rs1 & sp1 & u1 & R). destruct (auction_returned _ _ _ _ _ _ H') as (rs2 & sp2 & u2 & R').
  assert (E1 : rs1 = rs) by (rewrite (rt_recipes _ _ _ _ _ _ _ _ _ R) in Hrs; congruence). subst rs1.
  assert (E2 : rs2 = rs') by (assert (X := rt_recipes _ _ _ _ _ _ _ _ _ R'); rewrite Lm in X; congruence). subst rs2.
  assert (SU := rt_setup _ _ _ _ _ _ _ _ _ R). assert (SU' := rt_setup _ _ _ _ _ _ _ _ _ R'). rewrite Lm in SU'.
  assert (HP2 := HP). destruct HP2 as [Lp [HF [S HS]]].
  assert (HQ : initial_prices_ok (length m) rs' (- M) (reorder 0 o p)).
  { split; [rewrite reorder_length; exact Lo|]. split.
    - rewrite Forall_forall in *. intros x Hx. unfold reorder in Hx. apply in_map_iff in Hx. destruct Hx as [i [<- Hi]]. apply HF, nth_In.
      rewrite Lp. apply (Permutation_in _ Ho) in Hi. apply in_seq in Hi. lia.
    - exists S. apply (sums_renumber o (length m) Ho (tt_tree r) (tt_tree r') rs rs' p); try assumption.
      + rewrite reorder_length; exact Lo.
      + intros i Hi. unfold old. rewrite reorder_nth by lia. reflexivity. }
  assert (Ht' : new_tree (reorder no_category o m) st' = Ok (tt_tree r')).
  { assert (X := rt_tree _ _ _ _ _ _ _ _ _ R'). unfold new_tree in *. unfold clone_market in X. rewrite map_length in X. exact X. }
  assert (QR : Forall2 Qeq (reorder 0 o p) (reorder 0 o p)) by (generalize (reorder 0 o p); intros l; induction l; constructor; [reflexivity|assumption]).
  destruct (tree_renumber_returns M p (reorder 0 o p) fuel m o st st' r (tt_tree r') rs Ho H Ht' HT HD Hrs Lp QR (ex_intro _ S HS)) as [q [Hq Eq]].
  assert (HTq : renumbered o (tt_tree r) (tt_tree q)) by (rewrite Eq; exact HT).
  destruct (tree_renumber M p (reorder 0 o p) fuel m o st st' r q rs Ho H Hq HTq Hrs Lp QR (ex_intro _ S HS)) as (C1 & C2 & C3 & C4 & C5 & C6).
  destruct (initial_prices_free M B (reorder 0 o p) p' fuel fuel' (reorder no_category o m) st' q r' rs' HM Hq H') as (D0 & D1 & D2 & D3 & D4 & D5 & D6).
  - rewrite Lm, Eq. assumption.
  - rewrite Eq. eapply renumbered_distinct; eassumption.
  - rewrite Lm. assumption.
  - rewrite Lm. assumption.
  - intros c v Hc Hv. unfold reorder in Hc. apply in_map_iff in Hc. destruct Hc as [i [Ec Hi]]. apply (HV c v); [|assumption].
    rewrite <- Ec. apply nth_In. apply (Permutation_in _ Ho) in Hi. apply in_seq in Hi. lia.
  - rewrite Eq, (renumbered_height o (length m) Ho _ _ HT). assumption.
  - intros c l1 x l2 y l3 Hc. unfold reorder in Hc. apply in_map_iff in Hc. destruct Hc as [i [Ec Hi]]. apply (NT c).
    rewrite <- Ec. apply nth_In. apply (Permutation_in _ Ho) in Hi. apply in_seq in Hi. lia.
  - intros i Hi. rewrite Eq in Hi. assert (RG := renumbered_range o (length m) Ho _ _ HT). unfold indices_in_range in RG. rewrite Forall_forall in RG.
    specialize (RG i Hi). unfold cat_at. change (mkCat "" []) with no_category. rewrite reorder_nth by lia. apply NE.
    eapply Permutation_in; [apply (renumbered_indices o (length m) Ho _ _ HT)|]. apply (in_map (old o)) in Hi. exact Hi.
  - rewrite D1, D2, D3, D4, D5. split; [assumption|]. split; [assumption|]. split; [assumption|]. split; [assumption|]. split; [assumption|].
    intros i Hi. assert (RG := renumbered_range o (length m) Ho _ _ HT). unfold indices_in_range in RG. rewrite Forall_forall in RG.
    specialize (RG i Hi). rewrite D6 by (rewrite Eq; assumption). rewrite <- (reorder_nth _ 0 o (tt_prices r)) by lia.
    clear -C2. revert i. induction C2 as [|a b l l' E _ IH]; intros [|i]; cbn [nth]; try reflexivity; [assumption|apply IH].
Qed.
