(** * Both auctions return (C71) *)

From Coq Require Import String List Arith Lia QArith Lqa Permutation Sorted Bool.
From Verif Require Import Base Model_Agents Model_Trade Model_Prices Model_Market Model_Ascending Model_RecipeTree Model_TreeAuction
  Spec_Market Spec_Trade Spec_Ascending Spec_RecipeTree Spec_TreeAuction Spec_Path
  Proof_Tree Proof_TA3 Proof_TA4 Proof_TA5 Proof_TA6 Proof_Ascending Proof_Ascending2 Proof_Path2 Proof_Path4.
Import ListNotations.
Open Scope Q_scope.

Lemma build_path_ok : forall n l i, Forall (fun j => (j < n)%nat) (i :: l) ->
  build_node n (SInt i) (match l with [] => SNone | j :: l' => path_struct j l' end) = Ok (path_tree i l).
Proof.
  intros n. induction l as [|j l IH]; intros i H; inversion H as [|? ? Hi Hl]; subst.
  - cbn [build_node]. apply Nat.ltb_lt in Hi. rewrite Hi. reflexivity.
  - assert (E : path_struct j l = SList [SInt j; match l with [] => SNone | k :: l' => path_struct k l' end]) by (destruct l; reflexivity).
    rewrite E. rewrite build_node_list. apply Nat.ltb_lt in Hi. rewrite Hi. cbn [build_children]. rewrite (IH j Hl). reflexivity.
Qed.

Lemma new_tree_path_ok : forall cats i l, Forall (fun j => (j < length cats)%nat) (i :: l) ->
  new_tree cats (path_struct i l) = Ok (path_tree i l).
Proof.
  intros cats i l H.
  assert (E : path_struct i l = SList [SInt i; match l with [] => SNone | k :: l' => path_struct k l' end]) by (destruct l; reflexivity).
  rewrite E. cbn [new_tree length Nat.even]. apply build_path_ok. assumption.
Qed.

Lemma path_nodes : forall l i, node_indices (path_tree i l) = i :: l.
Proof.
  induction l as [|j l IH]; intros i; [reflexivity|]. cbn [path_tree node_indices map concat]. rewrite IH, app_nil_r. reflexivity.
Qed.

Lemma path_broom : forall l i, broom (path_tree i l).
Proof.
  induction l as [|j l IH]; intros i; [apply broom_leaves; constructor|]. cbn [path_tree]. apply broom_handle. apply IH.
Qed.

Theorem path_both_return : forall M p0 fuel m recipe i j l,
  length recipe = length m -> Forall (fun x => x = 0%nat \/ x = 1%nat) recipe -> Permutation (i :: j :: l) (used recipe) ->
  initial_prices_ok (length m) [recipe] (- M) p0 -> values_below M m -> (agents_number m < fuel)%nat ->
  (exists r, tree_auction M p0 fuel m (path_struct i (j :: l)) = Ok r)
  /\ (exists t, ascending_auction_M M fuel m recipe = Ok t).
Proof.
  intros M p0 fuel m recipe i j l Hl HB Hr [HL [HF HS]] HV Hf. rewrite used_relevant in Hr. apply binary_forall in HB.
  assert (IN : forall k, In k (i :: j :: l) -> In k (relevant_indices recipe)) by (intros k Hk; eapply Permutation_in; [exact Hr|exact Hk]).
  assert (RG : Forall (fun k => (k < length (clone_market m))%nat) (i :: j :: l)).
  { apply Forall_forall. intros k Hk. apply IN in Hk. apply relevant_In in Hk. rewrite clone_length'. lia. }
  assert (NT := new_tree_path_ok (clone_market m) i (j :: l) RG).
  destruct (new_tree_setup _ _ _ NT) as [rs [Hrs SU]].
  assert (ERS : rs = [recipe]).
  { assert (X := Proof_TA2.su_recipes _ _ _ SU). rewrite paths_path in X. inversion X as [|? y ? ys Y1 Y2]; subst. inversion Y2; subst. f_equal.
    eapply path_recipe_eq; eassumption. }
  subst rs. split.
  - eapply broom_terminates; try eassumption.
    + unfold distinct_categories. rewrite path_nodes. eapply Permutation_NoDup; [apply Permutation_sym; exact Hr|apply relevant_nodup].
    + apply path_broom.
    + discriminate.
  - destruct (ascending_terminates M fuel m recipe Hf) as [[t [Ht _]]|[_ [X|X]]]; [eauto|contradiction|].
    exfalso. apply X. apply has_positive. exists i. apply relevant_In. apply IN. left. reflexivity.
Qed.
