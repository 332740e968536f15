(** * The struct built by the test's helper (for C71) *)

From Coq Require Import String List Arith Lia QArith Permutation.
From Verif Require Import Base Model_Agents Model_Trade Model_Market Model_Prices Model_RecipeTree Model_TreeAuction
  Model_Ascending Spec_Market Spec_TreeAuction Spec_Path Proof_Path4.
Import ListNotations.
Open Scope Q_scope.

Definition enum_used (k : nat) (l : list nat) : list nat :=
  map fst (filter (fun ic => (0 <? snd ic)%nat) (combine (seq k (length l)) l)).

Lemma used_enum_gen : forall l k, filter (fun i => negb (nth (i - k) l 0 =? 0)%nat) (seq k (length l)) = enum_used k l.
Proof.
  induction l as [|x l IH]; intros k; [reflexivity|]. cbn [length seq filter]. rewrite Nat.sub_diag.
  assert (E : filter (fun i => negb (nth (i - k) (x :: l) 0 =? 0)%nat) (seq (S k) (length l)) = enum_used (S k) l).
  { rewrite <- IH. apply filter_ext_in. intros a Ha. apply in_seq in Ha. replace (a - k)%nat with (S (a - S k)) by lia. reflexivity. }
  rewrite E. unfold enum_used. cbn [length seq combine filter snd]. destruct x; reflexivity.
Qed.

Lemma used_enum : forall l, used l = enum_used 0 l.
Proof.
  intros l. rewrite <- used_enum_gen. unfold used. apply filter_ext. intros a. rewrite Nat.sub_0_r. reflexivity.
Qed.

Lemma fold_path : forall l acc,
  fold_right (fun ic result => if (0 <? snd ic)%nat then SList [SInt (fst ic); result] else result) acc l
  = fold_right (fun i result => SList [SInt i; result]) acc
      (map fst (filter (fun ic : nat * nat => (0 <? snd ic)%nat) l)).
Proof.
  induction l as [|[i c] l IH]; intros acc; [reflexivity|]. cbn [fold_right filter snd fst]. rewrite IH.
  destruct (0 <? c)%nat; reflexivity.
Qed.

Lemma path_fold : forall l i, path_struct i l = fold_right (fun i result => SList [SInt i; result]) SNone (i :: l).
Proof. induction l as [|j l IH]; intros i; [reflexivity|]. cbn [path_struct]. rewrite IH. reflexivity. Qed.

Theorem test_struct : forall c rest others, (0 < c)%nat -> used (c :: rest) = 0%nat :: others ->
  ps_recipe_to_recipe_struct (c :: rest)
  = match others with [] => path_struct 0 [] | i :: l => path_struct i (l ++ [0%nat]) end.
Proof.
  intros c rest others Hc Hu. rewrite used_enum in Hu. unfold enum_used in Hu.
  cbn [length seq combine filter snd] in Hu. apply Nat.ltb_lt in Hc. rewrite Hc in Hu. cbn [map fst] in Hu. injection Hu as Hu.
  unfold ps_recipe_to_recipe_struct. cbn [length seq combine]. cbn [fold_left fst snd]. rewrite Hc.
  match goal with |- fold_left _ (rev ?a) ?b = _ => set (L := a) in *; set (z := b) in * end.
  rewrite <- fold_left_rev_right, rev_involutive. rewrite fold_path, Hu.
  destruct others as [|i l]; [reflexivity|]. rewrite path_fold.
  change (i :: l ++ [0%nat])%list with ((i :: l) ++ [0%nat])%list. rewrite fold_right_app. reflexivity.
Qed.

Theorem test_deals : forall M p0 fuel fuel' m rest r t, 0 < M ->
  Forall (fun x => x = 0%nat \/ x = 1%nat) rest -> (exists j, nth_error rest j = Some 1%nat) ->
  no_ties m -> values_over (- M) m -> initial_prices_optimal (length m) [1%nat :: rest] (- M) p0 ->
  tree_auction M p0 fuel m (ps_recipe_to_recipe_struct (1%nat :: rest)) = Ok r ->
  ascending_auction_M M fuel' m (1%nat :: rest) = Ok t ->
  tt_deals r = num_of_deals t.
Proof.
  intros M p0 fuel fuel' m rest r t HM HB [j Hj] NT HV HO HT HA.
  assert (E : exists i l, used (1%nat :: rest) = 0%nat :: i :: l).
  { assert (I : In (S j) (used (1%nat :: rest))).
    { unfold used. apply filter_In. split.
      - apply in_seq. simpl. assert (j < length rest)%nat by (apply nth_error_Some; congruence). lia.
      - cbn [nth]. rewrite (nth_error_nth rest j 0%nat Hj). reflexivity. }
    rewrite used_enum in *. unfold enum_used in *. cbn [length seq combine filter snd map fst] in *.
    change (0 <? 1)%nat with true in *. cbn [map fst] in *.
    destruct (map fst _) as [|i l] eqn:Em in I; [destruct I as [X|[]]; discriminate|]. exists i, l. rewrite Em. reflexivity. }
  destruct E as (i & l & E). rewrite (test_struct 1 rest (i :: l)) in HT; [|lia|assumption].
  eapply (path_same_deals M p0 fuel fuel' m (1%nat :: rest) i (l ++ [0%nat])); try eassumption.
  - constructor; [right; reflexivity|assumption].
  - rewrite E. apply Permutation_sym. change (i :: l ++ [0%nat])%list with ((i :: l) ++ [0%nat])%list.
    apply Permutation_cons_append.
  - rewrite E. change (i :: l ++ [0%nat])%list with ((i :: l) ++ [0%nat])%list. apply last_last.
Qed.
