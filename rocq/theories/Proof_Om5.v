(** * The old multi-recipe auction with disjoint recipes: analysis, feasible prices, and the walk of each recipe *)

From Coq Require Import String List Arith Lia QArith Lqa Permutation Sorted Bool Qround.
From Verif Require Import Base Model_Agents Model_Trade Model_Prices Model_Market Model_RecipeTree Model_TreeAuction
  Model_Ascending Model_OldMulti Spec_Market Spec_RecipeTree Spec_TreeAuction Spec_Trade Spec_Path Spec_OldMulti
  Proof_Market Proof_Trade Proof_Tree Proof_Tree2 Proof_Tree3 Proof_TA1 Proof_TA2 Proof_TA3 Proof_TA7 Proof_Ascending Proof_Ascending2
  Proof_Path2 Proof_Path3 Proof_Path4 Proof_Om1 Proof_Om2 Proof_Om3 Proof_Om4.
Import ListNotations.
Open Scope Q_scope.

Notation PR := Proof_Ascending.pr.

(** ** Analysis *)

Lemma seq_sorted : forall n a, StronglySorted lt (seq a n).
Proof.
  induction n as [|n IH]; intros a; simpl; constructor; [apply IH|]. apply Forall_forall. intros x Hx. apply in_seq in Hx. lia.
Qed.

Lemma filter_sorted : forall f l, StronglySorted lt l -> StronglySorted lt (filter f l).
Proof.
  intros f l H. induction H as [|a l H IH F]; simpl; [constructor|]. destruct (f a); [|assumption]. constructor; [assumption|].
  rewrite Forall_forall in F |- *. intros x Hx. apply F. apply filter_In in Hx. apply Hx.
Qed.

Lemma relevant_sorted : forall r, StronglySorted lt (relevant_indices r).
Proof. intros. apply filter_sorted, seq_sorted. Qed.

Lemma disjoint_containing : forall rs c, disjoint rs -> (length (containing rs c) <= 1)%nat.
Proof.
  intros rs c D. assert (N := containing_nodup rs c). destruct (containing rs c) as [|a [|b l]] eqn:E; simpl; try lia. exfalso.
  assert (A : In a (containing rs c)) by (rewrite E; left; reflexivity). assert (B : In b (containing rs c)) by (rewrite E; right; left; reflexivity).
  apply containing_In in A. apply containing_In in B. assert (a = b) by (apply (D c); split; apply A || apply B).
  subst b. inversion N as [|? ? N1 _]; subst. apply N1. left. reflexivity.
Qed.

Lemma analyze_disjoint : forall n rs, Forall (binary_recipe n) rs -> disjoint rs ->
  analyze_recipes n rs = Ok ([], map relevant_indices rs).
Proof.
  intros n rs B D. unfold analyze_recipes.
  assert (F : forallb (fun c => (length (containing rs c) <=? 1)%nat || in_all rs c) (seq 0 n) = true).
  { apply forallb_forall. intros c _. apply orb_true_iff. left. apply Nat.leb_le. apply disjoint_containing. assumption. }
  rewrite F. clear F. do 2 f_equal.
  - induction (seq 0 n) as [|c l IH]; [reflexivity|]. simpl. destruct (in_all rs c) eqn:E; [|assumption]. exfalso.
    assert (X := disjoint_containing rs c D). unfold in_all in E. rewrite !andb_true_iff, !negb_true_iff, !Nat.eqb_neq in E. lia.
  - apply (nth_ext _ _ [] []); [rewrite !map_length, seq_length; reflexivity|]. rewrite map_length, seq_length. intros k Hk.
    rewrite nth_map_seq0. assert (L : (k <? length rs)%nat = true) by (apply Nat.ltb_lt; assumption). rewrite L.
    rewrite (nth_indep (map relevant_indices rs) [] (relevant_indices [])) by (rewrite map_length; assumption). rewrite map_nth.
    rewrite Forall_forall in B. destruct (B (nth k rs []) (nth_In rs [] Hk)) as [LR _]. unfold relevant_indices. rewrite LR.
    apply filter_ext_in. intros c Hc. apply eq_true_iff_eq. rewrite only_in_iff, Nat.ltb_lt. split; [tauto|]. intros H.
    split; [assumption|]. split; [assumption|]. intros j Hj Hjc. apply (D c); split; assumption.
Qed.

(** ** Feasible prices *)

Lemma dot_const : forall x r p, length p = length r -> (forall c, (c < length r)%nat -> (0 < nth c r 0)%nat -> nth c p 0 == x) ->
  dot p r == x * Qn (nsum r).
Proof.
  intros x r p HL H. rewrite dot_wdot by assumption. rewrite (wdot_ext _ (fun _ => x)) by assumption. clear.
  unfold wdot. rewrite (Qsum_map_ext _ _ (fun j => Qn (nth j r 0%nat) * x)) by (intros; ring).
  induction r as [|a r IH]; [change (Qn (nsum [])) with 0; unfold Qsum; cbn [length seq map fold_right]; ring|]. cbn [length seq map]. rewrite seq_map_shift, Qsum_cons. cbn [nth]. rewrite IH.
  change (nsum (a :: r)) with (a + nsum r)%nat. rewrite Qn_plus. ring.
Qed.

Definition spread_prices (M : Q) (n : nat) (rs : list (list nat)) : list Q :=
  let L := nsum (map nsum rs) in
  map (fun c => match containing rs c with [] => - M | k :: _ => - M * (Qn L / Qn (nsum (nth k rs []))) end) (seq 0 n).

Lemma nsum_le_In : forall l x, In x l -> (x <= nsum l)%nat.
Proof.
  induction l as [|a l IH]; intros x H; [destruct H|]. change (nsum (a :: l)) with (a + nsum l)%nat.
  destruct H as [<-|H]; [lia|]. specialize (IH x H). lia.
Qed.

Lemma nsum_pos : forall r c, (0 < nth c r 0)%nat -> (0 < nsum r)%nat.
Proof.
  intros r c H. destruct (lt_dec c (length r)) as [L|L]; [|rewrite nth_overflow in H by lia; lia].
  assert (X := nsum_le_In r (nth c r 0%nat) (nth_In r 0%nat L)). lia.
Qed.

Lemma spread_feasible : forall M n rs, 0 < M -> rs <> [] -> Forall (binary_recipe n) rs ->
  Forall (fun r => exists c, (0 < nth c r 0)%nat) rs -> disjoint rs -> feasible_prices n rs (- M) (spread_prices M n rs).
Proof.
  intros M n rs HM HN B NZ D. set (L := nsum (map nsum rs)).
  assert (BIG : forall r, In r rs -> (0 < nsum r <= L)%nat).
  { intros r Hr. rewrite Forall_forall in NZ. destruct (NZ r Hr) as [c Hc]. split; [eapply nsum_pos; eassumption|].
    apply nsum_le_In. apply in_map. assumption. }
  assert (GE : forall r, In r rs -> - M * (Qn L / Qn (nsum r)) <= - M).
  { intros r Hr. destruct (BIG r Hr) as [B1 B2]. assert (X : 1 <= Qn L / Qn (nsum r)).
    { apply Qle_shift_div_l; [apply Qn_pos; assumption|]. rewrite Qmult_1_l. apply Qn_le. assumption. }
    nra. }
  assert (DOT : forall r, In r rs -> dot (spread_prices M n rs) r == - M * Qn L).
  { intros r Hr. rewrite Forall_forall in B. destruct (B r Hr) as [LR _]. destruct (BIG r Hr) as [B1 _].
    rewrite (dot_const (- M * (Qn L / Qn (nsum r)))).
    - field. assert (X := Qn_pos _ B1). lra.
    - unfold spread_prices. rewrite map_length, seq_length. congruence.
    - intros c Hc Hp. unfold spread_prices. rewrite nth_map_seq by lia. fold L.
      destruct (In_nth _ _ [] Hr) as [k [Hk Ek]].
      assert (I : In k (containing rs c)) by (apply containing_In; rewrite Ek; auto).
      assert (LE := disjoint_containing rs c D).
      destruct (containing rs c) as [|k' [|]]; [destruct I| |simpl in LE; lia]. destruct I as [->|[]]. rewrite Ek. reflexivity. }
  split; [split; [|split]|].
  - unfold spread_prices. rewrite map_length, seq_length. reflexivity.
  - apply Forall_forall. intros p Hp. unfold spread_prices in Hp. apply in_map_iff in Hp. destruct Hp as [c [<- _]]. fold L.
    destruct (containing rs c) as [|k l] eqn:E; [lra|]. apply GE. apply nth_In.
    assert (X : In k (containing rs c)) by (rewrite E; left; reflexivity). apply containing_In in X. apply X.
  - exists (- M * Qn L). exact DOT.
  - intros r Hr. rewrite (DOT r Hr). destruct (BIG r Hr) as [B1 B2]. assert (X : Qn 1 <= Qn L) by (apply Qn_le; lia).
    change (Qn 1) with 1 in X. nra.
Qed.

(** ** Walks *)

Inductive walks (M : Q) (m : market) (r : list nat) : list nat -> list nat -> Prop :=
| walks_refl : forall a, walks M m r a a
| walks_step : forall a b c, walks M m r a b -> walk_step M m r b c -> walks M m r a c.

Lemma walks_loop : forall M m r a b, walks M m r a b -> forall fuel x, abs_loop M fuel m r a = Ok x ->
  exists fuel', abs_loop M fuel' m r b = Ok x.
Proof.
  intros M m r a b H. induction H as [a|a b c H IH (main & C & P & N & ->)]; intros fuel x HX; [eauto|].
  destruct (IH _ _ HX) as [[|fuel'] E]; [discriminate|]. exists fuel'. cbn [abs_loop] in E. rewrite C in E. cbn [bind] in E.
  destruct (Nat.eqb_spec (nth main b 0%nat) 0) as [Z|Z]; [lia|]. destruct (Qle_bool_reflect 0 (psum M m r (dec main b))) as [Y|Y]; [lra|].
  exact E.
Qed.

Lemma walks_end : forall M m r a b stop fuel x, walks M m r a b -> stopped M m r b stop -> abs_loop M fuel m r a = Ok x -> x = (b, stop).
Proof.
  intros M m r a b stop fuel x W (main & C & S) H. destruct (walks_loop _ _ _ _ _ W _ _ H) as [[|fuel'] E]; [discriminate|].
  cbn [abs_loop] in E. rewrite C in E. cbn [bind] in E. destruct S as [[-> Z]|[-> [P Y]]].
  - rewrite Z in E. simpl in E. congruence.
  - destruct (Nat.eqb_spec (nth main b 0%nat) 0) as [Z|Z]; [lia|].
    destruct (Qle_bool_reflect 0 (psum M m r (dec main b))) as [Y'|Y']; [congruence|lra].
Qed.
