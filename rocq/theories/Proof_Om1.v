(** * One round of the old multi-recipe auction *)

From Coq Require Import String List Arith Lia QArith Lqa Permutation Sorted Bool.
From Verif Require Import Base Model_Agents Model_Trade Model_Prices Model_Market Model_RecipeTree Model_TreeAuction
  Model_Ascending Model_OldMulti Spec_Market Spec_RecipeTree Spec_TreeAuction Proof_Tree Proof_TA1 Proof_TA2 Proof_Ascending.
Import ListNotations.
Open Scope Q_scope.

Notation prices_of := Proof_TA2.prices_of.
Notation pr := Proof_TA2.pr.

(** ** The analysis of the recipes *)

Lemma containing_In : forall rs c k, In k (containing rs c) <-> (k < length rs)%nat /\ (0 < nth c (nth k rs []) 0)%nat.
Proof. intros rs c k. unfold containing. rewrite filter_In, in_seq, Nat.ltb_lt. intuition lia. Qed.

Lemma containing_nodup : forall rs c, NoDup (containing rs c).
Proof. intros. apply NoDup_filter, seq_NoDup. Qed.

Lemma only_in_iff : forall rs k c, only_in rs k c = true <->
  (k < length rs)%nat /\ (0 < nth c (nth k rs []) 0)%nat
  /\ forall j, (j < length rs)%nat -> (0 < nth c (nth j rs []) 0)%nat -> j = k.
Proof.
  intros rs k c. unfold only_in. split.
  - intros H. destruct (containing rs c) as [|a [|b l]] eqn:E; try discriminate. apply Nat.eqb_eq in H. subst a.
    assert (X : In k (containing rs c)) by (rewrite E; left; reflexivity). apply containing_In in X.
    split; [apply X|]. split; [apply X|]. intros j Hj Hc.
    assert (Y : In j (containing rs c)) by (apply containing_In; auto). rewrite E in Y. destruct Y as [->|[]]. reflexivity.
  - intros (Hk & Hc & H). assert (X : In k (containing rs c)) by (apply containing_In; auto).
    assert (N := containing_nodup rs c). assert (A : forall j, In j (containing rs c) -> j = k).
    { intros j Hj. apply containing_In in Hj. apply H; apply Hj. }
    destruct (containing rs c) as [|a [|b l]]; [destruct X| |].
    + apply Nat.eqb_eq. apply A. left. reflexivity.
    + exfalso. inversion N as [|? ? N1 N2]; subst. apply N1. left. rewrite (A a), (A b); simpl; auto.
Qed.

Lemma full_containing : forall rs c, length (containing rs c) = length rs ->
  forall k, (k < length rs)%nat -> (0 < nth c (nth k rs []) 0)%nat.
Proof.
  intros rs c H k Hk.
  assert (I : incl (seq 0 (length rs)) (containing rs c)).
  { apply NoDup_length_incl; [apply containing_nodup|rewrite seq_length; lia|].
    intros j Hj. apply containing_In in Hj. apply in_seq. lia. }
  apply (containing_In rs c k). apply I. apply in_seq. lia.
Qed.

Lemma in_all_iff : forall rs c, in_all rs c = true <->
  (2 <= length rs)%nat /\ forall k, (k < length rs)%nat -> (0 < nth c (nth k rs []) 0)%nat.
Proof.
  intros rs c. unfold in_all. rewrite !andb_true_iff, !negb_true_iff, !Nat.eqb_neq, Nat.eqb_eq. split.
  - intros [[H0 H1] H2]. split; [lia|]. apply full_containing. assumption.
  - intros [H2 H].
    assert (E : containing rs c = seq 0 (length rs)).
    { unfold containing. rewrite <- (filter_ext_in (fun _ => true)).
      - assert (F : forall l : list nat, filter (fun _ => true) l = l) by (induction l; simpl; congruence). apply F.
      - intros k Hk. apply in_seq in Hk. symmetry. apply Nat.ltb_lt. apply H. lia. }
    rewrite E, seq_length. lia.
Qed.

(** The set-up: checked recipes, analysed. *)
Record msetup (n : nat) (rs : list (list nat)) (common : list nat) (uniques : list (list nat)) : Prop := mkMS {
  ms_nonempty : rs <> [];
  ms_binary : Forall (binary_recipe n) rs;
  ms_common : forall c, In c common <-> (c < n)%nat /\ (2 <= length rs)%nat
     /\ forall k, (k < length rs)%nat -> (0 < nth c (nth k rs []) 0)%nat;
  ms_len : length uniques = length rs;
  ms_unique : forall k c, In c (nth k uniques []) <-> (c < n)%nat /\ (k < length rs)%nat /\ (0 < nth c (nth k rs []) 0)%nat
     /\ forall j, (j < length rs)%nat -> (0 < nth c (nth j rs []) 0)%nat -> j = k;
  ms_kind : forall c k, (c < n)%nat -> (k < length rs)%nat -> (0 < nth c (nth k rs []) 0)%nat ->
     In c common \/ In c (nth k uniques [])
}.

Lemma checked_binary : forall n rs, recipes_checked n rs = true <-> rs <> [] /\ Forall (binary_recipe n) rs.
Proof.
  intros n rs. unfold recipes_checked. rewrite andb_true_iff, negb_true_iff, Nat.eqb_neq, forallb_forall, Forall_forall. split.
  - intros [H1 H2]. split; [intros ->; apply H1; reflexivity|]. intros r Hr. specialize (H2 r Hr).
    apply andb_true_iff in H2. destruct H2 as [H2 H3]. apply Nat.eqb_eq in H2. split; [assumption|].
    rewrite forallb_forall in H3. apply Forall_forall. intros x Hx. specialize (H3 x Hx). apply orb_true_iff in H3.
    rewrite !Nat.eqb_eq in H3. assumption.
  - intros [H1 H2]. split; [destruct rs; simpl; [congruence|lia]|]. intros r Hr. destruct (H2 r Hr) as [H3 H4].
    apply andb_true_iff. split; [apply Nat.eqb_eq; assumption|]. apply forallb_forall. intros x Hx.
    rewrite Forall_forall in H4. apply orb_true_iff. rewrite !Nat.eqb_eq. apply H4. assumption.
Qed.

Lemma nth_map_seq0 : forall A (f : nat -> list A) n k, nth k (map f (seq 0 n)) [] = if (k <? n)%nat then f k else [].
Proof.
  intros A f n k. destruct (Nat.ltb_spec k n) as [H|H].
  - rewrite (nth_indep _ [] (f 0%nat)) by (rewrite map_length, seq_length; assumption).
    rewrite map_nth, seq_nth by assumption. reflexivity.
  - apply nth_overflow. rewrite map_length, seq_length. assumption.
Qed.

Lemma analyze_setup : forall n rs a, recipes_checked n rs = true -> analyze_recipes n rs = Ok a ->
  msetup n rs (fst a) (snd a).
Proof.
  intros n rs a HC H. apply checked_binary in HC. destruct HC as [HN HB]. unfold analyze_recipes in H.
  destruct (forallb _ _) eqn:F; [|discriminate]. injection H; intros <-. clear H. cbn [fst snd].
  assert (U : forall k c, In c (nth k (map (fun r => filter (only_in rs r) (seq 0 n)) (seq 0 (length rs))) []) <->
     (c < n)%nat /\ (k < length rs)%nat /\ (0 < nth c (nth k rs []) 0)%nat
     /\ forall j, (j < length rs)%nat -> (0 < nth c (nth j rs []) 0)%nat -> j = k).
  { intros k c. rewrite nth_map_seq0. destruct (Nat.ltb_spec k (length rs)) as [Hk|Hk].
    - rewrite filter_In, in_seq, only_in_iff. intuition lia.
    - simpl. intuition lia. }
  split; auto.
  - intros c. rewrite filter_In, in_seq, in_all_iff. intuition lia.
  - rewrite map_length, seq_length. reflexivity.
  - intros c k Hc Hk Hp. rewrite forallb_forall in F. specialize (F c). rewrite in_seq in F. specialize (F ltac:(lia)).
    apply orb_true_iff in F. destruct F as [F|F].
    + right. apply U. split; [assumption|]. split; [assumption|]. split; [assumption|]. intros j Hj Hjp.
      apply Nat.leb_le in F. assert (A : In k (containing rs c)) by (apply containing_In; auto).
      assert (B : In j (containing rs c)) by (apply containing_In; auto).
      destruct (containing rs c) as [|x [|y l]]; [destruct A| |simpl in F; lia].
      destruct A as [<-|[]]. destruct B as [<-|[]]. reflexivity.
    + left. apply filter_In. rewrite in_seq. split; [lia|assumption].
Qed.

Lemma analyze_raise : forall n rs, (exists a, analyze_recipes n rs = Ok a) \/ analyze_recipes n rs = Raise ValueError.
Proof. intros. unfold analyze_recipes. destruct (forallb _ _); eauto. Qed.

Lemma single_no_common : forall n rs common uniques, msetup n rs common uniques -> (length rs < 2)%nat -> common = [].
Proof.
  intros n rs common uniques MS H. destruct common as [|c l]; [reflexivity|]. exfalso.
  assert (X := proj1 (ms_common _ _ _ _ MS c) (or_introl eq_refl)). lia.
Qed.

Lemma binary_pos_one : forall n r c, binary_recipe n r -> (0 < nth c r 0)%nat -> nth c r 0%nat = 1%nat.
Proof.
  intros n r c [_ H] P. rewrite Forall_forall in H. destruct (lt_dec c (length r)) as [L|L].
  - destruct (H (nth c r 0%nat) (nth_In r 0%nat L)); lia.
  - rewrite nth_overflow in P by lia. lia.
Qed.

(** ** Chosen categories *)

(** One category of each recipe's unique ones. *)
Definition mains_of (iter : list nat -> list nat) (cats : list category) (uniques : list (list nat)) (mains : list nat) : Prop :=
  Forall2 (fun u i => argmax (size_key cats) (iter u) = Ok i) uniques mains.

Lemma map_result_Forall2 : forall A B (f : A -> result B) l l', map_result f l = Ok l' -> Forall2 (fun a b => f a = Ok b) l l'.
Proof.
  induction l as [|a l IH]; simpl; intros l' H; [injection H; intros <-; constructor|].
  apply bind_Ok in H. destruct H as [b [Hb H]]. apply bind_Ok in H. destruct H as [bs [Hbs H]]. injection H; intros <-.
  constructor; auto.
Qed.

Lemma Forall2_nth : forall A B (R : A -> B -> Prop) l l' k a b, Forall2 R l l' -> (k < length l)%nat -> R (nth k l a) (nth k l' b).
Proof.
  intros A B R l l' k a b H. revert k. induction H; simpl; intros k Hk; [lia|]. destruct k; [assumption|]. apply IHForall2. lia.
Qed.

Lemma one_index : forall (f : nat -> bool) l k, (k < length l)%nat -> f (nth k l 0%nat) = true ->
  (forall j, (j < length l)%nat -> f (nth j l 0%nat) = true -> j = k) -> length (filter f l) = 1%nat.
Proof.
  intros f. induction l as [|a l IH]; intros k Hk Ht Hf; simpl in Hk; [lia|]. destruct k as [|k].
  - simpl in Ht. simpl. rewrite Ht. simpl. f_equal. assert (Z : filter f l = []); [|rewrite Z; reflexivity].
    destruct (filter f l) as [|b l'] eqn:E; [reflexivity|]. exfalso.
    assert (X : In b (filter f l)) by (rewrite E; left; reflexivity). apply filter_In in X. destruct X as [X1 X2].
    destruct (In_nth _ _ 0%nat X1) as [j [Hj Ej]]. specialize (Hf (S j)). simpl in Hf. rewrite Ej in Hf.
    specialize (Hf ltac:(lia) X2). discriminate.
  - assert (F : f a = false).
    { destruct (f a) eqn:E; [|reflexivity]. specialize (Hf 0%nat ltac:(simpl; lia)). simpl in Hf. specialize (Hf E). discriminate. }
    simpl. rewrite F. apply (IH k); [lia|assumption|]. intros j Hj Hjt. specialize (Hf (S j) ltac:(simpl; lia) Hjt). lia.
Qed.

Lemma size_key_at : forall cats i, size_key cats i = Qn (csize (cat_at cats i)).
Proof. intros. unfold size_key, cat_at. rewrite <- (map_nth csize). reflexivity. Qed.

Section Mains.
  Variables (n : nat) (rs : list (list nat)) (common : list nat) (uniques : list (list nat)) (iter : list nat -> list nat)
    (cats : list category) (mains : list nat).
  Hypothesis MS : msetup n rs common uniques.
  Hypothesis IT : forall l, Permutation (iter l) l.
  Hypothesis MO : mains_of iter cats uniques mains.

  Lemma mains_length : length mains = length rs.
  Proof. rewrite <- (ms_len _ _ _ _ MS). symmetry. eapply Forall2_length. exact MO. Qed.

  Lemma main_unique : forall k, (k < length rs)%nat -> In (nth k mains 0%nat) (nth k uniques []).
  Proof.
    intros k Hk. assert (X := Forall2_nth _ _ _ _ _ k [] 0%nat MO). rewrite (ms_len _ _ _ _ MS) in X. specialize (X Hk).
    apply argmax_spec in X. destruct X as [X _]. eapply Permutation_in; [apply IT|exact X].
  Qed.

  Lemma main_largest : forall k c, (k < length rs)%nat -> In c (nth k uniques []) ->
    (csize (cat_at cats c) <= csize (cat_at cats (nth k mains 0%nat)))%nat.
  Proof.
    intros k c Hk Hc. assert (X := Forall2_nth _ _ _ _ _ k [] 0%nat MO). rewrite (ms_len _ _ _ _ MS) in X. specialize (X Hk).
    apply argmax_spec in X. destruct X as [_ X]. specialize (X c).
    assert (Y : In c (iter (nth k uniques []))) by (eapply Permutation_in; [apply Permutation_sym, IT|exact Hc]).
    specialize (X Y). rewrite !size_key_at in X. apply Qn_le in X. exact X.
  Qed.

  Lemma main_range : forall i, In i mains -> (i < n)%nat.
  Proof.
    intros i Hi. destruct (In_nth _ _ 0%nat Hi) as [k [Hk <-]]. rewrite mains_length in Hk.
    apply (ms_unique _ _ _ _ MS k). apply main_unique. assumption.
  Qed.

  Lemma mains_one : forall r, In r rs -> categories_in r mains = 1%nat.
  Proof.
    intros r Hr. destruct (In_nth _ _ [] Hr) as [k [Hk E]]. unfold categories_in.
    assert (B := ms_binary _ _ _ _ MS). rewrite Forall_forall in B.
    apply (one_index _ _ k).
    - rewrite mains_length. assumption.
    - assert (U := main_unique k Hk). apply (ms_unique _ _ _ _ MS) in U. destruct U as (_ & _ & U & _). rewrite E in U.
      apply Nat.eqb_eq. eapply binary_pos_one; [apply B; exact Hr|exact U].
    - intros j Hj Hjt. rewrite mains_length in Hj. apply Nat.eqb_eq in Hjt.
      assert (U := main_unique j Hj). apply (ms_unique _ _ _ _ MS) in U. destruct U as (_ & _ & _ & U).
      symmetry. apply U; [assumption|]. rewrite E. lia.
  Qed.

  Lemma mains_nodup : NoDup mains.
  Proof.
    apply (one_nodup rs); [apply mains_one|]. intros i Hi. destruct (In_nth _ _ 0%nat Hi) as [k [Hk <-]]. rewrite mains_length in Hk.
    exists (nth k rs []). split; [apply nth_In; assumption|].
    assert (U := main_unique k Hk). apply (ms_unique _ _ _ _ MS) in U. destruct U as (_ & _ & U & _).
    assert (B := ms_binary _ _ _ _ MS). rewrite Forall_forall in B. eapply binary_pos_one; [apply B; apply nth_In; exact Hk|exact U].
  Qed.
End Mains.

(** ** The loop over the recipes *)

Definition low (c : category) : Q := last (cvalues c) 0.

Lemma plan_unique_ok : forall cats mains k, (forall i, In i mains -> (i < length cats)%nat) ->
  ((forall i, In i mains -> (0 < csize (cat_at cats i))%nat)
   /\ plan_unique cats k mains = Ok (inl (map (fun i => (i, low (cat_at cats i))) mains)))
  \/ (exists j, (j < length mains)%nat /\ csize (cat_at cats (nth j mains 0%nat)) = 0%nat
      /\ plan_unique cats k mains = Ok (inr (k + j)%nat)).
Proof.
  intros cats. induction mains as [|i mains IH]; intros k H.
  - left. split; [intros i []|reflexivity].
  - cbn [plan_unique]. rewrite (get_lt _ _ _ (mkCat "" [])) by (apply H; left; reflexivity). cbn [bind]. fold (cat_at cats i).
    destruct (Nat.eqb_spec (csize (cat_at cats i)) 0) as [Z|Z].
    + right. exists 0%nat. split; [simpl; lia|]. split; [exact Z|]. rewrite Nat.add_0_r. reflexivity.
    + assert (L : lowest_agent_value (cat_at cats i) = Ok (low (cat_at cats i))).
      { unfold lowest_agent_value, low. unfold csize in Z. destruct (cvalues (cat_at cats i)); [simpl in Z; lia|reflexivity]. }
      rewrite L. cbn [bind]. destruct (IH (S k)) as [[P E]|[j [Hj [Ej E]]]]; [intros; apply H; right; assumption| |].
      * left. split; [intros x [<-|Hx]; [lia|auto]|]. rewrite E. reflexivity.
      * right. exists (S j). split; [simpl; lia|]. split; [exact Ej|]. rewrite E. cbn [bind]. do 2 f_equal. lia.
Qed.

(** ** A step of the prices *)

Record mstep (n : nat) (rs : list (list nat)) (s s' : tree_state) (mains : list nat) (S d : Q) : Prop := mkStep {
  st_bound : d <= - S;
  st_target : forall i, In i mains -> d <= low (cat_at (cats_of s) i) - pr s i;
  st_min : d == - S \/ exists i, In i mains /\ d == low (cat_at (cats_of s) i) - pr s i;
  st_chosen : forall i, In i mains -> pr s' i = pr s i + d;
  st_other : forall i, ~ In i mains -> pr s' i = pr s i;
  st_good : good n rs s' (S + d)
}.

Inductive round_kind (n : nat) (rs : list (list nat)) (common : list nat) (uniques : list (list nat)) (iter : list nat -> list nat)
    (s : tree_state) (S : Q) : result multi_step -> Prop :=
| rk_no_unique : forall u, In u uniques -> u = [] -> round_kind n rs common uniques iter s S (Raise ValueError)
| rk_common : forall mains i, mains_of iter (cats_of s) uniques mains -> In i common ->
    (0 < nsum (map (fun i => csize (cat_at (cats_of s) i)) mains) <= csize (cat_at (cats_of s) i))%nat ->
    round_kind n rs common uniques iter s S (Raise ValueError)
| rk_empty : forall mains, mains_of iter (cats_of s) uniques mains ->
    (forall i, In i mains -> csize (cat_at (cats_of s) i) = 0%nat) -> round_kind n rs common uniques iter s S (Ok (Finish s))
| rk_drop : forall mains k, mains_of iter (cats_of s) uniques mains -> (k < length rs)%nat -> (2 <= length rs)%nat ->
    csize (cat_at (cats_of s) (nth k mains 0%nat)) = 0%nat ->
    (forall i, In i common -> (csize (cat_at (cats_of s) i) < nsum (map (fun i => csize (cat_at (cats_of s) i)) mains))%nat) ->
    round_kind n rs common uniques iter s S (Ok (Drop k))
| rk_finish : forall mains s' d, mains_of iter (cats_of s) uniques mains ->
    (forall i, In i mains -> (0 < csize (cat_at (cats_of s) i))%nat) -> mstep n rs s s' mains S d ->
    d == - S -> cats_of s' = cats_of s ->
    (forall i, In i common -> (csize (cat_at (cats_of s) i) < nsum (map (fun i => csize (cat_at (cats_of s) i)) mains))%nat) ->
    round_kind n rs common uniques iter s S (Ok (Finish s'))
| rk_continue : forall mains s' d, mains_of iter (cats_of s) uniques mains ->
    (forall i, In i mains -> (0 < csize (cat_at (cats_of s) i))%nat) -> mstep n rs s s' mains S d ->
    d < - S -> (forall i, cat_at (cats_of s') i = beat (cat_at (cats_of s) i) (pr s' i)) ->
    (forall i, In i common -> (csize (cat_at (cats_of s) i) < nsum (map (fun i => csize (cat_at (cats_of s) i)) mains))%nat) ->
    round_kind n rs common uniques iter s S (Ok (Continue s')).

Lemma argmax_total : forall key l, (l = [] /\ argmax key l = Raise ValueError) \/ exists i, argmax key l = Ok i.
Proof. intros key [|a l]; simpl; eauto. Qed.

Lemma mains_total : forall (iter : list nat -> list nat) cats uniques, (forall l, Permutation (iter l) l) ->
  (exists u, In u uniques /\ u = [] /\ map_result (fun u => argmax (size_key cats) (iter u)) uniques = Raise ValueError)
  \/ exists mains, map_result (fun u => argmax (size_key cats) (iter u)) uniques = Ok mains.
Proof.
  intros iter cats uniques IT. induction uniques as [|u uniques IH]; [right; exists []; reflexivity|]. cbn [map_result].
  destruct (argmax_total (size_key cats) (iter u)) as [[E1 E2]|[i E]].
  - left. exists u. split; [left; reflexivity|]. split.
    + assert (P := IT u). rewrite E1 in P. apply Permutation_nil in P. assumption.
    + rewrite E2. reflexivity.
  - rewrite E. cbn [bind]. destruct IH as [[u' [A [B C]]]|[mains C]]; rewrite C; cbn [bind].
    + left. exists u'. split; [right; assumption|]. auto.
    + right. eauto.
Qed.

Lemma nsum_zero : forall l, nsum l = 0%nat -> forall x, In x l -> x = 0%nat.
Proof. induction l as [|a l IH]; simpl; intros H x Hx; [destruct Hx|]. destruct Hx as [<-|Hx]; [lia|]. apply IH; [lia|assumption]. Qed.

Theorem multi_round_cases : forall n rs common uniques iter s S, msetup n rs common uniques ->
  (forall l, Permutation (iter l) l) -> good n rs s S ->
  round_kind n rs common uniques iter s S (multi_round iter common uniques s).
Proof.
  intros n rs common uniques iter [cats sp] S MS IT G.
  assert (GC := g_cats _ _ _ _ G). assert (GP := g_prices _ _ _ _ G). assert (GR := g_recipes _ _ _ _ G).
  assert (GS := g_sums _ _ _ _ G). assert (GR1 := g_recipe _ _ _ _ G). unfold cats_of, Proof_TA2.prices_of in *. cbn [fst snd] in *.
  assert (SN := ms_nonempty _ _ _ _ MS). assert (SB := ms_binary _ _ _ _ MS).
  assert (PS : price_sum (sp_vector sp) == S) by (apply GS; exact GR1).
  unfold multi_round.
  (* the largest common category *)
  assert (LC : exists lc, match common with
                    | [] => Ok None
                    | _ => i <- argmax (size_key cats) (iter common) ;; c <- get cats i ;; Ok (Some (i, c))
                    end = Ok lc
     /\ match lc with
        | None => common = []
        | Some (i, c) => In i common /\ c = cat_at cats i /\ (i < n)%nat
            /\ forall j, In j common -> (csize (cat_at cats j) <= csize c)%nat
        end).
  { destruct common as [|c0 common']; [exists None; auto|]. remember (c0 :: common') as common eqn:EC.
    destruct (argmax_total (size_key cats) (iter common)) as [[E _]|[i E]].
    - exfalso. assert (P := IT common). rewrite E in P. apply Permutation_nil in P. congruence.
    - assert (Hi := argmax_spec _ _ _ E). destruct Hi as [Hi Hmax].
      assert (Hi' : In i common) by (eapply Permutation_in; [apply IT|exact Hi]).
      assert (Hin : (i < n)%nat) by (apply (ms_common _ _ _ _ MS); exact Hi').
      exists (Some (i, cat_at cats i)). rewrite E. cbn [bind]. rewrite (get_lt _ _ _ (mkCat "" [])) by lia. cbn [bind].
      split; [reflexivity|]. split; [assumption|]. split; [reflexivity|]. split; [assumption|].
      intros j Hj. specialize (Hmax j). assert (Y : In j (iter common)) by (eapply Permutation_in; [apply Permutation_sym, IT|exact Hj]).
      specialize (Hmax Y). rewrite !size_key_at in Hmax. apply Qn_le in Hmax. exact Hmax. }
  destruct LC as [lc [-> HLC]]. cbn [bind].
  destruct (mains_total iter cats uniques IT) as [[u [Hu [Eu E]]]|[mains E]]; rewrite E; cbn [bind].
  { eapply rk_no_unique; eassumption. }
  assert (MO : mains_of iter cats uniques mains) by (apply map_result_Forall2; exact E).
  assert (ML := mains_length _ _ _ _ _ _ _ MS MO). assert (MR := main_range _ _ _ _ _ _ _ MS IT MO).
  destruct mains as [|i0 mains'].
  { exfalso. apply SN. destruct rs; [reflexivity|simpl in ML; lia]. }
  remember (i0 :: mains') as mains eqn:EM. clear EM.
  assert (SZ : map_result (fun i => c <- get cats i ;; Ok (csize c)) mains = Ok (map (fun i => csize (cat_at cats i)) mains)).
  { apply map_result_ok_all. intros i Hi. rewrite (get_lt _ _ _ (mkCat "" [])) by (rewrite GC; auto). reflexivity. }
  rewrite SZ. cbn [bind].
  destruct (Nat.eqb_spec (nsum (map (fun i => csize (cat_at cats i)) mains)) 0) as [Z|Z].
  { eapply rk_empty; [exact MO|]. intros i Hi. eapply nsum_zero; [exact Z|]. apply (in_map (fun i => csize (cat_at cats i))). exact Hi. }
  destruct (Nat.leb_spec (nsum (map (fun i => csize (cat_at cats i)) mains)) (match lc with None => 0%nat | Some (_, c) => csize c end)) as [L|L].
  { (* the price of a common category cannot be increased *)
    destruct lc as [[i c]|]; [|lia]. destruct HLC as (Hi & -> & Hin & _).
    assert (Hlow : lowest_agent_value (cat_at cats i) = Ok (low (cat_at cats i))).
    { unfold lowest_agent_value, low. destruct (cvalues (cat_at cats i)) eqn:Ev; [|reflexivity].
      unfold csize in L at 2. rewrite Ev in L. simpl in L. lia. }
    rewrite Hlow. cbn [bind].
    assert (KK : increase_prices sp (repeat (i, low (cat_at cats i)) (length (sp_recipes sp))) 0 = Raise ValueError).
    { destruct (increase_ok sp (repeat (i, low (cat_at cats i)) (length (sp_recipes sp))) 0) as [_ K].
      - intros j x Hj. apply repeat_spec in Hj. injection Hj; intros _ ->. rewrite GP. assumption.
      - rewrite GR. assumption.
      - intros r Hr. rewrite GR in Hr. rewrite Forall_forall in SB. rewrite GP. apply (SB r Hr).
      - apply K. clear K. apply (ms_common _ _ _ _ MS) in Hi. destruct Hi as (_ & H2 & Hall).
        exists (nth 0 rs []). rewrite GR. split; [apply nth_In; lia|].
        assert (One : nth i (nth 0 rs []) 0%nat = 1%nat).
        { rewrite Forall_forall in SB. eapply binary_pos_one; [apply SB; apply (nth_In rs []); lia|apply Hall; lia]. }
        assert (Rep : forall k, map fst (repeat (i, low (cat_at cats i)) k) = repeat i k) by (induction k; simpl; congruence).
        rewrite Rep. assert (Cnt : forall k, categories_in (nth 0 rs []) (repeat i k) = k).
        { induction k as [|k IH]; [reflexivity|]. unfold categories_in in *. cbn [repeat filter]. rewrite One. simpl. rewrite IH. reflexivity. }
        rewrite Cnt. lia. }
    rewrite KK. cbn [bind]. apply (rk_common n rs common uniques iter (cats, sp) S mains i); [exact MO|assumption|]. cbn [cats_of fst]. lia. }
  assert (LT : forall i, In i common -> (csize (cat_at (cats_of (cats, sp)) i) < nsum (map (fun i => csize (cat_at (cats_of (cats, sp)) i)) mains))%nat).
  { intros i Hi. destruct lc as [[i1 c1]|].
    - destruct HLC as (_ & _ & _ & HLC). specialize (HLC i Hi). unfold cats_of. cbn [fst]. lia.
    - subst common. destruct Hi. }
  destruct (plan_unique_ok cats mains 0) as [[P EP]|[j [Hj [Ej EP]]]]; [intros i Hi; rewrite GC; auto| |]; rewrite EP; cbn [bind].
  2: { rewrite Nat.add_0_l. apply (rk_drop n rs common uniques iter (cats, sp) S mains j).
    - exact MO.
    - lia.
    - destruct rs as [|r [|r' rs']]; [congruence| |simpl; lia]. exfalso. simpl in ML.
      destruct mains as [|i1 [|]]; simpl in ML; try lia. simpl in Hj. assert (j = 0%nat) by lia. subst j. simpl in Ej, Z. lia.
    - exact Ej.
    - exact LT. }
  set (incs := map (fun i => (i, low (cat_at cats i))) mains) in *.
  assert (EI : map fst incs = mains) by (unfold incs; rewrite map_map; simpl; apply map_id).
  assert (RG : forall i x, In (i, x) incs -> (i < length (map_category_index_to_price sp))%nat).
  { intros i x Hin. unfold incs in Hin. apply in_map_iff in Hin. destruct Hin as [j [Ej' Hj']].
    injection Ej'; intros _ <-. rewrite GP. auto. }
  destruct (increase_ok sp incs 0) as [K _].
  { exact RG. }
  { rewrite GR. assumption. }
  { intros r Hr. rewrite GR in Hr. rewrite Forall_forall in SB. rewrite GP. apply (SB r Hr). }
  destruct (proj1 K) as [sp' Hsp'].
  { intros r Hr. rewrite GR in Hr. rewrite EI. eapply mains_one; eassumption. }
  rewrite Hsp'. cbn [bind]. clear K.
  destruct (increase_inv _ _ _ _ Hsp') as [d ID].
  assert (ND := mains_nodup _ _ _ _ _ _ _ MS IT MO).
  destruct (increased_sums _ _ _ _ _ n S ID) as [S' L'];
    [rewrite GR; assumption|assumption|rewrite GR; assumption|rewrite GR; assumption|].
  destruct (raise_prices_ok d incs (map_category_index_to_price sp) RG) as (p' & E1 & _ & _ & N1 & N2).
  rewrite (inc_raise _ _ _ _ _ ID) in E1. injection E1; intros <-. clear E1. rewrite EI in N1, N2. specialize (N2 ND).
  assert (MV : forall cats', length cats' = n -> mstep n rs (cats, sp) (cats', sp') mains S d).
  { intros cats' HL'. split; unfold Proof_TA2.pr, cats_of, Proof_TA2.prices_of; cbn [fst snd].
    - assert (X := inc_bound _ _ _ _ _ ID). lra.
    - intros i Hc. apply (inc_target _ _ _ _ _ ID). unfold incs. apply in_map_iff. exists i. split; [reflexivity|exact Hc].
    - destruct (inc_min _ _ _ _ _ ID) as [X|[i [x [Hx X]]]]; [left; lra|]. right.
      unfold incs in Hx. apply in_map_iff in Hx. destruct Hx as [j [Ej Hj]]. injection Ej; intros <- <-.
      exists j. split; [exact Hj|exact X].
    - exact N2.
    - exact N1.
    - split; unfold cats_of, Proof_TA2.prices_of; cbn [fst snd].
      + exact HL'.
      + exact L'.
      + rewrite (inc_recipes _ _ _ _ _ ID). exact GR.
      + rewrite (inc_recipe _ _ _ _ _ ID). exact GR1.
      + rewrite GR in S'. exact S'. }
  assert (ST := inc_stop _ _ _ _ _ ID).
  destruct (inc_status _ _ _ _ _ ID) as [T|T]; rewrite T.
  - apply (rk_finish n rs common uniques iter (cats, sp) S mains (cats, sp') d); [exact MO|exact P|apply MV; exact GC| |reflexivity|exact LT].
    apply ST in T. lra.
  - destruct (remove_beaten_ok cats (map_category_index_to_price sp')) as (cats' & E2 & L2 & N); [congruence|].
    rewrite E2. cbn [bind].
    apply (rk_continue n rs common uniques iter (cats, sp) S mains (cats', sp') d); [exact MO|exact P|apply MV; congruence| |exact N|exact LT].
    assert (X := inc_bound _ _ _ _ _ ID). assert (Y : ~ d == 0 - price_sum (sp_vector sp)).
    { intros Y. apply ST in Y. rewrite T in Y. discriminate. } lra.
Qed.
