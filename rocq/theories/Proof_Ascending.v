(** * The ascending auction as a walk on vectors of sizes *)

From Coq Require Import String List Arith Lia QArith Lqa Permutation Sorted Bool.
From Verif Require Import Base Model_Agents Model_Trade Model_Prices Model_Market Model_Ascending
  Spec_Market Spec_Trade Proof_Market Proof_Trade Proof_Prices.
Import ListNotations.
Open Scope Q_scope.

(** ** Sums over indices *)

Definition wdot (f : nat -> Q) (recipe : list nat) : Q :=
  Qsum (map (fun j => f j * Qn (nth j recipe 0%nat)) (seq 0 (length recipe))).

Lemma seq_map_shift : forall A (f : nat -> A) n, map f (seq 1 n) = map (fun j => f (S j)) (seq 0 n).
Proof. intros. rewrite <- seq_shift, map_map. reflexivity. Qed.

Lemma dot_wdot : forall recipe ps, length ps = length recipe ->
  dot ps recipe == wdot (fun j => nth j ps 0) recipe.
Proof.
  induction recipe as [|r recipe IH]; intros [|p ps] H; simpl in H; try discriminate; [reflexivity|].
  unfold wdot. cbn [dot length seq map]. rewrite seq_map_shift, Qsum_cons. cbn [nth].
  rewrite IH by lia. reflexivity.
Qed.

Lemma wdot_ext : forall f g recipe,
  (forall j, (j < length recipe)%nat -> (0 < nth j recipe 0)%nat -> f j == g j) -> wdot f recipe == wdot g recipe.
Proof.
  intros f g recipe H. unfold wdot. apply Qsum_map_ext. intros j Hj. apply in_seq in Hj.
  destruct (nth j recipe 0%nat) as [|r] eqn:E; [rewrite Qn_0; ring|].
  rewrite (H j); [reflexivity|lia|lia].
Qed.

Lemma wdot_le : forall f g recipe,
  (forall j, (j < length recipe)%nat -> (0 < nth j recipe 0)%nat -> f j <= g j) -> wdot f recipe <= wdot g recipe.
Proof.
  intros f g recipe H. unfold wdot. apply Qsum_map_le. intros j Hj. apply in_seq in Hj.
  destruct (nth j recipe 0%nat) as [|r] eqn:E; [rewrite Qn_0; lra|].
  apply Qmult_le_compat_r; [apply H; lia|apply Qn_nonneg].
Qed.

Lemma Qsum_update : forall (f g : nat -> Q) l i, NoDup l -> In i l -> (forall j, j <> i -> g j == f j) ->
  Qsum (map g l) == Qsum (map f l) + (g i - f i).
Proof.
  induction l as [|x l IH]; intros i Hn Hin Ho; [destruct Hin|].
  inversion Hn; subst. cbn [map]. rewrite !Qsum_cons.
  destruct (Nat.eq_dec x i) as [->|Hne].
  - rewrite (Qsum_map_ext _ g f l); [ring|]. intros j Hj. apply Ho. intros ->. contradiction.
  - destruct Hin as [->|Hin]; [contradiction|]. rewrite (IH i) by assumption. rewrite (Ho x Hne). ring.
Qed.

Lemma wdot_update : forall f g recipe i, (i < length recipe)%nat -> (forall j, j <> i -> g j == f j) ->
  wdot g recipe == wdot f recipe + Qn (nth i recipe 0%nat) * (g i - f i).
Proof.
  intros f g recipe i Hi Ho. unfold wdot.
  rewrite (Qsum_update (fun j => f j * Qn (nth j recipe 0%nat)) (fun j => g j * Qn (nth j recipe 0%nat)) _ i).
  - ring.
  - apply seq_NoDup.
  - apply in_seq. lia.
  - intros j Hj. rewrite (Ho j Hj). reflexivity.
Qed.

(** ** argmax *)

Lemma argmax_from_spec : forall key l b,
  (argmax_from key b l = b \/ In (argmax_from key b l) l)
  /\ key b <= key (argmax_from key b l)
  /\ forall y, In y l -> key y <= key (argmax_from key b l).
Proof.
  induction l as [|x l IH]; intros b; simpl; [repeat split; auto; [lra|tauto]|].
  destruct (Qlt_bool_reflect (key b) (key x)) as [H|H].
  - destruct (IH x) as [I1 [I2 I3]]. split; [destruct I1 as [->|I1]; auto|].
    split; [lra|]. intros y [<-|Hy]; auto.
  - destruct (IH b) as [I1 [I2 I3]]. split; [destruct I1 as [->|I1]; auto|].
    split; [assumption|]. intros y [<-|Hy]; auto. lra.
Qed.

Lemma argmax_spec : forall key l x, argmax key l = Ok x ->
  In x l /\ forall y, In y l -> key y <= key x.
Proof.
  intros key [|a l] x H; simpl in H; [discriminate|]. inversion H; subst.
  destruct (argmax_from_spec key l a) as [H1 [H2 H3]]. split.
  - destruct H1 as [->|H1]; [left; reflexivity|right; assumption].
  - intros y [<-|Hy]; auto.
Qed.

Lemma argmax_from_ext : forall key key' l b,
  (forall y, In y (b :: l) -> key y == key' y) -> argmax_from key b l = argmax_from key' b l.
Proof.
  induction l as [|x l IH]; intros b H; simpl; [reflexivity|].
  assert (E : Qlt_bool (key b) (key x) = Qlt_bool (key' b) (key' x)).
  { apply eq_true_iff_eq. rewrite !Qlt_bool_iff.
    rewrite (H b), (H x); [tauto|right; left; reflexivity|left; reflexivity]. }
  rewrite E. destruct (Qlt_bool (key' b) (key' x)); apply IH; intros y [<-|Hy]; apply H; simpl; auto.
Qed.

Lemma argmax_ext : forall key key' l, (forall y, In y l -> key y == key' y) -> argmax key l = argmax key' l.
Proof. intros key key' [|a l] H; simpl; [reflexivity|]. f_equal. apply argmax_from_ext. assumption. Qed.

Lemma relevant_In : forall recipe i, In i (relevant_indices recipe) <->
  (i < length recipe)%nat /\ (0 < nth i recipe 0)%nat.
Proof.
  intros. unfold relevant_indices. rewrite filter_In, in_seq, Nat.ltb_lt. intuition lia.
Qed.

(** ** The state as a vector of sizes *)

Definition dcat : category := mkCat "" [].

(** The values of category [j]. *)
Definition vals (m : market) (j : nat) : list Q := cvalues (nth j m dcat).

(** The price of category [j] when [n_j] agents are left: the value of the last agent who left. *)
Definition pr (M : Q) (m : market) (ns : list nat) (j : nat) : Q :=
  nth (nth j ns 0%nat) (vals m j) (- M).

Definition prices_of (M : Q) (m : market) (ns : list nat) : list Q :=
  map (pr M m ns) (seq 0 (length m)).

Definition shrink (m : market) (ns : list nat) : list category :=
  map (fun j => mkCat (cname (nth j m dcat)) (firstn (nth j ns 0%nat) (vals m j))) (seq 0 (length m)).

Definition psum (M : Q) (m : market) (recipe ns : list nat) : Q := wdot (pr M m ns) recipe.

Definition ratio (recipe ns : list nat) (j : nat) : Q := Qn (nth j ns 0%nat) / Qn (nth j recipe 0%nat).

Definition dec (i : nat) (ns : list nat) : list nat := set_nth i (nth i ns 0 - 1)%nat ns.

Definition choice (recipe ns : list nat) : result nat :=
  argmax (ratio recipe ns) (relevant_indices recipe).

Fixpoint abs_loop (M : Q) (fuel : nat) (m : market) (recipe ns : list nat)
  : result (list nat * option nat) :=
  match fuel with
  | O => Timeout
  | S fuel' =>
      main <- choice recipe ns ;;
      if (nth main ns 0 =? 0)%nat then Ok (ns, None)
      else if Qle_bool 0 (psum M m recipe (dec main ns)) then Ok (ns, Some main)
      else abs_loop M fuel' m recipe (dec main ns)
  end.

(** The final prices. *)
Definition bal (M : Q) (m : market) (recipe ns : list nat) (main : nat) : Q :=
  let P := prices_of M m ns in
  (0 - (dot P recipe - Qn (nth main recipe 0%nat) * pr M m ns main)) / Qn (nth main recipe 0%nat).

Definition final_prices (M : Q) (m : market) (recipe : list nat) (ns : list nat) (stop : option nat) : list Q :=
  match stop with
  | None => prices_of M m ns
  | Some main => set_nth main (bal M m recipe ns main) (prices_of M m ns)
  end.

Definition sizes_ok (m : market) (ns : list nat) : Prop :=
  length ns = length m /\ forall j, (nth j ns 0 <= length (vals m j))%nat.

Lemma vals_out : forall m j, (length m <= j)%nat -> vals m j = [].
Proof. intros. unfold vals. rewrite nth_overflow by assumption. reflexivity. Qed.

Lemma nth_map_seq : forall A (f : nat -> A) n j d, (j < n)%nat -> nth j (map f (seq 0 n)) d = f j.
Proof.
  intros. rewrite (nth_indep _ d (f 0%nat)) by (rewrite map_length, seq_length; assumption).
  rewrite map_nth. rewrite seq_nth by assumption. reflexivity.
Qed.

Lemma nth_error_map_seq : forall A (f : nat -> A) n j, (j < n)%nat -> nth_error (map f (seq 0 n)) j = Some (f j).
Proof.
  intros. rewrite nth_error_nth' with (d := f 0%nat) by (rewrite map_length, seq_length; assumption).
  f_equal. apply nth_map_seq. assumption.
Qed.

Lemma prices_length : forall M m ns, length (prices_of M m ns) = length m.
Proof. intros. unfold prices_of. rewrite map_length, seq_length. reflexivity. Qed.

Lemma shrink_length : forall m ns, length (shrink m ns) = length m.
Proof. intros. unfold shrink. rewrite map_length, seq_length. reflexivity. Qed.

Lemma prices_psum : forall M m recipe ns, length recipe = length m ->
  dot (prices_of M m ns) recipe == psum M m recipe ns.
Proof.
  intros. rewrite dot_wdot by (rewrite prices_length; auto). unfold psum. apply wdot_ext.
  intros j Hj _. unfold prices_of. rewrite nth_map_seq by lia. reflexivity.
Qed.

Lemma nth_dec_same : forall i ns, nth i (dec i ns) 0%nat = (nth i ns 0 - 1)%nat.
Proof.
  intros i ns. unfold dec. destruct (le_lt_dec (length ns) i) as [H|H].
  - rewrite !nth_overflow; rewrite ?set_nth_length; auto.
  - apply nth_set_nth_same. assumption.
Qed.

Lemma nth_dec_other : forall i j ns, i <> j -> nth j (dec i ns) 0%nat = nth j ns 0%nat.
Proof. intros. apply nth_set_nth_other. assumption. Qed.

Lemma nth_dec_le : forall i j ns, (nth j (dec i ns) 0 <= nth j ns 0)%nat.
Proof.
  intros i j ns. destruct (Nat.eq_dec i j) as [->|H].
  - rewrite nth_dec_same. lia.
  - rewrite nth_dec_other by assumption. lia.
Qed.

Lemma dec_ok : forall m ns i, sizes_ok m ns -> sizes_ok m (dec i ns).
Proof.
  intros m ns i [H1 H2]. split.
  - unfold dec. rewrite set_nth_length. assumption.
  - intros j. specialize (H2 j). assert (H := nth_dec_le i j ns). lia.
Qed.

Lemma list_ext_nth : forall A (d : A) (l l' : list A), length l = length l' ->
  (forall j, (j < length l)%nat -> nth j l d = nth j l' d) -> l = l'.
Proof. intros. eapply nth_ext; eassumption. Qed.

Lemma shrink_dec : forall m ns i c', sizes_ok m ns -> (i < length m)%nat ->
  c' = mkCat (cname (nth i m dcat)) (firstn (nth i ns 0 - 1)%nat (vals m i)) ->
  set_nth i c' (shrink m ns) = shrink m (dec i ns).
Proof.
  intros m ns i c' [H1 H2] Hi ->. apply list_ext_nth with (d := dcat).
  - rewrite set_nth_length, !shrink_length. reflexivity.
  - intros j Hj. rewrite set_nth_length, shrink_length in Hj.
    destruct (Nat.eq_dec i j) as [->|Hne].
    + rewrite nth_set_nth_same by (rewrite shrink_length; assumption).
      unfold shrink. rewrite nth_map_seq by assumption. rewrite nth_dec_same. reflexivity.
    + rewrite nth_set_nth_other by assumption. unfold shrink.
      rewrite !nth_map_seq by assumption. rewrite nth_dec_other by assumption. reflexivity.
Qed.

Lemma prices_dec : forall M m ns i, sizes_ok m ns -> (i < length m)%nat ->
  set_nth i (nth (nth i ns 0 - 1)%nat (vals m i) (- M)) (prices_of M m ns) = prices_of M m (dec i ns).
Proof.
  intros M m ns i [H1 H2] Hi. apply list_ext_nth with (d := 0).
  - rewrite set_nth_length, !prices_length. reflexivity.
  - intros j Hj. rewrite set_nth_length, prices_length in Hj.
    destruct (Nat.eq_dec i j) as [->|Hne].
    + rewrite nth_set_nth_same by (rewrite prices_length; assumption).
      unfold prices_of. rewrite nth_map_seq by assumption. unfold pr. rewrite nth_dec_same. reflexivity.
    + rewrite nth_set_nth_other by assumption. unfold prices_of.
      rewrite !nth_map_seq by assumption. unfold pr. rewrite nth_dec_other by assumption. reflexivity.
Qed.

Lemma last_firstn : forall A (l : list A) n d d', (0 < n <= length l)%nat ->
  last (firstn n l) d = nth (n - 1) l d'.
Proof.
  induction l as [|a l IH]; intros n d d' H; simpl in H; [lia|].
  destruct n as [|n]; [lia|]. simpl. rewrite Nat.sub_0_r.
  destruct n as [|n]; [reflexivity|].
  assert (L : length (firstn (S n) l) = S n) by (rewrite firstn_length_le; lia).
  specialize (IH (S n) d d' ltac:(lia)).
  destruct (firstn (S n) l) as [|b l'] eqn:E; [simpl in L; lia|].
  rewrite IH. simpl. rewrite Nat.sub_0_r. reflexivity.
Qed.

(** One round of the program on a state given by sizes. *)
Lemma round_spec : forall M m recipe ns st main, length recipe = length m -> sizes_ok m ns ->
  choice recipe ns = Ok main ->
  let s := (shrink m ns, mkPV recipe (prices_of M m ns) st) in
  ((nth main ns 0 = 0)%nat /\ ascending_round recipe s = Ok (true, s))
  \/ ((0 < nth main ns 0)%nat /\ 0 <= psum M m recipe (dec main ns) /\
      ascending_round recipe s
      = Ok (true, (shrink m ns, mkPV recipe (final_prices M m recipe ns (Some main)) (Some STOPPED_AT_ZERO_SUM))))
  \/ ((0 < nth main ns 0)%nat /\ psum M m recipe (dec main ns) < 0 /\
      ascending_round recipe s
      = Ok (false, (shrink m (dec main ns),
                    mkPV recipe (prices_of M m (dec main ns)) (Some STOPPED_AT_AGENT_VALUE)))).
Proof.
  intros M m recipe ns st main Hl Hok Hch s.
  assert (Hmain := argmax_spec _ _ _ Hch). destruct Hmain as [Hin _].
  apply relevant_In in Hin. destruct Hin as [Hi Hr]. rewrite Hl in Hi.
  assert (Hg : argmax (fractional_potential_ps (shrink m ns) recipe) (relevant_indices recipe) = Ok main).
  { rewrite <- Hch. apply argmax_ext. intros y Hy. apply relevant_In in Hy.
    unfold fractional_potential_ps, ratio.
    replace (nth y (map csize (shrink m ns)) 0%nat) with (nth y ns 0%nat); [reflexivity|].
    unfold shrink. rewrite map_map, nth_map_seq by lia. unfold csize. simpl.
    rewrite firstn_length_le; [reflexivity|apply Hok]. }
  unfold ascending_round, s. rewrite Hg. cbn [bind].
  set (n := nth main ns 0%nat) in *.
  assert (Hget : get (shrink m ns) main = Ok (mkCat (cname (nth main m dcat)) (firstn n (vals m main)))).
  { apply get_Ok. unfold shrink. rewrite nth_error_map_seq by assumption. reflexivity. }
  rewrite Hget. cbn [bind].
  assert (Hn : (n <= length (vals m main))%nat) by apply Hok.
  assert (Hcs : csize (mkCat (cname (nth main m dcat)) (firstn n (vals m main))) = n).
  { unfold csize. simpl. apply firstn_length_le. assumption. }
  rewrite Hcs. destruct (Nat.eqb_spec n 0) as [Hz|Hz]; [left; auto|]. right.
  assert (Hlow : lowest_agent_value (mkCat (cname (nth main m dcat)) (firstn n (vals m main)))
                 = Ok (nth (n - 1) (vals m main) (- M))).
  { unfold lowest_agent_value. simpl.
    rewrite <- (last_firstn _ (vals m main) n 0 (- M)) by lia.
    destruct (firstn n (vals m main)) eqn:E; [|reflexivity].
    assert (length (firstn n (vals m main)) = n) by (apply firstn_length_le; assumption).
    rewrite E in H. simpl in H. lia. }
  rewrite Hlow. cbn [bind].
  unfold increase_price_up_to_balance, price_sum_without_category.
  cbn [pv_recipe pv_prices].
  assert (Hgr : get recipe main = Ok (nth main recipe 0%nat)) by (apply get_lt; lia).
  assert (Hgp : get (prices_of M m ns) main = Ok (pr M m ns main)).
  { apply get_Ok. unfold prices_of. apply nth_error_map_seq. assumption. }
  rewrite Hgr, Hgp. cbn [bind]. unfold price_sum. cbn [pv_recipe pv_prices].
  set (r := nth main recipe 0%nat) in *.
  set (low := nth (n - 1) (vals m main) (- M)).
  assert (Es : dot (prices_of M m ns) recipe - Qn r * pr M m ns main + Qn r * low
               == psum M m recipe (dec main ns)).
  { rewrite <- prices_psum by assumption. rewrite <- prices_dec by assumption. fold n. fold low.
    rewrite (dot_set_nth main low (prices_of M m ns) recipe r (pr M m ns main)).
    - ring.
    - apply get_Ok. assumption.
    - apply get_Ok. assumption. }
  assert (Hzr : (r =? 0)%nat = false) by (apply Nat.eqb_neq; lia).
  destruct (Qle_bool_reflect 0 (dot (prices_of M m ns) recipe - Qn r * pr M m ns main + Qn r * low)) as [H0|H0].
  - rewrite Hzr. cbn [bind pv_status]. left.
    split; [lia|]. split; [rewrite <- Es; assumption|]. reflexivity.
  - cbn [bind pv_status]. right. split; [lia|]. split; [rewrite <- Es; lra|].
    unfold remove_lowest_agent. cbn [cvalues cname].
    destruct (firstn n (vals m main)) eqn:E.
    { exfalso. assert (length (firstn n (vals m main)) = n) by (apply firstn_length_le; assumption).
      rewrite E in H. simpl in H. lia. }
    rewrite <- E. cbn [bind]. do 2 f_equal. f_equal.
    + apply shrink_dec; [assumption|assumption|]. fold n.
      f_equal. replace n with (S (n - 1)) at 1 by lia. apply removelast_firstn. lia.
    + f_equal. unfold low, n. apply prices_dec; assumption.
Qed.

(** The program's loop is the abstract walk. *)
Lemma loop_refines : forall M fuel m recipe ns st, length recipe = length m -> sizes_ok m ns ->
  match abs_loop M fuel m recipe ns with
  | Ok (ns', stop) => exists st', ascending_loop fuel recipe (shrink m ns, mkPV recipe (prices_of M m ns) st)
        = Ok (shrink m ns', mkPV recipe (final_prices M m recipe ns' stop) st')
  | Raise e => ascending_loop fuel recipe (shrink m ns, mkPV recipe (prices_of M m ns) st) = Raise e
  | Timeout => ascending_loop fuel recipe (shrink m ns, mkPV recipe (prices_of M m ns) st) = Timeout
  end.
Proof.
  intros M. induction fuel as [|fuel IH]; intros m recipe ns st Hl Hok; [reflexivity|].
  cbn [abs_loop ascending_loop].
  destruct (choice recipe ns) as [main|e|] eqn:Hch.
  - destruct (round_spec M m recipe ns st main Hl Hok Hch) as [[H1 H2]|[[H1 [H2 H3]]|[H1 [H2 H3]]]].
    + cbn [bind]. rewrite H1. cbn [Nat.eqb]. rewrite H2. cbn. eauto.
    + cbn [bind]. destruct (Nat.eqb_spec (nth main ns 0%nat) 0); [lia|].
      destruct (Qle_bool_reflect 0 (psum M m recipe (dec main ns))); [|contradiction].
      rewrite H3. cbn. eauto.
    + cbn [bind]. destruct (Nat.eqb_spec (nth main ns 0%nat) 0); [lia|].
      destruct (Qle_bool_reflect 0 (psum M m recipe (dec main ns))); [lra|].
      rewrite H3. cbn [bind fst snd]. apply IH; [assumption|apply dec_ok; assumption].
  - cbn [bind]. unfold choice, argmax in Hch. unfold ascending_round, argmax.
    destruct (relevant_indices recipe); [|discriminate]. inversion Hch; subst. reflexivity.
  - exfalso. unfold choice, argmax in Hch. destruct (relevant_indices recipe); discriminate.
Qed.

(** The initial sizes. *)
Definition sizes0 (m : market) : list nat := map csize m.

Lemma sizes0_nth : forall m j, nth j (sizes0 m) 0%nat = length (vals m j).
Proof.
  intros. unfold sizes0, vals. change 0%nat with (csize dcat). rewrite map_nth. reflexivity.
Qed.

Lemma sizes0_ok : forall m, sizes_ok m (sizes0 m).
Proof.
  intros. split; [unfold sizes0; apply map_length|]. intros j. rewrite sizes0_nth. lia.
Qed.

Lemma shrink_start : forall m, shrink m (sizes0 m) = m.
Proof.
  intros. apply list_ext_nth with (d := dcat).
  - apply shrink_length.
  - intros j Hj. rewrite shrink_length in Hj. unfold shrink. rewrite nth_map_seq by assumption.
    rewrite sizes0_nth, firstn_all. unfold vals. destruct (nth j m dcat); reflexivity.
Qed.

Lemma prices_start : forall M m, prices_of M m (sizes0 m) = repeat (- M) (length m).
Proof.
  intros. apply list_ext_nth with (d := 0).
  - rewrite prices_length, repeat_length. reflexivity.
  - intros j Hj. rewrite prices_length in Hj. unfold prices_of. rewrite nth_map_seq by assumption.
    unfold pr. rewrite sizes0_nth, nth_overflow by lia.
    rewrite (nth_indep _ 0 (- M)) by (rewrite repeat_length; assumption).
    symmetry. apply nth_repeat.
Qed.

Lemma start_state : forall M m recipe, length recipe = length m ->
  let m' := clone_market m in
  ascending_start M m recipe = (shrink m' (sizes0 m'), mkPV recipe (prices_of M m' (sizes0 m')) None).
Proof.
  intros M m recipe Hl m'. unfold ascending_start. fold m'. rewrite shrink_start, prices_start.
  unfold new_price_vector. rewrite Hl. unfold m'. rewrite clone_length. reflexivity.
Qed.

(** ** Induction principle for the walk *)

Definition walk_step (M : Q) (m : market) (recipe ns ns' : list nat) : Prop :=
  exists main, choice recipe ns = Ok main /\ (0 < nth main ns 0)%nat
    /\ psum M m recipe (dec main ns) < 0 /\ ns' = dec main ns.

Definition stopped (M : Q) (m : market) (recipe ns : list nat) (stop : option nat) : Prop :=
  exists main, choice recipe ns = Ok main /\
    ((stop = None /\ nth main ns 0%nat = 0%nat)
     \/ (stop = Some main /\ (0 < nth main ns 0)%nat /\ 0 <= psum M m recipe (dec main ns))).

Lemma abs_loop_ind : forall M m recipe (I : list nat -> Prop) fuel ns ns' stop,
  I ns -> (forall a b, I a -> walk_step M m recipe a b -> I b) ->
  abs_loop M fuel m recipe ns = Ok (ns', stop) -> I ns' /\ stopped M m recipe ns' stop.
Proof.
  intros M m recipe I. induction fuel as [|fuel IH]; intros ns ns' stop HI Hstep H; [discriminate|].
  cbn [abs_loop] in H. apply bind_Ok in H. destruct H as [main [Hch H]].
  destruct (Nat.eqb_spec (nth main ns 0%nat) 0) as [Hz|Hz].
  - inversion H; subst. split; [assumption|]. exists main. split; [assumption|]. left. auto.
  - destruct (Qle_bool_reflect 0 (psum M m recipe (dec main ns))) as [Hp|Hp].
    + inversion H; subst. split; [assumption|]. exists main. split; [assumption|]. right.
      split; [reflexivity|]. split; [lia|assumption].
    + apply IH in H; auto. apply (Hstep ns); [assumption|]. exists main.
      split; [assumption|]. split; [lia|]. split; [lra|reflexivity].
Qed.

(** ** Termination *)

Lemma dec_sum : forall i ns, (0 < nth i ns 0)%nat -> (S (nsum (dec i ns)) = nsum ns)%nat.
Proof.
  intros i ns. unfold dec. revert ns. induction i as [|i IH]; intros [|n ns] H; simpl in *; try lia.
  specialize (IH ns H). lia.
Qed.

Lemma abs_loop_total : forall M m recipe fuel ns, (nsum ns < fuel)%nat ->
  (exists j, (j < length recipe)%nat /\ (0 < nth j recipe 0)%nat) ->
  exists r, abs_loop M fuel m recipe ns = Ok r.
Proof.
  intros M m recipe. induction fuel as [|fuel IH]; intros ns Hf Hp; [lia|].
  cbn [abs_loop]. destruct Hp as [j Hj].
  assert (Hin : In j (relevant_indices recipe)) by (apply relevant_In; assumption).
  destruct (choice recipe ns) as [main|e|] eqn:Hch.
  - cbn [bind]. destruct (Nat.eqb_spec (nth main ns 0%nat) 0) as [Hz|Hz]; [eauto|].
    destruct (Qle_bool 0 (psum M m recipe (dec main ns))); [eauto|].
    apply IH; [|eauto]. assert (X := dec_sum main ns ltac:(lia)). lia.
  - exfalso. unfold choice, argmax in Hch. destruct (relevant_indices recipe); [destruct Hin|discriminate].
  - exfalso. unfold choice, argmax in Hch. destruct (relevant_indices recipe); discriminate.
Qed.

Lemma nsum_sizes0_clone : forall m, nsum (sizes0 (clone_market m)) = total_agents m.
Proof.
  intros. unfold sizes0, total_agents, clone_market. rewrite map_map. f_equal. apply map_ext.
  intros c. unfold csize, clone, new_category. simpl. apply sort_desc_length.
Qed.

(** The whole auction in terms of the walk. *)
Theorem auction_spec : forall M m recipe, length recipe = length m ->
  (exists j, (j < length recipe)%nat /\ (0 < nth j recipe 0)%nat) ->
  let m' := clone_market m in
  forall fuel, (total_agents m < fuel)%nat ->
  exists ns stop t, abs_loop M fuel m' recipe (sizes0 m') = Ok (ns, stop)
    /\ ascending_auction_M M fuel m recipe = Ok t
    /\ new_trade (shrink m' ns) recipe (Some (final_prices M m' recipe ns stop)) = Ok t
    /\ tcats t = shrink m' ns /\ trecipe t = recipe
    /\ tprices t = Some (final_prices M m' recipe ns stop).
Proof.
  intros M m recipe Hl Hp m' fuel Hf.
  assert (Hl' : length recipe = length m') by (unfold m'; rewrite clone_length; auto).
  destruct (abs_loop_total M m' recipe fuel (sizes0 m')) as [[ns stop] Hr]; [|assumption|].
  { unfold m'. rewrite nsum_sizes0_clone. assumption. }
  assert (R := loop_refines M fuel m' recipe (sizes0 m') None Hl' (sizes0_ok m')).
  rewrite Hr in R. destruct R as [st' R].
  destruct (new_trade_ok (shrink m' ns) recipe (Some (final_prices M m' recipe ns stop))) as [t Ht].
  { destruct Hp as [j [Hj1 Hj2]]. exists j. exists (nth j (shrink m' ns) dcat), (nth j recipe 0%nat).
    split; [apply nth_error_nth'; rewrite shrink_length; lia|].
    split; [apply nth_error_nth'; assumption|assumption]. }
  exists ns, stop, t. split; [assumption|]. split.
  - unfold ascending_auction_M. rewrite Hl, Nat.eqb_refl. rewrite start_state by assumption. fold m'.
    rewrite R. cbn [bind fst snd pv_prices]. assumption.
  - split; [assumption|]. destruct (deals_max _ _ _ _ Ht) as [E _]. rewrite E. cbn. auto.
Qed.
