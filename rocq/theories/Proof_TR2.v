(** * Trade reduction: the loop refines the walk *)

From Coq Require Import String List Arith Lia QArith Lqa Permutation Sorted Bool.
From Verif Require Import Base Model_Agents Model_Trade Model_Prices Model_Market Model_Ascending Model_TradeReduction
  Spec_Market Spec_Trade Spec_Ascending Proof_Market Proof_Trade Proof_Prices Proof_Ascending
  Proof_Ascending2 Proof_Ascending3 Proof_Ascending4 Proof_Deals Proof_TR.
Import ListNotations.
Open Scope Q_scope.

Definition accepts (z : bool) (q : Q) : bool := Qlt_bool 0 q || (z && Qeq_bool q 0).

Lemma accepts_ext : forall z a b, a == b -> accepts z a = accepts z b.
Proof.
  intros z a b H. unfold accepts, Qlt_bool. f_equal.
  - f_equal. destruct (Qle_bool_reflect a 0); destruct (Qle_bool_reflect b 0); try reflexivity; lra.
  - f_equal. destruct (Qeq_bool a 0) eqn:E1; destruct (Qeq_bool b 0) eqn:E2; try reflexivity.
    + apply Qeq_bool_iff in E1. apply Qeq_bool_neq in E2. exfalso. apply E2. lra.
    + apply Qeq_bool_iff in E2. apply Qeq_bool_neq in E1. exfalso. apply E1. lra.
Qed.

Lemma accepts_iff : forall z q, accepts z q = true <-> acceptable z q.
Proof.
  intros z q. unfold accepts, acceptable. rewrite orb_true_iff, Qlt_bool_iff, andb_true_iff, Qeq_bool_iff.
  destruct z; split; intros H.
  - destruct H as [H|[_ H]]; lra.
  - destruct (Qlt_le_dec 0 q); [left; assumption|right; split; [reflexivity|lra]].
  - destruct H as [H|[H _]]; [assumption|discriminate].
  - left. assumption.
Qed.

Fixpoint walk (M : Q) (m : market) (recipe : list nat) (z : bool) (o ns : list nat) : option (nat * list nat) :=
  match o with
  | [] => None
  | i :: o' => if accepts z (psum M m recipe (dec i ns)) then Some (i, ns) else walk M m recipe z o' (dec i ns)
  end.

Lemma best_from_spec : forall rem a i v, (forall c, In c rem -> cvalues c <> []) ->
  best_containing_from a rem i v
  = Ok (map (fun j => if (a + j =? i)%nat then v else hd 0 (cvalues (nth j rem dcat))) (seq 0 (length rem))).
Proof.
  induction rem as [|c rem IH]; intros a i v H; [reflexivity|].
  cbn [best_containing_from length seq map]. rewrite seq_map_shift, Nat.add_0_r.
  rewrite IH by (intros c0 Hc0; apply H; right; assumption).
  assert (Hc := H c (or_introl eq_refl)).
  assert (E : (if (a =? i)%nat then Ok v else highest_agent_value c)
    = Ok (if (a =? i)%nat then v else hd 0 (cvalues c))).
  { destruct (a =? i)%nat; [reflexivity|]. unfold highest_agent_value. destruct (cvalues c); [congruence|reflexivity]. }
  rewrite E. cbn [bind nth]. f_equal. f_equal. apply map_ext. intros j.
  replace (a + S j)%nat with (S a + j)%nat by lia. reflexivity.
Qed.

Definition set_ok (m : market) (i : nat) (c : category) : Prop := (i < length m)%nat.

Lemma append_trader_ok : forall (tr : list category) i v, (i < length tr)%nat ->
  append_trader tr i v = Ok (set_nth i (append (nth i tr dcat) v) tr).
Proof. intros tr i v H. unfold append_trader. rewrite (get_lt _ _ _ dcat H). reflexivity. Qed.

Lemma map_set_nth : forall A B (f : A -> B) i x l d, (i < length l)%nat -> f x = f (nth i l d) ->
  map f (set_nth i x l) = map f l.
Proof.
  intros A B f. induction i as [|i IH]; intros x [|a l] d Hi E; simpl in *; try lia.
  - rewrite E. reflexivity.
  - rewrite (IH x l d); [reflexivity|lia|assumption].
Qed.

Section Walk.
  Variables (M : Q) (m : market) (recipe : list nat) (z : bool) (st : list nat).
  Hypothesis Hl : length recipe = length m.
  Hypothesis Hs : sorted_market m.
  Hypothesis Hv : values_at_least (- M) m.
  Hypothesis Hst : sizes_ok m st.

  Definition dummy (j : nat) : list Q := if (length (vals m j) <=? nth j st 0)%nat then [- M] else [].

  Definition rem_ok (ns : list nat) (rem : market) : Prop :=
    length rem = length m
    /\ forall j, (j < length m)%nat -> qeq (vals rem j) (skipn (nth j ns 0%nat) (vals m j) ++ dummy j).

  (** The agents at positions x_j .. n_j - 1 of each category. *)
  Definition seg_ok (ns x : list nat) (tr : list category) : Prop :=
    map cname tr = map cname m
    /\ forall j, (j < length m)%nat -> qeq (vals tr j) (skipn (nth j x 0%nat) (firstn (nth j ns 0%nat) (vals m j))).

  Fixpoint valid (o ns : list nat) : Prop :=
    match o with
    | [] => True
    | i :: o' => (i < length m)%nat /\ (0 < nth i recipe 0)%nat /\ (0 < nth i ns 0)%nat /\ valid o' (dec i ns)
    end.

  Definition below (ns : list nat) : Prop := length ns = length m /\ forall j, (nth j ns 0 <= nth j st 0)%nat.

  Lemma below_ok : forall ns, below ns -> sizes_ok m ns.
  Proof.
    intros ns [H1 H2]. split; [assumption|]. intros j. destruct Hst as [_ H]. specialize (H j). specialize (H2 j). lia.
  Qed.

  Lemma below_dec : forall i ns, below ns -> below (dec i ns).
  Proof.
    intros i ns [H1 H2]. split; [rewrite dec_length; assumption|]. intros j.
    assert (X := nth_dec_le i j ns). specialize (H2 j). lia.
  Qed.

  Lemma mdesc : forall j, desc (vals m j).
  Proof. apply vals_desc. assumption. Qed.

  Lemma value_at_least : forall j x, In x (vals m j) -> - M <= x.
  Proof.
    intros j x Hx. destruct (le_lt_dec (length m) j) as [H|H].
    - rewrite vals_out in Hx by assumption. destruct Hx.
    - apply (Hv (nth j m dcat) x); [apply nth_In; assumption|assumption].
  Qed.

  Lemma rem_highest : forall ns rem j, below ns -> rem_ok ns rem -> (j < length m)%nat ->
    vals rem j <> [] /\ hd 0 (vals rem j) == pr M m ns j.
  Proof.
    intros ns rem j [Hb1 Hb2] [_ Hr] Hj. specialize (Hr j Hj).
    assert (Hn := proj2 (below_ok ns (conj Hb1 Hb2)) j). specialize (Hb2 j). unfold dummy in Hr. unfold pr.
    destruct (le_lt_dec (length (vals m j)) (nth j ns 0%nat)) as [H|H].
    - rewrite skipn_all2 in Hr by assumption. destruct (Nat.leb_spec (length (vals m j)) (nth j st 0%nat)); [|lia].
      simpl in Hr. inversion Hr; subst. split; [discriminate|]. simpl. rewrite nth_overflow by assumption. assumption.
    - assert (E : skipn (nth j ns 0%nat) (vals m j) = nth (nth j ns 0%nat) (vals m j) (- M) :: skipn (S (nth j ns 0%nat)) (vals m j)).
      { clear - H. revert H. generalize (nth j ns 0%nat), (vals m j). intros n l. revert n.
        induction l as [|a l IH]; intros [|n] H; simpl in H; try lia; [reflexivity|]. simpl. apply IH. lia. }
      rewrite E in Hr. simpl in Hr. inversion Hr; subst. split; [discriminate|assumption].
  Qed.

  Lemma rem_nonempty : forall ns rem, below ns -> rem_ok ns rem -> forall c, In c rem -> cvalues c <> [].
  Proof.
    intros ns rem Hb Hr c Hc. apply In_nth with (d := dcat) in Hc. destruct Hc as [j [Hj <-]].
    rewrite (proj1 Hr) in Hj. apply (proj1 (rem_highest ns rem j Hb Hr Hj)).
  Qed.

  Lemma skipn_dec : forall (l : list Q) n, (0 < n <= length l)%nat ->
    skipn (n - 1) l = nth (n - 1) l 0 :: skipn n l.
  Proof.
    intros l n H. destruct n as [|n]; [lia|]. replace (S n - 1)%nat with n by lia. destruct H as [_ H].
    revert n H. induction l as [|a l IH]; intros [|n] H; simpl in *; try lia; [reflexivity|]. apply IH. lia.
  Qed.

  (** Putting the pivot back into the remaining market. *)
  Lemma rem_append : forall ns rem i v, below ns -> rem_ok ns rem -> (i < length m)%nat -> (0 < nth i ns 0)%nat ->
    v == nth (nth i ns 0 - 1)%nat (vals m i) 0 ->
    exists rem', append_trader rem i v = Ok rem' /\ rem_ok (dec i ns) rem'.
  Proof.
    intros ns rem i v Hb [Hr1 Hr2] Hi Hn Hval.
    rewrite append_trader_ok by congruence. eexists. split; [reflexivity|].
    split; [rewrite set_nth_length; assumption|]. intros j Hj.
    destruct (Nat.eq_dec i j) as [<-|Hne].
    - rewrite vals_set_same by congruence. rewrite nth_dec_same. unfold append. cbn [cvalues].
      assert (Hle := proj2 (below_ok ns Hb) i).
      rewrite skipn_dec by lia. simpl app. apply append_front.
      + apply (Hr2 i Hi).
      + assumption.
      + assert (D := mdesc i).
        assert (D1 : desc (nth (nth i ns 0 - 1)%nat (vals m i) 0 :: skipn (nth i ns 0%nat) (vals m i))).
        { rewrite <- skipn_dec by lia. apply desc_skipn. assumption. }
        unfold dummy. destruct (length (vals m i) <=? nth i st 0)%nat; [|rewrite app_nil_r; assumption].
        rewrite app_comm_cons. apply desc_app; [assumption|repeat constructor|].
        intros a b Ha [<-|[]]. apply (value_at_least i).
        rewrite <- skipn_dec in Ha by lia. rewrite <- (firstn_skipn (nth i ns 0 - 1)%nat (vals m i)). apply in_or_app. right. assumption.
    - rewrite vals_set_other by assumption. rewrite nth_dec_other by assumption. apply Hr2. assumption.
  Qed.

  Lemma seg_append : forall ns x tr i v, sizes_ok m ns -> seg_ok ns x tr -> (i < length m)%nat ->
    (0 < nth i x 0 <= nth i ns 0)%nat -> v == nth (nth i x 0 - 1)%nat (vals m i) 0 ->
    exists tr', append_trader tr i v = Ok tr' /\ seg_ok ns (dec i x) tr'.
  Proof.
    intros ns x tr i v Hok [Hr1 Hr2] Hi Hn Hval.
    assert (Lt : length tr = length m) by (rewrite <- (map_length cname tr), Hr1, map_length; reflexivity).
    rewrite append_trader_ok by congruence. eexists. split; [reflexivity|].
    split.
    - rewrite <- Hr1. apply (map_set_nth _ _ cname i _ tr dcat); [congruence|reflexivity].
    - intros j Hj. destruct (Nat.eq_dec i j) as [<-|Hne].
      + rewrite vals_set_same by congruence. rewrite nth_dec_same. unfold append. cbn [cvalues].
        assert (Hle := proj2 Hok i). set (L := firstn (nth i ns 0%nat) (vals m i)).
        assert (LL : length L = nth i ns 0%nat) by (unfold L; apply firstn_length_le; lia).
        assert (EN : nth (nth i x 0 - 1)%nat L 0 = nth (nth i x 0 - 1)%nat (vals m i) 0).
        { unfold L. rewrite <- (firstn_skipn (nth i ns 0%nat) (vals m i)) at 2. fold L. rewrite app_nth1 by lia. reflexivity. }
        rewrite (skipn_dec L) by lia. apply append_front.
        * apply (Hr2 i Hi).
        * rewrite EN. assumption.
        * rewrite <- skipn_dec by lia. apply desc_skipn. apply desc_firstn. apply mdesc.
      + rewrite vals_set_other by assumption. rewrite nth_dec_other by assumption. apply Hr2. assumption.
  Qed.

  (** Once prices are known, all pivots are kept. *)
  Lemma keep_all : forall ns P rem pl o x tr, sizes_ok m ns -> seg_ok ns x tr -> valid o x ->
    (forall j, (nth j x 0 <= nth j ns 0)%nat) ->
    Forall2 piv_eq pl (stream m o x) ->
    exists tr', fold_result (tr_step recipe z) pl (mkTR rem tr (Some P)) = Ok (mkTR rem tr' (Some P))
      /\ seg_ok ns (decs o x) tr'.
  Proof.
    intros ns P rem pl o. revert pl. induction o as [|i o IH]; intros pl x tr Hok Hseg Hval Hle Hp; simpl in Hp.
    - inversion Hp; subst. exists tr. split; [reflexivity|assumption].
    - inversion Hp as [|[i0 v] q pl' str Hp1 Hp2]; subst. destruct Hp1 as [E1 E2]. simpl in E1, E2. subst i0.
      destruct Hval as [V1 [V2 [V3 V4]]].
      destruct (seg_append ns x tr i v Hok Hseg V1 (conj V3 (Hle i)) E2) as [tr' [A1 A2]].
      cbn [fold_result tr_step]. unfold tr_keep'. cbn [tr_prices tr_traders tr_remaining]. rewrite A1. cbn [bind].
      destruct (IH pl' (dec i x) tr' Hok A2 V4 ltac:(intros j; eapply Nat.le_trans; [apply nth_dec_le|apply Hle]) Hp2) as [tr'' [B1 B2]].
      exists tr''. split; assumption.
  Qed.

  Lemma best_spec : forall ns rem i v, below ns -> rem_ok ns rem -> (i < length m)%nat ->
    v == nth (nth i ns 0 - 1)%nat (vals m i) 0 -> (0 < nth i ns 0)%nat ->
    exists best, best_containing_PS rem i v = Ok best /\ qeq best (prices_of M m (dec i ns))
      /\ nth i best 0 = v.
  Proof.
    intros ns rem i v Hb Hr Hi Hval Hn. unfold best_containing_PS.
    rewrite best_from_spec by (eapply rem_nonempty; eassumption).
    eexists. split; [reflexivity|]. split.
    - apply qeq_of_nth; [rewrite map_length, seq_length, prices_length; apply (proj1 Hr)|].
      intros j Hj. rewrite map_length, seq_length in Hj. rewrite nth_map_seq by assumption.
      rewrite (proj1 Hr) in Hj. unfold prices_of. rewrite nth_map_seq by assumption. simpl.
      destruct (Nat.eqb_spec j i) as [->|Hne].
      + unfold pr. rewrite nth_dec_same. rewrite Hval.
        assert (Hle := proj2 (below_ok ns Hb) i).
        rewrite (nth_indep _ 0 (- M)) by lia. reflexivity.
      + unfold pr. rewrite nth_dec_other by congruence.
        apply (rem_highest ns rem j Hb Hr Hj).
    - rewrite nth_map_seq by (rewrite (proj1 Hr); assumption). simpl. rewrite Nat.eqb_refl. reflexivity.
  Qed.

  Lemma dot_qeq : forall l l' r, qeq l l' -> dot l r == dot l' r.
  Proof.
    intros l l' r H. revert r. induction H; intros [|x0 r]; simpl; try reflexivity.
    rewrite IHForall2, H. reflexivity.
  Qed.

  Lemma set_nth_qeq : forall i a b l l', qeq l l' -> a == b -> qeq (set_nth i a l) (set_nth i b l').
  Proof.
    intros i a b l l' H Hab. revert i. induction H; intros [|i]; simpl; constructor; auto.
    apply IHForall2.
  Qed.

  (** Prices from external competition. *)
  Lemma prices_spec : forall ns i v best, below ns -> (i < length m)%nat -> (0 < nth i recipe 0)%nat ->
    v == nth (nth i ns 0 - 1)%nat (vals m i) 0 -> (0 < nth i ns 0)%nat ->
    qeq best (prices_of M m (dec i ns)) ->
    exists P, calculate_prices i v best recipe = Ok P /\ qeq P (final_prices M m recipe ns (Some i)).
  Proof.
    intros ns i v best Hb Hi Hr Hval Hn Hq. unfold calculate_prices.
    rewrite (get_lt _ recipe i 0%nat) by lia. cbn [bind].
    destruct (Nat.eqb_spec (nth i recipe 0%nat) 0); [lia|]. eexists. split; [reflexivity|].
    assert (Hle := proj2 (below_ok ns Hb) i).
    unfold final_prices.
    assert (E1 : set_nth i (bal M m recipe ns i) (prices_of M m ns) = set_nth i (bal M m recipe ns i) (prices_of M m (dec i ns))).
    { rewrite <- prices_dec by (auto using below_ok). clear. revert i. generalize (prices_of M m ns). 
      intros l i. generalize (nth (nth i ns 0 - 1)%nat (vals m i) (- M)). intros q.
      generalize (bal M m recipe ns i). intros b. revert i. induction l as [|a l IH]; intros [|i]; simpl; try reflexivity.
      f_equal. apply IH. }
    rewrite E1. apply set_nth_qeq; [assumption|].
    rewrite (dot_qeq _ _ _ Hq). rewrite (prices_psum M m recipe (dec i ns) Hl).
    assert (Hq0 : 0 < Qn (nth i recipe 0%nat)) by (apply Qn_pos; assumption).
    assert (B := bal_eq M m recipe Hl ns i Hr).
    rewrite (psum_dec M m recipe) by lia.
    assert (Ev : nth (nth i ns 0 - 1)%nat (vals m i) (- M) == v) by (rewrite Hval; rewrite (nth_indep _ 0 (- M)) by lia; reflexivity).
    rewrite Ev. set (q := Qn (nth i recipe 0%nat)) in *. set (p := pr M m ns i) in *.
    set (S := psum M m recipe ns) in *. set (b := bal M m recipe ns i) in *.
    apply (Qmult_inj_l _ _ q); [lra|]. rewrite B.
    assert (X : q * ((v * q - (S + q * (v - p))) / q) == v * q - (S + q * (v - p))) by (field; lra).
    rewrite X. ring.
  Qed.

  Definition fresh (tr : list category) : Prop := map cname tr = map cname m /\ forall j, vals tr j = [].

  Lemma fresh_seg : forall tr ns, fresh tr -> sizes_ok m ns -> seg_ok ns ns tr.
  Proof.
    intros tr ns [H1 H2] Hok. split; [assumption|]. intros j Hj. rewrite H2.
    rewrite skipn_all2; [constructor|]. rewrite firstn_length. lia.
  Qed.

  Theorem walk_refines : forall o pl ns rem tr, below ns -> rem_ok ns rem -> fresh tr -> valid o ns ->
    Forall2 piv_eq pl (stream m o ns) ->
    exists rem', match walk M m recipe z o ns with
    | Some (i, ns') =>
        exists tr' P o', fold_result (tr_step recipe z) pl (mkTR rem tr None) = Ok (mkTR rem' tr' (Some P))
          /\ qeq P (final_prices M m recipe ns' (Some i))
          /\ seg_ok ns' (decs o ns) tr' /\ below ns'
          /\ valid (i :: o') ns' /\ decs (i :: o') ns' = decs o ns /\ acceptable z (psum M m recipe (dec i ns'))
    | None => fold_result (tr_step recipe z) pl (mkTR rem tr None) = Ok (mkTR rem' tr None)
    end.
  Proof.
    induction o as [|i o IH]; intros pl ns rem tr Hb Hr Hf Hval Hp; simpl in Hp.
    - inversion Hp; subst. simpl. exists rem. reflexivity.
    - inversion Hp as [|[i0 v] q pl' str Hp1 Hp2]; subst. destruct Hp1 as [E1 E2]. simpl in E1, E2. subst i0.
      destruct Hval as [V1 [V2 [V3 V4]]].
      destruct (best_spec ns rem i v Hb Hr V1 E2 V3) as [best [B1 [B2 B3]]].
      cbn [fold_result tr_step tr_prices walk]. cbn [tr_remaining tr_traders]. rewrite B1. cbn [bind].
      change (Qlt_bool 0 (dot best recipe) || (z && Qeq_bool (dot best recipe) 0)) with (accepts z (dot best recipe)).
      assert (EG : dot best recipe == psum M m recipe (dec i ns)).
      { rewrite (dot_qeq _ _ _ B2). apply prices_psum. assumption. }
      rewrite (accepts_ext z _ _ EG). destruct (accepts z (psum M m recipe (dec i ns))) eqn:EA.
      + destruct (prices_spec ns i v best Hb V1 V2 E2 V3 B2) as [P [P1 P2]]. rewrite P1. cbn [bind].
        exists rem.
        assert (Hok := below_ok ns Hb).
        destruct (seg_append ns ns tr i v Hok (fresh_seg tr ns Hf Hok) V1 ltac:(lia) E2) as [tr1 [A1 A2]].
        unfold tr_keep'. cbn [tr_prices tr_traders tr_remaining]. rewrite A1. cbn [bind].
        destruct (keep_all ns P rem pl' o (dec i ns) tr1 Hok A2 V4 ltac:(intros j; apply nth_dec_le) Hp2) as [tr2 [C1 C2]].
        exists tr2, P, o. split; [exact C1|]. split; [assumption|]. split; [exact C2|]. split; [assumption|].
        split; [simpl; auto|]. split; [reflexivity|]. apply accepts_iff. assumption.
      + destruct (rem_append ns rem i v Hb Hr V1 V3 E2) as [rem1 [A1 A2]]. rewrite A1. cbn [bind].
        apply (IH pl' (dec i ns) rem1 tr (below_dec i ns Hb) A2 Hf V4 Hp2).
  Qed.
End Walk.
