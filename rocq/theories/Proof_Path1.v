(** * Two auction rules on size vectors: abstract comparison (for C71) *)

From Coq Require Import String List Arith Lia QArith Lqa Permutation Sorted Bool.
From Verif Require Import Base Model_Agents Model_Trade Model_Prices Model_Market Model_Ascending
  Spec_Market Spec_Trade Proof_Market Proof_Trade Proof_Prices Proof_Ascending.
Import ListNotations.
Open Scope Q_scope.

Section Walks.
  Variable F : list nat -> Q.

  (** A run of an auction that raises the price of category [ch ns] until [E] or a non-negative price sum. *)
  Inductive walk (ch : list nat -> nat) (E : list nat -> Prop) : list nat -> list nat -> option nat -> Prop :=
  | w_empty : forall ns, E ns -> walk ch E ns ns None
  | w_zero : forall ns, ~ E ns -> 0 <= F (dec (ch ns) ns) -> walk ch E ns ns (Some (ch ns))
  | w_step : forall ns ns' stop, ~ E ns -> F (dec (ch ns) ns) < 0 -> walk ch E (dec (ch ns) ns) ns' stop ->
      walk ch E ns ns' stop.

  Variable idx : list nat.
  Hypothesis ND : NoDup idx.
  Hypothesis NE : idx <> [].

  Definition at_level (n : nat) (l : list nat) (ns : list nat) : Prop := forall j, In j l -> nth j ns 0%nat = n.
  Definition above (n : nat) (ns : list nat) : Prop := forall j, In j idx -> (n <= nth j ns 0)%nat.
  Definition min_is (n : nat) (ns : list nat) : Prop := above n ns /\ exists j, In j idx /\ nth j ns 0%nat = n.

  Record rule (ch : list nat -> nat) (E : list nat -> Prop) : Prop := mkRule {
    r_in : forall ns, ~ E ns -> In (ch ns) idx;
    r_pos : forall ns, ~ E ns -> (0 < nth (ch ns) ns 0)%nat;
    r_big : forall ns n, ~ E ns -> min_is n ns -> ~ at_level n idx ns -> (n < nth (ch ns) ns 0)%nat;
    r_cycle : forall ns a c b n, idx = a ++ c :: b -> at_level n a ns -> at_level (S n) (c :: b) ns ->
      ~ E ns /\ ch ns = c;
    r_zero : forall ns, at_level 0 idx ns -> E ns;
    r_empty : forall ns, E ns -> exists j, In j idx /\ nth j ns 0%nat = 0%nat
  }.

  (** Equal outside the used categories. *)
  Definition same_off (ns ns' : list nat) : Prop :=
    length ns = length ns' /\ forall j, ~ In j idx -> nth j ns 0%nat = nth j ns' 0%nat.

  Lemma same_off_dec : forall i ns ns0, In i idx -> same_off ns ns0 -> same_off (dec i ns) ns0.
  Proof.
    intros i ns ns0 Hi [L H]. split.
    - unfold dec. rewrite set_nth_length. assumption.
    - intros j Hj. rewrite nth_dec_other by (intros ->; contradiction). auto.
  Qed.

  Lemma level_unique : forall n ns ns' ns0, at_level n idx ns -> at_level n idx ns' -> same_off ns ns0 -> same_off ns' ns0 ->
    ns = ns'.
  Proof.
    intros n ns ns' ns0 H H' [L O] [L' O']. apply nth_ext with (d := 0%nat) (d' := 0%nat); [congruence|].
    intros j _. destruct (in_dec Nat.eq_dec j idx) as [Y|Y]; [rewrite (H j Y), (H' j Y); reflexivity|].
    rewrite (O j Y), (O' j Y). reflexivity.
  Qed.

  Lemma level_dec : forall n ns, {at_level n idx ns} + {~ at_level n idx ns}.
  Proof.
    intros n ns. destruct (forallb (fun j => nth j ns 0 =? n)%nat idx) eqn:E.
    - left. intros j Hj. rewrite forallb_forall in E. apply Nat.eqb_eq. auto.
    - right. intros H. assert (X : forallb (fun j => nth j ns 0 =? n)%nat idx = true); [|congruence].
      apply forallb_forall. intros j Hj. apply Nat.eqb_eq. auto.
  Qed.

  (** The price sum does not decrease when agents leave. *)
  Hypothesis Fmono : forall ns ns', (forall j, In j idx -> (nth j ns' 0 <= nth j ns 0)%nat) -> F ns <= F ns'.

  (** The first phase: while the sizes differ, the smallest size does not change. *)
  Lemma phase1 : forall ch E ns ns' stop, rule ch E -> walk ch E ns ns' stop ->
    forall n ns0, (0 < n)%nat -> min_is n ns -> same_off ns ns0 -> F ns < 0 ->
    (min_is n ns' /\ forall l, at_level n idx l -> 0 <= F l)
    \/ exists l, at_level n idx l /\ same_off l ns0 /\ F l < 0 /\ walk ch E l ns' stop.
  Proof.
    intros ch E ns ns' stop R W. induction W as [ns HE|ns HE H0|ns ns' stop HE H0 W IH]; intros n ns0 Hn HM HS HF.
    - exfalso. destruct (r_empty _ _ R ns HE) as [j [Hj Z]]. assert (X := proj1 HM j Hj). lia.
    - destruct (level_dec n ns) as [HL|HL].
      + right. exists ns. split; [assumption|]. split; [assumption|]. split; [assumption|]. constructor; assumption.
      + left. split; [assumption|]. intros l Hl. eapply Qle_trans; [exact H0|]. apply Fmono.
        intros j Hj. rewrite (Hl j Hj). assert (B := r_big _ _ R ns n HE HM HL).
        destruct (Nat.eq_dec (ch ns) j) as [<-|Hne]; [rewrite nth_dec_same; lia|].
        rewrite nth_dec_other by assumption. apply HM. assumption.
    - destruct (level_dec n ns) as [HL|HL].
      + right. exists ns. split; [assumption|]. split; [assumption|]. split; [assumption|]. constructor 3; assumption.
      + assert (B := r_big _ _ R ns n HE HM HL). apply IH; [assumption| | |assumption].
        * destruct HM as [HA [k [Hk Ek]]]. split.
          -- intros j Hj. destruct (Nat.eq_dec (ch ns) j) as [<-|Hne]; [rewrite nth_dec_same; lia|].
             rewrite nth_dec_other by assumption. auto.
          -- exists k. split; [assumption|]. rewrite nth_dec_other; [assumption|]. intros Heq. rewrite Heq in B. lia.
        * apply same_off_dec; [apply (r_in _ _ R); assumption|assumption].
  Qed.

  Definition cyclic (ns : list nat) : Prop := at_level 0 idx ns \/
    exists a c b n, idx = a ++ c :: b /\ at_level n a ns /\ at_level (S n) (c :: b) ns.

  Lemma level_cyclic : forall n ns, at_level n idx ns -> cyclic ns.
  Proof.
    intros [|n] ns H; [left; assumption|]. right. destruct idx as [|c b] eqn:Ei; [contradiction|].
    exists [], c, b, n. split; [reflexivity|]. split; [intros j []|assumption].
  Qed.

  Lemma cyclic_dec : forall a c b n ns, idx = a ++ c :: b -> at_level n a ns -> at_level (S n) (c :: b) ns ->
    cyclic (dec c ns).
  Proof.
    intros a c b n ns Hi Ha Hc. assert (ND0 := ND). rewrite Hi in ND0. assert (ND' := NoDup_remove_2 _ _ _ ND0).
    assert (A : at_level n (a ++ [c]) (dec c ns)).
    { intros j Hj. apply in_app_iff in Hj. destruct Hj as [Hj|[<-|[]]].
      - rewrite nth_dec_other; [apply Ha; assumption|]. intros ->. apply ND'. apply in_app_iff. left. assumption.
      - rewrite nth_dec_same, (Hc c (or_introl eq_refl)). lia. }
    assert (B : at_level (S n) b (dec c ns)).
    { intros j Hj. rewrite nth_dec_other; [apply Hc; right; assumption|]. intros ->. apply ND'. apply in_app_iff. right. assumption. }
    destruct b as [|c' b].
    - apply (level_cyclic n). rewrite Hi. exact A.
    - right. exists (a ++ [c]), c', b, n. split; [rewrite Hi, <- app_assoc; reflexivity|]. split; assumption.
  Qed.

  (** The second phase: two rules proceed in lockstep. *)
  Lemma lockstep : forall ch1 E1 ch2 E2, rule ch1 E1 -> rule ch2 E2 ->
    forall ns r1 s1, walk ch1 E1 ns r1 s1 -> cyclic ns -> forall r2 s2, walk ch2 E2 ns r2 s2 -> r1 = r2 /\ s1 = s2.
  Proof.
    intros ch1 E1 ch2 E2 R1 R2 ns r1 s1 W. induction W as [ns HE|ns HE H0|ns ns' stop HE H0 W IH]; intros C r2 s2 W2.
    - destruct C as [C|(a & c & b & n & Hi & Ha & Hc)].
      + assert (X := r_zero _ _ R2 _ C). inversion W2; subst; try contradiction. auto.
      + destruct (r_cycle _ _ R1 _ _ _ _ _ Hi Ha Hc). contradiction.
    - destruct C as [C|(a & c & b & n & Hi & Ha & Hc)].
      + assert (X := r_zero _ _ R1 _ C). contradiction.
      + destruct (r_cycle _ _ R1 _ _ _ _ _ Hi Ha Hc) as [_ C1]. destruct (r_cycle _ _ R2 _ _ _ _ _ Hi Ha Hc) as [N2 C2].
        rewrite C1 in *. inversion W2 as [ns0 HE2|ns0 HE2 H02|ns0 ns1 st HE2 H02 W2']; subst; [contradiction| |].
        * rewrite C2. auto.
        * exfalso. rewrite C2 in H02. lra.
    - destruct C as [C|(a & c & b & n & Hi & Ha & Hc)].
      + assert (X := r_zero _ _ R1 _ C). contradiction.
      + destruct (r_cycle _ _ R1 _ _ _ _ _ Hi Ha Hc) as [_ C1]. destruct (r_cycle _ _ R2 _ _ _ _ _ Hi Ha Hc) as [N2 C2].
        rewrite C1 in *. inversion W2 as [ns0 HE2|ns0 HE2 H02|ns0 ns1 st HE2 H02 W2']; subst; [contradiction| |].
        * exfalso. rewrite C2 in H02. lra.
        * rewrite C2 in W2'. apply IH; [eapply cyclic_dec; eassumption|assumption].
  Qed.

  Lemma min_unique : forall n n' ns, min_is n ns -> min_is n' ns -> n = n'.
  Proof.
    intros n n' ns [A [j [Hj Ej]]] [A' [j' [Hj' Ej']]]. assert (X := A j' Hj'). assert (X' := A' j Hj). lia.
  Qed.

  Lemma min_exists : forall ns, exists n, min_is n ns.
  Proof.
    intros ns. unfold min_is, above. clear -NE. induction idx as [|i l IH]; [contradiction|].
    destruct l as [|i' l'].
    - exists (nth i ns 0%nat). split; [intros j [<-|[]]; lia|]. exists i. split; [left|]; reflexivity.
    - destruct IH as [n [A [k [Hk Ek]]]]; [discriminate|].
      destruct (le_lt_dec (nth i ns 0%nat) n) as [L|L].
      + exists (nth i ns 0%nat). split; [|exists i; split; [left|]; reflexivity].
        intros j [<-|Hj]; [lia|]. specialize (A j Hj). lia.
      + exists n. split; [intros j [<-|Hj]; [lia|auto]|]. exists k. split; [right; assumption|assumption].
  Qed.

  Lemma walk_le : forall ch E ns ns' stop, walk ch E ns ns' stop -> forall j, (nth j ns' 0 <= nth j ns 0)%nat.
  Proof.
    intros ch E ns ns' stop W. induction W as [| |ns ns' stop HE H0 W IH]; intros j; try lia.
    specialize (IH j). assert (X := nth_dec_le (ch ns) j ns). lia.
  Qed.

  (** If the price sum is still negative when all sizes are equal to the smallest one, the ends are the same. *)
  Theorem same_end : forall ch1 E1 ch2 E2 ns r1 s1 r2 s2, rule ch1 E1 -> rule ch2 E2 ->
    walk ch1 E1 ns r1 s1 -> walk ch2 E2 ns r2 s2 -> F ns < 0 ->
    (forall j, In j idx -> (0 < nth j ns 0)%nat) ->
    (forall n l, min_is n ns -> at_level n idx l -> F l < 0) ->
    r1 = r2 /\ s1 = s2.
  Proof.
    intros ch1 E1 ch2 E2 ns r1 s1 r2 s2 R1 R2 W1 W2 HF HP HL.
    destruct (min_exists ns) as [n Hn].
    assert (Pn : (0 < n)%nat) by (destruct Hn as [_ [j [Hj <-]]]; auto).
    assert (O : same_off ns ns) by (split; reflexivity).
    assert (NL : forall (l:list nat), at_level n idx l -> ~ 0 <= F l) by (intros l Hl; specialize (HL n l Hn Hl); lra).
    destruct (phase1 _ _ _ _ _ R1 W1 n ns Pn Hn O HF) as [[A1 B1]|[l1 [A1 [B1 [C1 D1]]]]];
    destruct (phase1 _ _ _ _ _ R2 W2 n ns Pn Hn O HF) as [[A2 B2]|[l2 [A2 [B2 [C2 D2]]]]].
    - exfalso. assert (X : exists l, at_level n idx l).
      { exists (repeat n (S (fold_right Nat.max 0%nat idx))). intros j Hj. apply nth_error_nth.
        assert (J : (j <= fold_right Nat.max 0 idx)%nat).
        { clear -Hj. induction idx as [|i l IH]; [destruct Hj|]. simpl. destruct Hj as [<-|Hj]; [lia|]. specialize (IH Hj). lia. }
        rewrite nth_error_nth' with (d := n) by (rewrite repeat_length; lia). f_equal. apply nth_repeat. }
      destruct X as [l Hl]. apply (NL l Hl). auto.
    - exfalso. apply (NL _ A2). auto.
    - exfalso. apply (NL _ A1). auto.
    - assert (l1 = l2) by (eapply level_unique; eassumption). subst l2.
      exact (lockstep _ _ _ _ R1 R2 _ _ _ D1 (level_cyclic _ _ A1) _ _ D2).
  Qed.
  Lemma walk_cases : forall ch E ns ns' stop, walk ch E ns ns' stop -> ~ E ns ->
    (0 <= F (dec (ch ns) ns) /\ ns' = ns) \/ (F (dec (ch ns) ns) < 0 /\ walk ch E (dec (ch ns) ns) ns' stop).
  Proof. intros ch E ns ns' stop W HE. inversion W; subst; [contradiction|left; auto|right; auto]. Qed.

  (** One round over all categories, from equal sizes. *)
  Lemma mid_cycle : forall ch E, rule ch E -> forall b a c n ns ns' stop, idx = a ++ c :: b -> a <> [] ->
    at_level n a ns -> at_level (S n) (c :: b) ns -> F ns < 0 -> walk ch E ns ns' stop ->
    (min_is n ns' /\ forall l, at_level n idx l -> 0 <= F l)
    \/ exists l, at_level n idx l /\ same_off l ns /\ F l < 0 /\ walk ch E l ns' stop.
  Proof.
    intros ch E R. induction b as [|c' b IH]; intros a c n ns ns' stop Hi Ha0 Ha Hc HF W;
      destruct (r_cycle _ _ R _ _ _ _ _ Hi Ha Hc) as [HE HC];
      assert (MI : min_is n ns)
        by (split; [intros j Hj; rewrite Hi in Hj; apply in_app_iff in Hj; destruct Hj as [Hj|Hj];
                    [rewrite (Ha j Hj); lia|rewrite (Hc j Hj); lia]
                   |destruct a as [|x a]; [contradiction|]; exists x; split;
                    [rewrite Hi; left; reflexivity|apply Ha; left; reflexivity]]);
      assert (Ic : In c idx) by (rewrite Hi; apply in_app_iff; right; left; reflexivity);
      assert (SO : same_off (dec c ns) ns) by (apply same_off_dec; [assumption|split; reflexivity]);
      assert (ND0 := ND); rewrite Hi in ND0; assert (ND' := NoDup_remove_2 _ _ _ ND0);
      assert (LE : forall l j, at_level n idx l -> In j idx -> (nth j l 0 <= nth j (dec c ns) 0)%nat)
        by (intros l j Hlv Hj; rewrite (Hlv j Hj); destruct (Nat.eq_dec c j) as [<-|Hne];
            [rewrite nth_dec_same, (Hc c (or_introl eq_refl)); lia
            |rewrite nth_dec_other by assumption; apply MI; assumption]);
      destruct (walk_cases _ _ _ _ _ W HE) as [[H02 ->]|[H02 W2]]; rewrite HC in H02;
      try (left; split; [assumption|]; intros l Hlv; eapply Qle_trans; [exact H02|]; apply Fmono; intros j Hj;
           apply LE; assumption); rewrite HC in W2.
    - right. exists (dec c ns). split; [|split; [assumption|split; assumption]].
      intros j Hj. rewrite Hi in Hj. apply in_app_iff in Hj. destruct Hj as [Hj|[<-|[]]].
      + rewrite nth_dec_other; [apply Ha; assumption|]. intros ->. apply ND'. apply in_app_iff. left. assumption.
      + rewrite nth_dec_same, (Hc c (or_introl eq_refl)). lia.
    - destruct (IH (a ++ [c]) c' n (dec c ns) ns' stop) as [X|[l [X1 [X2 [X3 X4]]]]]; auto.
      + rewrite Hi, <- app_assoc. reflexivity.
      + destruct a; discriminate.
      + intros j Hj. apply in_app_iff in Hj. destruct Hj as [Hj|[<-|[]]].
        * rewrite nth_dec_other; [apply Ha; assumption|]. intros ->. apply ND'. apply in_app_iff. left. assumption.
        * rewrite nth_dec_same, (Hc c (or_introl eq_refl)). lia.
      + intros j Hj. rewrite nth_dec_other; [apply Hc; right; assumption|]. intros ->. apply ND'. apply in_app_iff. right. assumption.
      + right. exists l. split; [assumption|]. split; [|split; assumption].
        destruct X2 as [L2 O2], SO as [L3 O3]. split; [congruence|]. intros j Hj. rewrite (O2 j Hj), (O3 j Hj). reflexivity.
  Qed.

  Lemma full_cycle : forall ch E, rule ch E -> forall c b n ns ns' stop, idx = c :: b ->
    at_level (S n) idx ns -> F ns < 0 -> walk ch E ns ns' stop ->
    (0 <= F (dec c ns) /\ ns' = ns)
    \/ (F (dec c ns) < 0 /\ ((min_is n ns' /\ forall l, at_level n idx l -> 0 <= F l)
        \/ exists l, at_level n idx l /\ same_off l ns /\ F l < 0 /\ walk ch E l ns' stop)).
  Proof.
    intros ch E R c b n ns ns' stop Hi HL HF W.
    destruct (r_cycle _ _ R ns [] c b n Hi) as [HE HC]; [intros j []|rewrite <- Hi; assumption|].
    assert (Ic : In c idx) by (rewrite Hi; left; reflexivity).
    assert (SO : same_off (dec c ns) ns) by (apply same_off_dec; [assumption|split; reflexivity]).
    destruct (walk_cases _ _ _ _ _ W HE) as [[H02 ->]|[H02 W2]]; rewrite HC in H02.
    - left. auto.
    - right. split; [assumption|]. rewrite HC in W2.
      assert (ND0 := ND). rewrite Hi in ND0. apply NoDup_cons_iff in ND0. destruct ND0 as [Nc _].
      assert (Dc : nth c (dec c ns) 0%nat = n) by (rewrite nth_dec_same, (HL c Ic); lia).
      destruct b as [|c' b].
      + right. exists (dec c ns). split; [|split; [assumption|split; assumption]].
        intros j Hj. rewrite Hi in Hj. destruct Hj as [<-|[]]. assumption.
      + destruct (mid_cycle ch E R b [c] c' n (dec c ns) ns' stop) as [X|[l [X1 [X2 [X3 X4]]]]]; auto.
        * discriminate.
        * intros j [<-|[]]. assumption.
        * intros j Hj. rewrite nth_dec_other; [apply HL; rewrite Hi; right; assumption|]. intros ->. contradiction.
        * right. exists l. split; [assumption|]. split; [|split; assumption].
          destruct X2 as [L2 O2], SO as [L3 O3]. split; [congruence|]. intros j Hj. rewrite (O2 j Hj), (O3 j Hj). reflexivity.
  Qed.
End Walks.

(** Two rules that go round the same categories in different orders, with the same first category. *)
Section Orders.
  Variables (F : list nat -> Q) (c : nat) (b1 b2 : list nat).
  Hypothesis ND1 : NoDup (c :: b1).
  Hypothesis PM : Permutation b1 b2.
  Hypothesis Fmono : forall ns ns', (forall j, In j (c :: b1) -> (nth j ns' 0 <= nth j ns 0)%nat) -> F ns <= F ns'.
  Variables (ch1 ch2 : list nat -> nat) (E1 E2 : list nat -> Prop).
  Hypothesis R1 : rule (c :: b1) ch1 E1.
  Hypothesis R2 : rule (c :: b2) ch2 E2.

  Let IFF : forall j, In j (c :: b1) <-> In j (c :: b2).
  Proof. intros j. split; apply Permutation_in; [apply perm_skip; exact PM|apply Permutation_sym, perm_skip; exact PM]. Qed.
  Let ND2 : NoDup (c :: b2).
  Proof. eapply Permutation_NoDup; [apply perm_skip; exact PM|exact ND1]. Qed.
  Let Fmono2 : forall ns ns', (forall j, In j (c :: b2) -> (nth j ns' 0 <= nth j ns 0)%nat) -> F ns <= F ns'.
  Proof. intros ns ns' H. apply Fmono. intros j Hj. apply H. apply IFF. exact Hj. Qed.
  Let LV : forall n l, at_level n (c :: b1) l <-> at_level n (c :: b2) l.
  Proof. intros n l. split; intros H j Hj; apply H, IFF; exact Hj. Qed.
  Let MN : forall n l, min_is (c :: b1) n l <-> min_is (c :: b2) n l.
  Proof.
    intros n l. split; intros [A [j [Hj E]]]; (split; [intros k Hk; apply A, IFF; exact Hk|exists j; split; [apply IFF; exact Hj|exact E]]).
  Qed.
  Let OF : forall n l, same_off (c :: b1) n l <-> same_off (c :: b2) n l.
  Proof. intros n l. split; intros [A O]; (split; [exact A|]); intros j Hj; apply O; intros X; apply Hj, IFF; exact X. Qed.

  Lemma level_walks : forall n ns r1 s1 r2 s2, at_level n (c :: b1) ns -> F ns < 0 ->
    walk F ch1 E1 ns r1 s1 -> walk F ch2 E2 ns r2 s2 ->
    forall d1 d2, min_is (c :: b1) d1 r1 -> min_is (c :: b2) d2 r2 -> d1 = d2.
  Proof.
    induction n as [|n IH]; intros ns r1 s1 r2 s2 HL HF W1 W2 d1 d2 M1 M2.
    - assert (X1 := r_zero _ _ _ R1 _ HL). assert (X2 := r_zero _ _ _ R2 _ (proj1 (LV _ _) HL)).
      inversion W1; subst; try contradiction. inversion W2; subst; try contradiction.
      apply MN in M2. eapply min_unique; eassumption.
    - apply MN in M2.
      destruct (full_cycle F _ ND1 Fmono _ _ R1 c b1 n ns r1 s1 eq_refl HL HF W1) as [[P1 ->]|[P1 [[A1 B1]|[l1 [A1 [O1 [C1 D1]]]]]]];
      destruct (full_cycle F _ ND2 Fmono2 _ _ R2 c b2 n ns r2 s2 eq_refl (proj1 (LV _ _) HL) HF W2) as [[P2 ->]|[P2 [[A2 B2]|[l2 [A2 [O2 [C2 D2]]]]]]];
      try lra.
      + eapply min_unique; eassumption.
      + apply MN in A2. rewrite (min_unique _ _ _ _ M1 A1), (min_unique _ _ _ _ M2 A2). reflexivity.
      + exfalso. apply LV in A2. specialize (B1 _ A2). lra.
      + exfalso. apply LV in A1. specialize (B2 _ A1). lra.
      + apply LV in A2. apply OF in O2. assert (l1 = l2) by (eapply level_unique; eassumption). subst l2.
        eapply IH; try eassumption. apply MN. assumption.
  Qed.

  Theorem same_min_orders : forall ns r1 s1 r2 s2, walk F ch1 E1 ns r1 s1 -> walk F ch2 E2 ns r2 s2 -> F ns < 0 ->
    forall d1 d2, min_is (c :: b1) d1 r1 -> min_is (c :: b2) d2 r2 -> d1 = d2.
  Proof.
    intros ns r1 s1 r2 s2 W1 W2 HF d1 d2 M1 M2.
    destruct (min_exists (c :: b1) ltac:(discriminate) ns) as [n Hn]. destruct n as [|n].
    - destruct Hn as [_ [j [Hj Ej]]]. assert (A := walk_le _ _ _ _ _ _ W1 j). assert (B := walk_le _ _ _ _ _ _ W2 j).
      assert (X := proj1 M1 j Hj). assert (Y := proj1 M2 j (proj1 (IFF j) Hj)). lia.
    - assert (O : same_off (c :: b1) ns ns) by (split; reflexivity).
      destruct (phase1 F _ Fmono _ _ _ _ _ R1 W1 (S n) ns (Nat.lt_0_succ n) Hn O HF) as [[A1 B1]|[l1 [A1 [O1 [C1 D1]]]]];
      destruct (phase1 F _ Fmono2 _ _ _ _ _ R2 W2 (S n) ns (Nat.lt_0_succ n) (proj1 (MN _ _) Hn) (proj1 (OF _ _) O) HF) as [[A2 B2]|[l2 [A2 [O2 [C2 D2]]]]].
      + apply MN in A2. apply MN in M2. rewrite (min_unique _ _ _ _ M1 A1), (min_unique _ _ _ _ M2 A2). reflexivity.
      + exfalso. apply LV in A2. specialize (B1 _ A2). lra.
      + exfalso. apply LV in A1. specialize (B2 _ A1). lra.
      + apply LV in A2. apply OF in O2. assert (l1 = l2) by (eapply level_unique; eassumption). subst l2.
        eapply level_walks; try eassumption.
  Qed.
End Orders.
