From Coq Require Import String List Arith Lia QArith Lqa Permutation Sorted Bool.
From Verif Require Import Base Model_Agents Model_Trade Model_Prices Spec_Trade.
Import ListNotations.
Open Scope Q_scope.

(** ** Number of deals *)

Lemma min_list_spec : forall l,
  match min_list l with
  | None => l = []
  | Some d => In d l /\ forall x, In x l -> (d <= x)%nat
  end.
Proof.
  induction l as [|x l IH]; simpl; [reflexivity|].
  destruct (min_list l) as [d|].
  - destruct IH as [IH1 IH2]. split.
    + destruct (Nat.min_spec x d) as [[_ ->]|[_ ->]]; auto.
    + intros y [<-|Hy]; [lia|]. apply IH2 in Hy. lia.
  - subst. split; [left; lia|]. intros y [<-|[]]. lia.
Qed.

Lemma combine_nth_error : forall A B (l1 : list A) (l2 : list B) i a b,
  nth_error (combine l1 l2) i = Some (a, b) <-> nth_error l1 i = Some a /\ nth_error l2 i = Some b.
Proof.
  induction l1; destruct l2; destruct i; simpl; intros; split; intro H; try discriminate;
    try (destruct H; discriminate).
  - inversion H; auto.
  - destruct H as [H1 H2]; inversion H1; inversion H2; auto.
  - apply IHl1; assumption.
  - apply IHl1; assumption.
Qed.

Lemma potential_In : forall cats recipe x, In x (potential_deals cats recipe) <->
  exists i c r, nth_error cats i = Some c /\ nth_error recipe i = Some r /\ (0 < r)%nat
    /\ x = (csize c / r)%nat.
Proof.
  intros cats recipe x. unfold potential_deals. rewrite in_map_iff. split.
  - intros [[c r] [<- H]]. apply filter_In in H. destruct H as [H1 H2]. simpl in *.
    apply Nat.ltb_lt in H2. apply In_nth_error in H1. destruct H1 as [i Hi].
    apply combine_nth_error in Hi. destruct Hi. exists i, c, r. auto.
  - intros [i [c [r [H1 [H2 [H3 ->]]]]]]. exists (c, r). split; [reflexivity|].
    apply filter_In. split.
    + apply nth_error_In with (n := i). apply combine_nth_error. auto.
    + simpl. apply Nat.ltb_lt. assumption.
Qed.

Lemma deals_max : forall cats recipe prices t, new_trade cats recipe prices = Ok t ->
  t = mkTrade cats recipe prices (tdeals t)
  /\ supports cats recipe (tdeals t)
  /\ forall n, supports cats recipe n -> (n <= tdeals t)%nat.
Proof.
  intros cats recipe prices t H. unfold new_trade in H.
  assert (S := min_list_spec (potential_deals cats recipe)).
  destruct (min_list (potential_deals cats recipe)) as [d|]; [|discriminate].
  inversion H; subst. simpl. split; [reflexivity|]. destruct S as [S1 S2]. split.
  - intros i c r Hc Hr. destruct r as [|r]; [lia|].
    assert (X : (d <= csize c / S r)%nat).
    { apply S2. apply potential_In. exists i, c, (S r). repeat split; auto; lia. }
    assert (Y := Nat.mul_div_le (csize c) (S r) ltac:(lia)). nia.
  - intros n Hn. apply potential_In in S1. destruct S1 as [i [c [r [Hc [Hr [Hp ->]]]]]].
    apply Nat.div_le_lower_bound; [lia|]. specialize (Hn i c r Hc Hr). lia.
Qed.

Lemma new_trade_error : forall cats recipe prices,
  (new_trade cats recipe prices = Raise ValueError <-> ~ some_positive cats recipe)
  /\ (forall e, new_trade cats recipe prices = Raise e -> e = ValueError)
  /\ new_trade cats recipe prices <> Timeout.
Proof.
  intros cats recipe prices. unfold new_trade.
  assert (S := min_list_spec (potential_deals cats recipe)).
  destruct (min_list (potential_deals cats recipe)) as [d|] eqn:E.
  - split; [split; [discriminate|]|split; [discriminate|discriminate]].
    intros H. exfalso. apply H. destruct S as [S _]. apply potential_In in S.
    destruct S as [i [c [r [H1 [H2 [H3 _]]]]]]. exists i, c, r. auto.
  - split; [split; [intros _|reflexivity]|split; [congruence|discriminate]].
    intros [i [c [r [H1 [H2 H3]]]]].
    assert (X : In (csize c / r)%nat (potential_deals cats recipe)).
    { apply potential_In. exists i, c, r. auto. }
    rewrite S in X. destruct X.
Qed.

Lemma new_trade_ok : forall cats recipe prices, some_positive cats recipe ->
  exists t, new_trade cats recipe prices = Ok t.
Proof.
  intros cats recipe prices H. destruct (new_trade_error cats recipe prices) as [H1 [H2 H3]].
  destruct (new_trade cats recipe prices) as [t|e|] eqn:E; [eauto| |congruence].
  exfalso. assert (e = ValueError) by auto. subst. apply H1; auto.
Qed.

(** ** Expectations *)

Section Choose.
  Context {A : Type}.

  Lemma choose_0 : forall l : list A, choose 0 l = [[]].
  Proof. destruct l; reflexivity. Qed.

  Lemma choose_length_indep : forall p (l : list A) B (l' : list B), length l = length l' ->
    length (choose p l) = length (choose p l').
  Proof.
    intros p l. revert p. induction l as [|a l IH]; intros p B [|b l'] H; simpl in H; try discriminate.
    - destruct p; reflexivity.
    - injection H as H. destruct p; [reflexivity|]. simpl.
      rewrite !app_length, !map_length. rewrite (IH p B l' H), (IH (S p) B l' H). reflexivity.
  Qed.

  Lemma choose_nil_pos : forall p, (0 < p)%nat -> choose p (@nil A) = [].
  Proof. destruct p; [lia|reflexivity]. Qed.

  Lemma choose_big : forall (l : list A) p, (length l < p)%nat -> choose p l = [].
  Proof.
    induction l as [|a l IH]; intros p H; destruct p; simpl in *; try lia; [reflexivity|].
    rewrite IH by lia. rewrite IH by lia. reflexivity.
  Qed.

  Lemma choose_nonempty : forall (l : list A) p, (p <= length l)%nat -> (0 < length (choose p l))%nat.
  Proof.
    induction l as [|a l IH]; intros p H; destruct p; simpl in *; try lia.
    rewrite app_length, map_length. assert (0 < length (choose p l))%nat by (apply IH; lia). lia.
  Qed.
End Choose.

(** Absorption: p * C(n,p) = n * C(n-1,p-1). *)
Lemma choose_absorb : forall (l : list Q) a p,
  (S p * length (choose (S p) (a :: l)) = S (length l) * length (choose p l))%nat.
Proof.
  induction l as [|b l IH]; intros a p.
  - simpl. destruct p; simpl; [reflexivity|]. lia.
  - destruct p as [|p].
    + specialize (IH b 0%nat). cbn [choose]. rewrite app_length, map_length.
      rewrite choose_0. simpl length at 1. cbn [choose] in IH.
      rewrite choose_0 in IH. rewrite app_length, map_length in IH. simpl length in IH.
      simpl length. lia.
    + pose proof (IH b p) as I1. pose proof (IH b (S p)) as I2.
      assert (E : length (choose (S (S p)) (a :: b :: l))
                  = (length (choose (S p) (b :: l)) + length (choose (S (S p)) (b :: l)))%nat).
      { cbn [choose]. rewrite app_length, map_length. reflexivity. }
      assert (E2 : length (choose (S p) (b :: l)) = (length (choose p l) + length (choose (S p) l))%nat).
      { cbn [choose]. rewrite app_length, map_length. reflexivity. }
      rewrite E. change (length (b :: l)) with (S (length l)). rewrite E2 in *.
      set (X := length (choose p l)) in *. set (Y := length (choose (S p) l)) in *.
      set (Z := length (choose (S (S p)) (b :: l))) in *. set (n := length l) in *.
      clearbody X Y Z n. clear E E2 IH. nia.
Qed.

Definition sums (p : nat) (l : list Q) : Q := Qsum (map Qsum (choose p l)).

Lemma Qsum_map_cons_sum : forall a ll,
  Qsum (map Qsum (map (cons a) ll)) == Qn (length ll) * a + Qsum (map Qsum ll).
Proof.
  induction ll as [|l ll IH]; [simpl; rewrite Qn_0; ring|].
  cbn [map]. rewrite Qsum_cons, Qsum_cons, Qsum_cons, IH. simpl length. rewrite Qn_S. ring.
Qed.

Lemma sums_cons : forall p a l,
  sums (S p) (a :: l) == Qn (length (choose p l)) * a + sums p l + sums (S p) l.
Proof.
  intros. unfold sums. cbn [choose]. rewrite map_app, Qsum_app, Qsum_map_cons_sum. reflexivity.
Qed.

Lemma choose_length_cons : forall p (a : Q) l,
  length (choose (S p) (a :: l)) = (length (choose p l) + length (choose (S p) l))%nat.
Proof. intros. cbn [choose]. rewrite app_length, map_length. reflexivity. Qed.

(** Each member occurs in C(n-1,p-1) of the choices. *)
Lemma sums_spec : forall l a p, sums (S p) (a :: l) == Qsum (a :: l) * Qn (length (choose p l)).
Proof.
  induction l as [|b l IH]; intros a p.
  - rewrite sums_cons. unfold sums. destruct p; simpl; ring.
  - rewrite sums_cons, IH. destruct p as [|p].
    + unfold sums. rewrite !choose_0. simpl. ring.
    + rewrite IH, (choose_length_cons p b l), Qn_plus. rewrite (Qsum_cons a). ring.
Qed.

Lemma sums_average : forall l p, (p <= length l)%nat -> (0 < length l)%nat ->
  sums p l / Qn (length (choose p l)) == Qsum l * (Qn p / Qn (length l)).
Proof.
  intros l p Hp Hl. destruct l as [|a l]; [simpl in Hl; lia|].
  destruct p as [|p].
  - unfold sums. simpl. rewrite Qn_0. unfold Qdiv. ring.
  - rewrite sums_spec.
    assert (H1 := choose_absorb l a p).
    assert (H2 : 0 < Qn (length (choose (S p) (a :: l)))) by (apply Qn_pos, choose_nonempty; assumption).
    assert (H3 : 0 < Qn (length (a :: l))) by (apply Qn_pos; assumption).
    assert (H4 : Qn (S p) * Qn (length (choose (S p) (a :: l))) == Qn (length (a :: l)) * Qn (length (choose p l))).
    { rewrite <- !Qn_mult. apply Qn_eq. exact H1. }
    set (N := Qn (length (choose (S p) (a :: l)))) in *.
    set (K := Qn (length (a :: l))) in *.
    set (c := Qn (length (choose p l))) in *.
    set (s := Qsum (a :: l)). set (q := Qn (S p)) in *.
    assert (E : s * (q / K) == s * (q * N) / (K * N)) by (field; split; lra).
    rewrite E, H4. field. split; lra.
Qed.

(** Cartesian products. *)
Lemma cart_cons : forall A (l : list A) ll, cart (l :: ll) = flat_map (fun x => map (cons x) (cart ll)) l.
Proof. reflexivity. Qed.

Lemma cart_length : forall A (ll : list (list A)) l,
  length (cart (l :: ll)) = (length l * length (cart ll))%nat.
Proof.
  intros A ll l. rewrite cart_cons. induction l as [|x l IH]; [reflexivity|].
  cbn [flat_map]. rewrite app_length, map_length, IH. simpl. lia.
Qed.

Lemma cart_nonempty : forall A (ll : list (list A)), Forall (fun l => (0 < length l)%nat) ll ->
  (0 < length (cart ll))%nat.
Proof.
  intros A ll H. induction H; [simpl; lia|]. rewrite cart_length. nia.
Qed.

Lemma Qsum_map_cons_gen : forall A (f : A -> Q) x (ll : list (list A)),
  Qsum (map (fun o => Qsum (map f o)) (map (cons x) ll))
  == Qn (length ll) * f x + Qsum (map (fun o => Qsum (map f o)) ll).
Proof.
  induction ll as [|l ll IH]; [simpl; rewrite Qn_0; ring|].
  cbn [map]. rewrite !Qsum_cons, IH. simpl length. rewrite Qn_S. ring.
Qed.

Lemma cart_sum : forall A (f : A -> Q) (l : list A) ll,
  Qsum (map (fun o => Qsum (map f o)) (cart (l :: ll)))
  == Qn (length (cart ll)) * Qsum (map f l)
     + Qn (length l) * Qsum (map (fun o => Qsum (map f o)) (cart ll)).
Proof.
  intros A f l ll. rewrite cart_cons. induction l as [|x l IH].
  - simpl. rewrite Qn_0. ring.
  - cbn [flat_map map]. rewrite map_app, Qsum_app, IH, Qsum_map_cons_gen, Qsum_cons.
    simpl length. rewrite Qn_S. ring.
Qed.

Lemma cart_average : forall A (f : A -> Q) (l : list A) ll,
  (0 < length l)%nat -> (0 < length (cart ll))%nat ->
  average (map (fun o => Qsum (map f o)) (cart (l :: ll)))
  == average (map f l) + average (map (fun o => Qsum (map f o)) (cart ll)).
Proof.
  intros A f l ll H1 H2. unfold average. rewrite !map_length, cart_sum, cart_length, Qn_mult.
  assert (0 < Qn (length l)) by (apply Qn_pos; assumption).
  assert (0 < Qn (length (cart ll))) by (apply Qn_pos; assumption).
  field. split; lra.
Qed.

(** ** gain_from_trade *)

(** The expected value of the categories from position [i] on. *)
Lemma gain_loop_spec : forall t z cats i g,
  (forall j c r, nth_error cats j = Some c -> nth_error (trecipe t) (i + j) = Some r -> (tdeals t * r <= csize c)%nat) ->
  gain_loop t z i cats = Ok g ->
  exists prices rec,
    length rec = length cats /\ (forall j r, nth_error rec j = Some r -> nth_error (trecipe t) (i + j) = Some r) /\
    length prices = length cats /\
    (forall j p, nth_error prices j = Some p -> exists ps, tprices t = Some ps /\ nth_error ps (i + j) = Some p) /\
    g == average (map (fun o => Qsum (map Qsum o))
           (cart (map (fun p => choose (snd p * tdeals t) (cvalues (fst p))) (combine cats rec))))
         - (if z then 0 else Qn (tdeals t) * dot prices rec).
Proof.
  intros t z cats. induction cats as [|c cats IH]; intros i g Hs H.
  - simpl in H. inversion H; subst. exists [], []. simpl.
    split; [reflexivity|]. split; [intros [|j]; discriminate|]. split; [reflexivity|].
    split; [intros [|j]; discriminate|].
    unfold average. simpl. destruct z; rewrite ?Qmult_0_r; reflexivity.
  - simpl in H. apply bind_Ok in H. destruct H as [g1 [H1 H]].
    apply bind_Ok in H. destruct H as [g2 [H2 H]]. inversion H; subst. clear H.
    assert (Hs' : forall j c r, nth_error cats j = Some c -> nth_error (trecipe t) (S i + j) = Some r ->
              (tdeals t * r <= csize c)%nat).
    { intros j c' r Hc Hr. apply (Hs (S j)); [assumption|]. rewrite Nat.add_succ_r. assumption. }
    destruct (IH (S i) g2 Hs' H2) as [prices [rec [L1 [R1 [L2 [R2 E]]]]]].
    unfold gain_of_category in H1. apply bind_Ok in H1. destruct H1 as [r [Hr H1]].
    apply get_Ok in Hr. destruct (Nat.eqb_spec (csize c) 0) as [Hz|Hz]; [discriminate|].
    apply bind_Ok in H1. destruct H1 as [p [Hp H1]]. inversion H1; subst. clear H1.
    exists (p :: prices), (r :: rec). simpl length. split; [lia|]. split.
    { intros [|j] r' Hj; simpl in Hj.
      - inversion Hj; subst. rewrite Nat.add_0_r. assumption.
      - rewrite Nat.add_succ_r. apply R1. assumption. }
    split; [lia|]. split.
    { intros [|j] p' Hj; simpl in Hj.
      - inversion Hj; subst. unfold price_at in Hp. destruct (tprices t) as [ps|]; [|discriminate].
        exists ps. rewrite Nat.add_0_r. apply get_Ok in Hp. auto.
      - rewrite Nat.add_succ_r. apply R2. assumption. }
    cbn [combine map].
    assert (Hp1 : (r * tdeals t <= length (cvalues c))%nat).
    { specialize (Hs 0%nat c r eq_refl). rewrite Nat.add_0_r in Hs. specialize (Hs Hr). unfold csize in Hs. lia. }
    assert (Hne : Forall (fun l => (0 < length l)%nat)
       (map (fun p => choose (snd p * tdeals t) (cvalues (fst p))) (combine cats rec))).
    { apply Forall_forall. intros l Hl. apply in_map_iff in Hl. destruct Hl as [[c' r'] [<- Hin]].
      apply In_nth_error in Hin. destruct Hin as [j Hj]. apply combine_nth_error in Hj.
      destruct Hj as [Hc' Hr']. simpl. apply choose_nonempty.
      assert (X := Hs' j c' r' Hc' (R1 _ _ Hr')). unfold csize in X. lia. }
    rewrite (cart_average _ Qsum); [|apply choose_nonempty; assumption|apply cart_nonempty; assumption].
    assert (Ea : average (map Qsum (choose (r * tdeals t) (cvalues c)))
                 == Qsum (cvalues c) * (Qn (r * tdeals t) / Qn (csize c))).
    { unfold average. rewrite map_length.
      change (Qsum (map Qsum (choose (r * tdeals t) (cvalues c)))) with (sums (r * tdeals t) (cvalues c)).
      unfold csize. apply sums_average; [assumption|unfold csize in Hz; lia]. }
    cbn [fst snd]. rewrite Ea.
    cbn [dot]. destruct z.
    + rewrite E. ring.
    + rewrite E. rewrite (Qn_mult r (tdeals t)). ring.
Qed.

Lemma nth_error_ext : forall A (l l' : list A), length l = length l' ->
  (forall i a, nth_error l i = Some a -> nth_error l' i = Some a) -> l = l'.
Proof.
  induction l as [|a l IH]; intros [|b l'] Hl H; simpl in Hl; try discriminate; [reflexivity|].
  f_equal.
  - specialize (H 0%nat a eq_refl). simpl in H. congruence.
  - apply IH; [lia|]. intros i x Hx. apply (H (S i)). assumption.
Qed.

Lemma expected_zero : forall l : list (category * nat),
  average (map (fun o => Qsum (map Qsum o)) (cart (map (fun p => choose (snd p * 0) (cvalues (fst p))) l))) == 0.
Proof.
  intros l. rewrite (map_ext _ (fun _ => [[]])).
  2:{ intros p. rewrite Nat.mul_0_r. apply choose_0. }
  induction l as [|x l IH]; [reflexivity|].
  change (map (fun _ : category * nat => [[]]) (x :: l)) with (@cons (list (list Q)) [[]] (map (fun _ : category * nat => [[]]) l)).
  rewrite (cart_average _ Qsum).
  - rewrite IH. reflexivity.
  - simpl. lia.
  - apply cart_nonempty. apply Forall_forall. intros y Hy. apply in_map_iff in Hy.
    destruct Hy as [_ [<- _]]. simpl. lia.
Qed.

Lemma gain_expected : forall cats recipe prices t z g,
  length cats = length recipe -> length prices = length recipe ->
  new_trade cats recipe (Some prices) = Ok t ->
  gain_from_trade t z = Ok g ->
  g == expected_value t - (if z then 0 else Qn (num_of_deals t) * dot prices recipe).
Proof.
  intros cats recipe prices t z g Hl Hl' Ht Hg.
  apply deals_max in Ht. destruct Ht as [Et [Hs _]]. unfold gain_from_trade in Hg.
  rewrite Et in *. cbn [tdeals tcats trecipe tprices] in *. unfold num_of_deals, expected_value, outcomes.
  cbn [tdeals tcats trecipe tprices].
  set (d := tdeals t) in *. clearbody d. clear Et t.
  destruct (Nat.eqb_spec d 0) as [Hd|Hd].
  - inversion Hg; subst. rewrite expected_zero. destruct z; rewrite ?Qn_0; ring.
  - destruct (gain_loop_spec (mkTrade cats recipe (Some prices) d) z cats 0 g) as [ps [rec [L1 [R1 [L2 [R2 E]]]]]].
    + cbn [tdeals trecipe]. intros j c r Hc Hr. apply (Hs j); assumption.
    + exact Hg.
    + cbn [tdeals trecipe tprices] in *.
      assert (rec = recipe) by (apply nth_error_ext; [lia|exact R1]).
      assert (ps = prices).
      { apply nth_error_ext; [lia|]. intros j p Hp. destruct (R2 j p Hp) as [ps' [E1 E2]].
        inversion E1; subst. assumption. }
      subst. rewrite E. reflexivity.
Qed.

Lemma gain_loop_raises : forall t z cats i,
  (forall j, (j < length cats)%nat -> exists r, nth_error (trecipe t) (i + j) = Some r) ->
  (exists ps, tprices t = Some ps /\ forall j, (j < length cats)%nat -> exists p, nth_error ps (i + j) = Some p) ->
  (Exists (fun c => cvalues c = []) cats -> gain_loop t z i cats = Raise ZeroDivisionError)
  /\ (~ Exists (fun c => cvalues c = []) cats -> exists g, gain_loop t z i cats = Ok g).
Proof.
  intros t z cats. induction cats as [|c cats IH]; intros i H1 [ps [Eps H2]].
  - split; intros H; [inversion H|]. simpl. eauto.
  - destruct (IH (S i)) as [I1 I2].
    { intros j Hj. destruct (H1 (S j)) as [r Hr]; [simpl; lia|]. exists r. rewrite Nat.add_succ_r in Hr. assumption. }
    { exists ps. split; [assumption|]. intros j Hj. destruct (H2 (S j)) as [p Hp]; [simpl; lia|].
      exists p. rewrite Nat.add_succ_r in Hp. assumption. }
    destruct (H1 0%nat) as [r Hr]; [simpl; lia|]. rewrite Nat.add_0_r in Hr.
    destruct (H2 0%nat) as [p Hp]; [simpl; lia|]. rewrite Nat.add_0_r in Hp.
    simpl. unfold gain_of_category, price_at. rewrite Eps.
    apply get_Ok in Hr. apply get_Ok in Hp. rewrite Hr, Hp. simpl. unfold csize.
    destruct (cvalues c) as [|v l] eqn:Ev; simpl.
    + split; intros H; [reflexivity|]. exfalso. apply H. left. assumption.
    + split; intros H.
      * inversion H; subst; [congruence|]. rewrite I1 by assumption. reflexivity.
      * destruct I2 as [g Hg]; [intros X; apply H; right; assumption|]. rewrite Hg. simpl. eauto.
Qed.

Lemma gain_raises : forall cats recipe prices t z,
  length cats = length recipe -> length prices = length recipe ->
  new_trade cats recipe (Some prices) = Ok t ->
  (forall e, gain_from_trade t z = Raise e <->
     e = ZeroDivisionError /\ num_of_deals t <> 0%nat /\ Exists (fun c => cvalues c = []) cats)
  /\ gain_from_trade t z <> Timeout.
Proof.
  intros cats recipe prices t z Hl Hl' Ht.
  apply deals_max in Ht. destruct Ht as [Et _]. unfold gain_from_trade, num_of_deals.
  rewrite Et. cbn [tdeals tcats trecipe tprices]. set (d := tdeals t). clearbody d. clear Et t.
  destruct (Nat.eqb_spec d 0) as [Hd|Hd].
  - split; [|discriminate]. intros e. split; [discriminate|]. intros [_ [H _]]. contradiction.
  - destruct (gain_loop_raises (mkTrade cats recipe (Some prices) d) z cats 0) as [I1 I2].
    + cbn [trecipe]. intros j Hj. destruct (nth_error recipe (0 + j)) eqn:E; [eauto|].
      apply nth_error_None in E. lia.
    + cbn [tprices]. exists prices. split; [reflexivity|]. intros j Hj.
      destruct (nth_error prices (0 + j)) eqn:E; [eauto|]. apply nth_error_None in E. lia.
    + destruct (Exists_dec (fun c => cvalues c = []) cats) as [X|X].
      { intros c. destruct (cvalues c); [left; reflexivity|right; discriminate]. }
      * rewrite (I1 X). split; [|discriminate]. intros e; split.
        -- intros H; inversion H; auto.
        -- intros [-> _]; reflexivity.
      * destruct (I2 X) as [g Hg]. rewrite Hg. split; [|discriminate]. intros e; split; [discriminate|].
        intros [_ [_ H]]. contradiction.
Qed.
