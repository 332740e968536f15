From Coq Require Import List Arith Lia QArith Lqa Bool.
From Verif Require Import Base Model_Prices.
Import ListNotations.
Open Scope Q_scope.

Lemma dot_set_nth : forall i x ps rec r p,
  nth_error ps i = Some p -> nth_error rec i = Some r ->
  dot (set_nth i x ps) rec == dot ps rec + Qn r * (x - p).
Proof.
  induction i; intros x ps rec r p Hp Hr; destruct ps as [|a ps]; destruct rec as [|b rec];
    simpl in *; try discriminate.
  - inversion Hp; inversion Hr; subst. ring.
  - rewrite (IHi x ps rec r p Hp Hr). ring.
Qed.

(** C09 *)
Lemma increase_spec : forall pv i new bound r p,
  nth_error (pv_recipe pv) i = Some r -> nth_error (pv_prices pv) i = Some p ->
  let target_sum := dot (set_nth i new (pv_prices pv)) (pv_recipe pv) in
  match increase_price_up_to_balance pv i new bound with
  | Ok pv' =>
      pv_recipe pv' = pv_recipe pv
      /\ length (pv_prices pv') = length (pv_prices pv)
      /\ (forall j, j <> i -> nth_error (pv_prices pv') j = nth_error (pv_prices pv) j)
      /\ price_sum pv' <= bound
      /\ ((bound <= target_sum /\ pv_status pv' = Some STOPPED_AT_ZERO_SUM
           /\ price_sum pv' == bound)
          \/ (target_sum < bound /\ pv_status pv' = Some STOPPED_AT_AGENT_VALUE
              /\ nth_error (pv_prices pv') i = Some new))
  | Raise e => e = ZeroDivisionError /\ r = 0%nat /\ bound <= price_sum pv
  | Timeout => False
  end.
Proof.
  intros pv i new bound r p Hr Hp target_sum.
  assert (Ei : (i < length (pv_prices pv))%nat) by (apply nth_error_Some; congruence).
  assert (Et : target_sum == price_sum pv + Qn r * (new - p)) by (apply dot_set_nth; assumption).
  unfold increase_price_up_to_balance, price_sum_without_category.
  pose proof (proj2 (get_Ok _ _ _ _) Hr) as Gr. pose proof (proj2 (get_Ok _ _ _ _) Hp) as Gp.
  rewrite Gr, Gp. simpl bind.
  destruct (Qle_bool_reflect bound (price_sum pv - Qn r * p + Qn r * new)) as [Hle|Hle].
  - destruct (Nat.eqb_spec r 0) as [Hz|Hz].
    + subst r. rewrite Qn_0 in Hle. repeat split; auto. lra.
    + simpl. assert (Hn : 0 < Qn r) by (apply Qn_pos; lia).
      set (x := (bound - (price_sum pv - Qn r * p)) / Qn r).
      assert (Es : price_sum (mkPV (pv_recipe pv) (set_nth i x (pv_prices pv)) (Some STOPPED_AT_ZERO_SUM)) == bound).
      { unfold price_sum at 1. simpl. rewrite (dot_set_nth i x _ _ r p Hp Hr).
        change (dot (pv_prices pv) (pv_recipe pv)) with (price_sum pv).
        unfold x. field. lra. }
      split; [reflexivity|]. split; [apply set_nth_length|].
      split; [intros j Hj; apply set_nth_other; auto|].
      split; [rewrite Es; lra|]. left. split; [lra|]. split; [reflexivity|exact Es].
  - simpl. split; [reflexivity|]. split; [apply set_nth_length|].
    split; [intros j Hj; apply set_nth_other; auto|].
    assert (Es : price_sum (mkPV (pv_recipe pv) (set_nth i new (pv_prices pv)) (Some STOPPED_AT_AGENT_VALUE)) == target_sum) by reflexivity.
    split; [rewrite Es; lra|]. right. split; [lra|]. split; [reflexivity|].
    apply set_nth_same; assumption.
Qed.

Lemma increase_range : forall pv i new bound,
  (length (pv_recipe pv) <= i \/ length (pv_prices pv) <= i)%nat ->
  increase_price_up_to_balance pv i new bound = Raise IndexError.
Proof.
  intros pv i new bound H. unfold increase_price_up_to_balance, price_sum_without_category, get.
  destruct (nth_error (pv_recipe pv) i) eqn:E1; [|reflexivity].
  destruct (nth_error (pv_prices pv) i) eqn:E2; [|reflexivity].
  exfalso. assert (i < length (pv_recipe pv))%nat by (apply nth_error_Some; congruence).
  assert (i < length (pv_prices pv))%nat by (apply nth_error_Some; congruence). lia.
Qed.

(** A price below its target is never lowered, if the sum starts at or below the bound. *)
Lemma increase_monotone : forall pv i new bound r p pv',
  nth_error (pv_recipe pv) i = Some r -> nth_error (pv_prices pv) i = Some p ->
  price_sum pv <= bound -> p <= new ->
  increase_price_up_to_balance pv i new bound = Ok pv' ->
  exists p', nth_error (pv_prices pv') i = Some p' /\ p <= p' <= new.
Proof.
  intros pv i new bound r p pv' Hr Hp Hb Hn H.
  assert (Ei : (i < length (pv_prices pv))%nat) by (apply nth_error_Some; congruence).
  unfold increase_price_up_to_balance, price_sum_without_category in H.
  pose proof (proj2 (get_Ok _ _ _ _) Hr) as Gr. pose proof (proj2 (get_Ok _ _ _ _) Hp) as Gp.
  rewrite Gr, Gp in H. simpl in H.
  destruct (Qle_bool_reflect bound (price_sum pv - Qn r * p + Qn r * new)) as [Hle|Hle].
  - destruct (Nat.eqb_spec r 0) as [Hz|Hz]; [discriminate|]. inversion H; subst; clear H. simpl.
    assert (Hq : 0 < Qn r) by (apply Qn_pos; lia).
    eexists. split; [apply set_nth_same; assumption|]. split.
    + apply Qle_shift_div_l; lra.
    + apply Qle_shift_div_r; lra.
  - inversion H; subst; clear H. simpl. exists new. split; [apply set_nth_same; assumption|]. lra.
Qed.
