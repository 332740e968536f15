(** * Rounding (for C66 - C68) *)

From Coq Require Import List Arith Lia ZArith QArith Qround Lqa Bool.
From Verif Require Import Base Model_Experiment.
Import ListNotations.
Open Scope Q_scope.

Lemma floor_bounds : forall q, inject_Z (Qfloor q) <= q < inject_Z (Qfloor q) + 1.
Proof.
  intros q. split; [apply Qfloor_le|]. pose proof (Qlt_floor q) as H. rewrite inject_Z_plus in H. exact H.
Qed.

Lemma floor_unique : forall q z, inject_Z z <= q -> q < inject_Z z + 1 -> Qfloor q = z.
Proof.
  intros q z A B. destruct (floor_bounds q) as [C D].
  assert (X : inject_Z (Qfloor q) < inject_Z (z + 1)) by (rewrite inject_Z_plus; change (inject_Z 1) with 1; lra).
  assert (Y : inject_Z z < inject_Z (Qfloor q + 1)) by (rewrite inject_Z_plus; change (inject_Z 1) with 1; lra).
  rewrite <- Zlt_Qlt in X, Y. lia.
Qed.

(** The three cases of rounding. *)
Lemma py_round_cases : forall q, let f := Qfloor q in let d := q - inject_Z f in
  (py_round q = f /\ d < 1 # 2) \/ (py_round q = (f + 1)%Z /\ 1 # 2 < d)
  \/ (d == 1 # 2 /\ py_round q = (if Z.even f then f else (f + 1)%Z)).
Proof.
  intros q f d. unfold py_round. fold f. fold d.
  destruct (Qlt_bool_reflect d (1 # 2)); [left; auto|]. destruct (Qlt_bool_reflect (1 # 2) d); [right; left; auto|].
  right; right. split; [lra|reflexivity].
Qed.

Lemma inj_S : forall z, inject_Z (z + 1) == inject_Z z + 1.
Proof. intros z. rewrite inject_Z_plus. reflexivity. Qed.

Lemma py_round_near : forall q, q - (1 # 2) <= inject_Z (py_round q) <= q + (1 # 2).
Proof.
  intros q. pose proof (floor_bounds q) as [A B].
  destruct (py_round_cases q) as [[E D]|[[E D]|[D E]]]; rewrite E.
  - split; lra.
  - rewrite inj_S. split; lra.
  - destruct (Z.even _); [|rewrite inj_S]; split; lra.
Qed.

Lemma py_round_range : forall q, (Qfloor q <= py_round q <= Qfloor q + 1)%Z.
Proof.
  intros q. destruct (py_round_cases q) as [[E _]|[[E _]|[_ E]]]; rewrite E; try lia. destruct (Z.even _); lia.
Qed.

Lemma py_round_mono : forall a b, a <= b -> (py_round a <= py_round b)%Z.
Proof.
  intros a b H. pose proof (Qfloor_resp_le a b H) as F.
  destruct (Z.eq_dec (Qfloor a) (Qfloor b)) as [E|E].
  - destruct (py_round_cases a) as [[Ea Da]|[[Ea Da]|[Da Ea]]]; destruct (py_round_cases b) as [[Eb Db]|[[Eb Db]|[Db Eb]]];
      rewrite Ea, Eb; rewrite E in *; try lia; try (destruct (Z.even _); lia); exfalso; lra.
  - pose proof (py_round_range a). pose proof (py_round_range b). lia.
Qed.

Lemma py_round_int : forall z, py_round (inject_Z z) = z.
Proof.
  intros z. assert (F : Qfloor (inject_Z z) = z) by apply Qfloor_Z.
  destruct (py_round_cases (inject_Z z)) as [[E D]|[[E D]|[D E]]]; rewrite F in *; auto; exfalso; lra.
Qed.

Lemma py_round_eq : forall a b, a == b -> py_round a = py_round b.
Proof. intros a b H. apply Z.le_antisymm; apply py_round_mono; lra. Qed.

Lemma py_round_shift : forall q z, py_round (q + inject_Z (2 * z)) = (py_round q + 2 * z)%Z.
Proof.
  intros q z. pose proof (floor_bounds q) as [A B].
  assert (F : Qfloor (q + inject_Z (2 * z)) = (Qfloor q + 2 * z)%Z).
  { apply floor_unique; rewrite inject_Z_plus; lra. }
  assert (X : q + inject_Z (2 * z) - inject_Z (Qfloor q + 2 * z) == q - inject_Z (Qfloor q)).
  { rewrite inject_Z_plus. lra. }
  destruct (py_round_cases (q + inject_Z (2 * z))) as [[E D]|[[E D]|[D E]]]; rewrite F in *; rewrite X in D; rewrite E;
    destruct (py_round_cases q) as [[E' D']|[[E' D']|[D' E']]]; rewrite E'; try (exfalso; lra); try lia.
  rewrite Z.even_add, Z.even_mul. simpl Z.even at 2. simpl. destruct (Z.even (Qfloor q)); simpl; lia.
Qed.

(** [round(q, 2)] *)
Lemma div100 : forall a b, a <= b -> a / 100 <= b / 100.
Proof. intros a b H. unfold Qdiv. apply Qmult_le_compat_r; [assumption|]. unfold Qle; simpl; lia. Qed.

Lemma round2_mono : forall a b, a <= b -> py_round2 a <= py_round2 b.
Proof.
  intros a b H. unfold py_round2. apply div100. rewrite <- Zle_Qle. apply py_round_mono.
  apply Qmult_le_compat_r; [assumption|]. unfold Qle; simpl; lia.
Qed.

Lemma round2_eq : forall a b, a == b -> py_round2 a == py_round2 b.
Proof. intros a b H. apply Qle_antisym; apply round2_mono; lra. Qed.

Lemma d100 : forall a, a / 100 == a * (1 # 100).
Proof. intros a. unfold Qdiv. reflexivity. Qed.

Lemma round2_near : forall q, q - (1 # 200) <= py_round2 q <= q + (1 # 200).
Proof. intros q. unfold py_round2. rewrite d100. pose proof (py_round_near (q * 100)). lra. Qed.

Lemma round2_int : forall z, py_round2 (inject_Z z) == inject_Z z.
Proof.
  intros z. unfold py_round2. rewrite d100.
  replace (py_round (inject_Z z * 100)) with (z * 100)%Z; [rewrite inject_Z_mult; change (inject_Z 100) with 100; lra|].
  rewrite <- (py_round_int (z * 100)). apply py_round_eq. rewrite inject_Z_mult. reflexivity.
Qed.

Lemma round2_pred : forall q, py_round2 (q - 1) == py_round2 q - 1.
Proof.
  intros q. unfold py_round2. rewrite !d100.
  rewrite (py_round_eq ((q - 1) * 100) (q * 100 + inject_Z (2 * -50))).
  - rewrite py_round_shift, inject_Z_plus. change (inject_Z (2 * -50)) with (- (100)). lra.
  - change (inject_Z (2 * -50)) with (- (100)). lra.
Qed.

Lemma round2_0 : py_round2 0 == 0. Proof. exact (round2_int 0). Qed.

(** [int(q)] for q >= 0 *)
Lemma py_int_floor : forall q, 0 <= q -> py_int q = Qfloor q.
Proof. intros q H. unfold py_int. apply Qle_bool_iff in H. rewrite H. reflexivity. Qed.

Lemma py_round_within : forall x lo hi, inject_Z lo <= x <= inject_Z hi -> (lo <= py_round x <= hi)%Z.
Proof.
  intros x lo hi [A B]. apply py_round_mono in A, B. rewrite py_round_int in A, B. lia.
Qed.
