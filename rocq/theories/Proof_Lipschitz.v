(** * Small changes of the values (C113) *)

From Coq Require Import String List Arith Lia QArith Qabs Lqa Permutation Sorted.
From Verif Require Import Base Model_Agents Model_Prices Model_Trade Model_Market Model_Ascending Model_TradeReduction
  Spec_Market Spec_Trade Spec_Ascending Spec_TradeReduction Spec_Reorder Spec_Lipschitz Proof_Market Proof_Ascending
  Proof_Ascending2 Proof_Ascending3 Proof_Ascending4 Proof_Statics Proof_TR Proof_TR2 Proof_TA10 Proof_Better Proof_Better2 Proof_TA7 Proof_TR5.
Import ListNotations.
Open Scope Q_scope.

Lemma used_search : forall recipe (f g : nat -> Q), (exists k, used_by recipe k /\ g k < f k) \/ (forall k, used_by recipe k -> f k <= g k).
Proof.
  intros recipe f g.
  assert (D : forall l : list nat, (exists k, used_by recipe k /\ g k < f k) \/ (forall k, In k l -> used_by recipe k -> f k <= g k)).
  { induction l as [|a l IH]; [right; intros k []|]. destruct IH as [X|IH]; [left; assumption|].
    destruct (Qlt_le_dec (g a) (f a)) as [X|X].
    - destruct (lt_dec a (length recipe)) as [X1|X1]; [destruct (lt_dec 0 (nth a recipe 0%nat)) as [X2|X2]|].
      + left. exists a. split; [split; assumption|assumption].
      + right. intros k [<-|Hk] U; [destruct U; lia|auto].
      + right. intros k [<-|Hk] U; [destruct U; lia|auto].
    - right. intros k [<-|Hk] U; [assumption|auto]. }
  destruct (D (seq 0 (length recipe))) as [X|X]; [left; assumption|right]. intros k U. apply X; [|assumption]. apply in_seq. destruct U. lia.
Qed.

Lemma wdot_plus : forall f e recipe, wdot (fun j => f j + e) recipe == wdot f recipe + e * Qn (nsum recipe).
Proof.
  intros f e recipe. rewrite <- wdot_const. unfold wdot. induction (seq 0 (length recipe)) as [|j l IH]; [cbn; ring|].
  cbn [map]. rewrite !Qsum_cons, IH. ring.
Qed.

Lemma nth_nsum : forall l j, (nth j l 0 <= nsum l)%nat.
Proof. induction l as [|a l IH]; intros [|j]; cbn [nth nsum fold_right]; try lia. specialize (IH j). unfold nsum in IH. lia. Qed.

Lemma Qn_max : forall a b, Qn a <= Qn (Nat.max a b) /\ Qn b <= Qn (Nat.max a b).
Proof. intros a b. split; apply Qn_mono; lia. Qed.

(** If no price goes up by more than [eps] and the sum stays 0, then no price goes down by too much. *)
Lemma sums : forall eps recipe f f', 0 <= eps -> wdot f recipe <= 0 -> wdot f' recipe == 0 ->
  (forall k, used_by recipe k -> f' k <= f k + eps) -> forall j, used_by recipe j ->
  Qn (nth j recipe 0%nat) * (f j - f' j) <= eps * Qn (leverage recipe j).
Proof.
  intros eps recipe f f' EPS Y Z H j Hj. assert (RP : 0 < Qn (nth j recipe 0%nat)) by (apply Qn_pos; apply Hj).
  destruct (Qn_max (nth j recipe 0%nat) (nsum recipe - nth j recipe 0%nat)) as [X1 X2]. fold (leverage recipe j) in X1, X2.
  assert (ES : Qn (nsum recipe) == Qn (nsum recipe - nth j recipe 0%nat) + Qn (nth j recipe 0%nat)).
  { rewrite <- Qn_plus. assert (W := nth_nsum recipe j). replace (nsum recipe - nth j recipe 0 + nth j recipe 0)%nat with (nsum recipe) by lia. reflexivity. }
  set (h := fun k => if Nat.eq_dec k j then f' j else f k + eps).
  assert (A : wdot f' recipe <= wdot h recipe).
  { apply wdot_le. intros k Hk Hp. unfold h. destruct (Nat.eq_dec k j) as [->|]; [lra|]. apply H. split; assumption. }
  assert (B : wdot h recipe == wdot (fun k => f k + eps) recipe + Qn (nth j recipe 0%nat) * (h j - (f j + eps))).
  { apply wdot_update; [apply Hj|]. intros k Hk. unfold h. destruct (Nat.eq_dec k j) as [->|]; [congruence|reflexivity]. }
  rewrite wdot_plus in B. unfold h in B at 2. destruct (Nat.eq_dec j j) as [_|X]; [|congruence]. nra.
Qed.

Lemma sums_abs : forall eps recipe f f', 0 <= eps -> wdot f recipe == 0 -> wdot f' recipe == 0 ->
  (forall k, used_by recipe k -> f' k <= f k + eps) \/ (forall k, used_by recipe k -> f k <= f' k + eps) -> forall j, used_by recipe j ->
  Qn (nth j recipe 0%nat) * Qabs (f' j - f j) <= eps * Qn (leverage recipe j).
Proof.
  intros eps recipe f f' EPS Y Z H j Hj. assert (RP : 0 < Qn (nth j recipe 0%nat)) by (apply Qn_pos; apply Hj).
  assert (LP : Qn (nth j recipe 0%nat) <= Qn (leverage recipe j)) by apply Qn_max.
  destruct (Qlt_le_dec (f' j) (f j)) as [A|A]; [rewrite Qabs_neg by lra|rewrite Qabs_pos by lra]; destruct H as [H|H].
  - assert (X := sums eps recipe f f' EPS ltac:(lra) Z H j Hj). lra.
  - specialize (H j Hj). nra.
  - specialize (H j Hj). nra.
  - assert (X := sums eps recipe f' f EPS ltac:(lra) Y H j Hj). lra.
Qed.

(** ** The general form: some order in which the categories are raised, and prices to start with *)

Definition in_order (ah : nat -> nat -> nat -> nat -> Prop) (recipe : list nat) (s : nat -> Q) (V : nat -> list Q) (f : nat -> Q) : Prop :=
  forall i, used_by recipe i -> s i <= f i /\ forall p, s i <= p -> p < f i -> (0 < exceed p (V i))%nat
    /\ forall j, used_by recipe j -> j <> i -> ah i (exceed p (V i)) j (exceed (f j) (V j)).

Section Core.
  Variables (eps : Q) (recipe : list nat) (ah : nat -> nat -> nat -> nat -> Prop).
  Hypothesis EPS : 0 <= eps.
  Hypothesis AH : forall i a a' j b b', used_by recipe i -> used_by recipe j -> ah i a j b -> ah j b' i a' -> (a <= a')%nat -> (b' <= b)%nat -> False.

  Variables (V V' : nat -> list Q) (s s' f f' : nat -> Q).
  Hypothesis HO : in_order ah recipe s V f.
  Hypothesis HO' : in_order ah recipe s' V' f'.
  Hypothesis HN : forall k p, used_by recipe k -> (exceed (p + eps) (V k) <= exceed p (V' k))%nat.
  Hypothesis HN' : forall k p, used_by recipe k -> (exceed (p + eps) (V' k) <= exceed p (V k))%nat.
  Hypothesis HS : forall k, used_by recipe k -> s k <= s' k + eps.
  Hypothesis HS' : forall k, used_by recipe k -> s' k <= s k + eps.

  Lemma same_way : (forall k, used_by recipe k -> f' k <= f k + eps) \/ (forall k, used_by recipe k -> f k <= f' k + eps).
  Proof.
    destruct (used_search recipe f' (fun k => f k + eps)) as [(j & Hj & Lj)|X]; [|left; assumption].
    destruct (used_search recipe f (fun k => f' k + eps)) as [(i & Hi & Li)|X]; [exfalso|right; assumption].
    assert (NE : j <> i) by (intros ->; lra).
    destruct (proj2 (HO' j Hj) (f j + eps)) as [_ A]; [assert (X := proj1 (HO j Hj)); specialize (HS' j Hj); lra|assumption|].
    destruct (proj2 (HO i Hi) (f' i + eps)) as [_ B]; [assert (X := proj1 (HO' i Hi)); specialize (HS i Hi); lra|assumption|].
    specialize (A i Hi (fun E => NE (eq_sym E))). specialize (B j Hj NE).
    apply (AH _ _ _ _ _ _ Hj Hi A B); [apply HN'|apply HN]; assumption.
  Qed.
End Core.

(** ** The ascending auction *)

Lemma orderly_in_order : forall M recipe V f, orderly M recipe V f -> in_order (ahead recipe) recipe (fun _ => - M) V f.
Proof. intros M recipe V f H. exact H. Qed.

Lemma ahead_asym : forall recipe i a a' j b b', used_by recipe i -> used_by recipe j ->
  ahead recipe i a j b -> ahead recipe j b' i a' -> (a <= a')%nat -> (b' <= b)%nat -> False.
Proof. intros recipe i a a' j b b' [_ Hi] [_ Hj] A B L L'. unfold ahead in A, B. nia. Qed.

Section Ascending.
  Variables (M eps : Q) (recipe : list nat).
  Hypothesis EPS : 0 <= eps.

  Lemma half : forall V V' f f', orderly M recipe V f -> ended recipe V f -> ended recipe V' f' ->
    (forall j, used_by recipe j -> - M <= f' j) -> (forall k p, used_by recipe k -> (exceed (p + eps) (V k) <= exceed p (V' k))%nat) ->
    (forall k, used_by recipe k -> f' k <= f k + eps) -> forall j, used_by recipe j ->
    Qn (nth j recipe 0%nat) * (f j - f' j) <= eps * Qn (leverage recipe j).
  Proof.
    intros V V' f f' HO HE HE' MF' HN H j Hj. assert (RP : 0 < Qn (nth j recipe 0%nat)) by (apply Qn_pos; apply Hj).
    assert (LP : Qn (nth j recipe 0%nat) <= Qn (leverage recipe j)) by apply Qn_max.
    destruct (proj2 HE') as [Z|Z]; [apply sums; try assumption; apply HE|].
    enough (f j <= f' j + eps) by nra. apply Qnot_lt_le. intros L.
    destruct (proj2 (HO j Hj) (f' j + eps)) as [P _]; [specialize (MF' j Hj); lra|assumption|].
    assert (C := HN j (f' j) Hj). rewrite (Z j Hj) in C. lia.
  Qed.

  Lemma lipschitz : forall V V' f f', orderly M recipe V f -> orderly M recipe V' f' -> ended recipe V f -> ended recipe V' f' ->
    (forall k p, used_by recipe k -> (exceed (p + eps) (V k) <= exceed p (V' k))%nat) ->
    (forall k p, used_by recipe k -> (exceed (p + eps) (V' k) <= exceed p (V k))%nat) ->
    forall j, used_by recipe j -> Qn (nth j recipe 0%nat) * Qabs (f' j - f j) <= eps * Qn (leverage recipe j).
  Proof.
    intros V V' f f' HO HO' HE HE' HN HN' j Hj. assert (RP : 0 < Qn (nth j recipe 0%nat)) by (apply Qn_pos; apply Hj).
    assert (LP : Qn (nth j recipe 0%nat) <= Qn (leverage recipe j)) by apply Qn_max.
    assert (SW : (forall k, used_by recipe k -> f' k <= f k + eps) \/ (forall k, used_by recipe k -> f k <= f' k + eps)).
    { apply (same_way eps recipe (ahead recipe) EPS (ahead_asym recipe) V V' (fun _ => - M) (fun _ => - M)); try assumption;
        intros k _; lra. }
    destruct (Qlt_le_dec (f' j) (f j)) as [A|A].
    - rewrite Qabs_neg by lra. destruct SW as [S1|S1].
      + assert (X := half V V' f f' HO HE HE' (fun k Hk => proj1 (HO' k Hk)) HN S1 j Hj). lra.
      + specialize (S1 j Hj). nra.
    - rewrite Qabs_pos by lra. destruct SW as [S1|S1].
      + specialize (S1 j Hj). nra.
      + assert (X := half V' V f' f HO' HE' HE (fun k Hk => proj1 (HO k Hk)) HN' S1 j Hj). lra.
  Qed.
End Ascending.

Lemma near_exceed : forall eps l l', Forall2 (fun v v' => Qabs (v' - v) <= eps) l l' ->
  forall p, (exceed (p + eps) l <= exceed p l')%nat /\ (exceed (p + eps) l' <= exceed p l)%nat.
Proof.
  intros eps l l' H p. induction H as [|x y l l' H HF IH]; [split; reflexivity|]. apply Qabs_Qle_condition in H.
  destruct (exceed_cons (p + eps) x l) as [[A1 E1]|[A1 E1]]; destruct (exceed_cons p y l') as [[A2 E2]|[A2 E2]];
    destruct (exceed_cons (p + eps) y l') as [[A3 E3]|[A3 E3]]; destruct (exceed_cons p x l) as [[A4 E4]|[A4 E4]]; rewrite E1, E2, E3, E4; try lra; lia.
Qed.

Lemma near_nth : forall eps m m' j, 0 <= eps -> near eps m m' -> category_near eps (nth j m dcat) (nth j m' dcat).
Proof.
  intros eps m m' j E H. revert j. induction H as [|c c' m m' H HF IH]; intros [|j]; cbn [nth]; try assumption; try apply IH;
    exists []; split; constructor.
Qed.

Lemma near_vals : forall eps m m' j p, 0 <= eps -> near eps m m' ->
  (exceed (p + eps) (vals (clone_market m) j) <= exceed p (vals (clone_market m') j))%nat
  /\ (exceed (p + eps) (vals (clone_market m') j) <= exceed p (vals (clone_market m) j))%nat.
Proof.
  intros eps m m' j p E H. rewrite !(exceed_perm _ _ _ (Proof_Better.vals_clone m j)), !(exceed_perm _ _ _ (Proof_Better.vals_clone m' j)).
  destruct (near_nth eps m m' j E H) as (l & HP & HF). rewrite !(exceed_perm _ _ _ HP). apply near_exceed. assumption.
Qed.

Lemma near_length : forall eps m m', near eps m m' -> length m = length m'.
Proof. intros eps m m' H. induction H; [reflexivity|simpl; congruence]. Qed.

Theorem ascending_near : forall M eps rounds rounds' m m' recipe t t' P P', 0 < M -> 0 <= eps ->
  values_at_least (- M) m -> values_at_least (- M) m' -> near eps m m' ->
  ascending_auction_M M rounds m recipe = Ok t -> ascending_auction_M M rounds' m' recipe = Ok t' ->
  tprices t = Some P -> tprices t' = Some P' ->
  forall j, (j < length m)%nat -> (0 < nth j recipe 0)%nat ->
    Qn (nth j recipe 0%nat) * Qabs (nth j P' 0 - nth j P 0) <= eps * Qn (leverage recipe j).
Proof.
  intros M eps rounds rounds' m m' recipe t t' P P' HM HE HV HV' HN H H' HP HP' j Hj Hr.
  destruct (auction_outcome _ _ _ _ _ H) as (Hl & Hpos & ns & stop & HO & _ & Et & _).
  destruct (auction_outcome _ _ _ _ _ H') as (Hl' & _ & ns' & stop' & HO' & _ & Et' & _).
  set (c := clone_market m) in *. set (c' := clone_market m') in *.
  assert (EP : P = final_prices M c recipe ns stop) by (rewrite Et in HP; cbn in HP; congruence).
  assert (EP' : P' = final_prices M c' recipe ns' stop') by (rewrite Et' in HP'; cbn in HP'; congruence).
  destruct (outcome_orderly M c recipe ns stop HM Hl (Proof_Market.clone_sorted m) (values_at_least_clone _ _ HV) Hpos HO) as [OR EN].
  destruct (outcome_orderly M c' recipe ns' stop' HM Hl' (Proof_Market.clone_sorted m') (values_at_least_clone _ _ HV') Hpos HO') as [OR' EN'].
  assert (LC : length c = length m) by (unfold c; apply clone_length).
  rewrite EP, EP'. apply (lipschitz M eps recipe HE (vals c) (vals c') _ _ OR OR' EN EN').
  - intros k p _. apply (near_vals eps m m' k p HE HN).
  - intros k p _. apply (near_vals eps m m' k p HE HN).
  - split; [lia|assumption].
Qed.

