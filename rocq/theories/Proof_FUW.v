(** * C121: with doubles, an agent who stays in the ascending auction does not influence its prices at all *)

From Coq Require Import String ZArith Reals Qreals QArith Qpower Qabs List Lia Lra Lqa Sorted Permutation.
From Coq Require Import SpecFloat.
From Flocq Require Import Core BinarySingleNaN Plus_error Relative.
From Verif Require Import Base Model_Float Spec_Float Spec_FloatMcAfee Spec_FloatBudget Spec_FloatTruth
  Proof_Float Proof_Float2 Proof_FM1 Proof_FB1 Proof_FB2 Proof_FB3 Proof_FU1 Proof_FU2 Proof_FU3 Proof_FU4.
Import ListNotations.

Local Open Scope nat_scope.
#[local] Existing Instance hprec.
#[local] Existing Instance hmax.
#[local] Existing Instance ve.

Section Stay.
Variables (recipe : list nat) (B : Q) (k : Z) (i : nat) (cats : list (list double)) (pre post : list double).
Hypothesis (HB : (100000000 <= B)%Q).
Hypothesis (HK : (2 * inject_Z (traders recipe) * B <= Qpower 2 k)%Q).
Hypothesis (K1000 : (k <= 1000)%Z).
Hypothesis (HT : (traders recipe <= 2 ^ 53)%Z).
Hypothesis (HN : (2 * Z.of_nat (length recipe) + 2 <= 2 ^ 53)%Z).
Hypothesis (Hi : i < length cats).
Hypothesis (BC : Forall (Forall (bound B)) cats).
Hypothesis (B1 : Forall (bound B) pre).
Hypothesis (B2 : Forall (bound B) post).

Let err := (inject_Z (4 * Z.of_nat (length recipe) + 8) * Qpower 2 (k - 54))%Q.

Lemma two_runs : forall lo hi cl pl ch ph, bound B lo -> bound B hi -> fle lo hi = true ->
  f_auction (set_nth i (pre ++ lo :: post) cats) recipe = Ok (cl, pl) ->
  f_auction (set_nth i (pre ++ hi :: post) cats) recipe = Ok (ch, ph) ->
  (pl = ph /\ map (@length double) cl = map (@length double) ch /\ exists c, nth_error cl i = Some c /\ position pre post lo < length c /\ position pre post hi < length c) \/
  ((exists c, nth_error cl i = Some c /\ length c <= position pre post lo) /\ exists p, nth_error ph i = Some p /\ (dval lo - err <= dval p)%Q).
Proof.
  intros lo hi cl pl ch ph Blo Bhi LE Hl Hh. unfold f_auction in Hl, Hh. rewrite !set_len in Hl, Hh.
  destruct (length recipe =? length cats) eqn:L; [|discriminate]. apply Nat.eqb_eq in L.
  assert (FUEL : map (@length double) (set_nth i (pre ++ lo :: post) cats) = map (@length double) (set_nth i (pre ++ hi :: post) cats)).
  { apply map_set_len. rewrite !app_length. reflexivity. }
  rewrite FUEL in Hl. rewrite !map_set in Hl, Hh. set (fuel := S (nsum _)) in *. clearbody fuel.
  assert (F1 := bound_fin B _ B1). assert (F2 := bound_fin B _ B2).
  destruct (two_sorted pre post lo hi (proj1 Blo) (proj1 Bhi) F1 F2 LE) as (xl & xh & q & top & E1 & E2 & L1 & L2 & LT).
  assert (PM := position_mono pre post lo hi (proj1 Blo) (proj1 Bhi) F1 F2 LE).
  assert (SH : Forall (bound B) (f_sort (pre ++ hi :: post))). { apply sort_forall. apply Forall_app. split; [exact B1|constructor; assumption]. }
  assert (SS : fdesc (f_sort (pre ++ hi :: post))). { apply sort_sorted. apply (bound_fin B). apply Forall_app. split; [exact B1|constructor; assumption]. }
  rewrite E1 in Hl. rewrite E2 in Hh, SH, SS. apply Forall_app in SH. destruct SH as [SH1 SH2].
  assert (BT : bound B top) by (apply Forall_app in SH1; destruct SH1 as [_ X]; inversion X; assumption).
  destruct (bound_okp B lo Blo) as (blo & Elo & OLO). subst lo. destruct (bound_okp B top BT) as (btop & Et & OT). subst top.
  destruct (bounds_okp B (repeat (fint (-100000000)) (length recipe))) as (ps & EP & OP).
  { apply (start_bound B [] (length recipe)); [exact HB|constructor..]. }
  rewrite EP in Hl, Hh.
  assert (LP : length ps = length recipe). { rewrite <- (map_length B2SF ps), <- EP. apply repeat_length. }
  assert (FX : Forall (fun v => fle (B2SF blo) v = true) xh).
  { apply Forall_forall. intros z Hz.
    assert (TZ : fle (B2SF btop) z = true).
    { clear - SS Hz. induction xh as [|y xh IH]; [destruct Hz|]. cbn [app] in SS. inversion SS as [|? ? S1 S2]; subst.
      destruct Hz as [->|Hz]; [|auto]. rewrite Forall_forall in S2. apply S2. apply in_or_app. left. apply in_or_app. right. left. reflexivity. }
    assert (FZ : finite_double z) by (apply Forall_app in SH1; destruct SH1 as [X _]; rewrite Forall_forall in X; apply X; exact Hz).
    exact (fle_trans _ _ _ (finite_dbl _ (proj1 Blo)) (proj1 BT) FZ LT TZ). }
  assert (LTR : (B2R blo <= B2R btop)%R). { rewrite fle_B in LT. apply Bleb_iff in LT; [exact LT|apply OLO|apply OT]. }
  assert (HCS : Forall (Forall (bound B)) (map f_sort cats)).
  { rewrite Forall_map. revert BC. apply Forall_impl. intros c. apply sort_forall. }
  destruct (lockstep recipe B k i HB HK K1000 HT HN xl xh blo btop L2 LTR SH1 OLO FX fuel q (map f_sort cats) ps cl pl ch ph) as [(EQP & EQC & c & Ec & Lc)|((c & Ec & Lc) & bp & Ep & Fp & LB)]; auto.
  { rewrite map_length. exact Hi. }
  { rewrite map_length. auto. }
  - left. split; [exact EQP|]. split; [exact EQC|]. exists c. split; [exact Ec|]. rewrite L1 in Lc. lia.
  - right. split; [exists c; split; [exact Ec|lia]|]. exists (B2SF bp). split; [exact Ep|].
    apply Rle_Qle. unfold err. rewrite Q2R_minus, err_R, !dval_B by (exact Fp || apply OLO). exact LB.
Qed.

(** The other remaining agents of its category are decided by the number of remaining agents. *)
Lemma own_others : forall x cs ps c, bound B x -> f_auction (set_nth i (pre ++ x :: post) cats) recipe = Ok (cs, ps) -> nth_error cs i = Some c ->
  position pre post x < length c -> Permutation c (x :: firstn (length c - 1) (f_sort (pre ++ post))).
Proof.
  intros x cs ps c Bx H Hc P. assert (X := float_best _ _ _ _ H). assert (Y := nth_set_same _ cats i (pre ++ x :: post) Hi).
  destruct (Forall2_nth _ _ _ _ _ _ _ _ X Y Hc) as (n & ->).
  destruct (sort_position pre post x (proj1 Bx) (bound_fin B _ B1) (bound_fin B _ B2)) as (a & b & E0 & ES & La & _).
  rewrite ES in *. rewrite <- La in P. rewrite E0. rewrite firstn_length, app_length in *. cbn [length] in *.
  assert (M : exists m, n = length a + S m). { exists (n - length a - 1). lia. } destruct M as (m & ->).
  rewrite firstn_app_2. cbn [firstn].
  assert (firstn (Nat.min (length a + S m) (length a + S (length b)) - 1) (a ++ b) = a ++ firstn m b) as ->.
  { replace (Nat.min (length a + S m) (length a + S (length b)) - 1) with (length a + Nat.min m (length b)) by lia.
    rewrite firstn_app_2. f_equal. destruct (le_lt_dec m (length b)); [rewrite Nat.min_l by lia; reflexivity|].
    rewrite Nat.min_r by lia. rewrite !firstn_all2 by lia. reflexivity. }
  symmetry. apply Permutation_middle.
Qed.

(** The agent stays in with [lo]: with [hi] nothing changes but its own report. *)
Lemma stays : forall lo hi cl pl ch ph c, bound B lo -> bound B hi -> fle lo hi = true ->
  f_auction (set_nth i (pre ++ lo :: post) cats) recipe = Ok (cl, pl) ->
  f_auction (set_nth i (pre ++ hi :: post) cats) recipe = Ok (ch, ph) ->
  nth_error cl i = Some c -> position pre post lo < length c ->
  ph = pl /\ (forall j, j <> i -> nth_error ch j = nth_error cl j)
  /\ exists c', nth_error ch i = Some c' /\ length c' = length c /\ position pre post hi < length c'
     /\ exists others, Permutation c (lo :: others) /\ Permutation c' (hi :: others).
Proof.
  intros lo hi cl pl ch ph c Blo Bhi LE Hl Hh Hc P.
  destruct (two_runs lo hi cl pl ch ph Blo Bhi LE Hl Hh) as [(EP & EL & c0 & Hc0 & P0 & P1)|[(c0 & Hc0 & P0) _]];
    rewrite Hc in Hc0; injection Hc0 as <-; [|lia].
  assert (NL : forall j, option_map (@length double) (nth_error cl j) = option_map (@length double) (nth_error ch j)).
  { intros j. rewrite <- !nth_error_map, EL. reflexivity. }
  split; [symmetry; exact EP|]. split.
  - intros j NE. assert (X := float_best _ _ _ _ Hl). assert (Y := float_best _ _ _ _ Hh). specialize (NL j).
    assert (LX := Forall2_length _ _ _ _ _ X). assert (LY := Forall2_length _ _ _ _ _ Y). rewrite set_len in LX, LY.
    destruct (nth_error cl j) as [a|] eqn:Ea; destruct (nth_error ch j) as [b|] eqn:Eb; try discriminate; [|reflexivity].
    injection NL as NL. assert (J : j < length cats) by (rewrite LX; apply nth_error_Some; congruence).
    destruct (nth_error cats j) as [g|] eqn:Eg; [|apply nth_error_None in Eg; lia].
    assert (G1 := Eg). rewrite <- (nth_set_other _ cats i j (pre ++ lo :: post)) in G1 by congruence.
    assert (G2 := Eg). rewrite <- (nth_set_other _ cats i j (pre ++ hi :: post)) in G2 by congruence.
    destruct (Forall2_nth _ _ _ _ _ _ _ _ X G1 Ea) as (n & ->). destruct (Forall2_nth _ _ _ _ _ _ _ _ Y G2 Eb) as (m & ->).
    rewrite !firstn_length in NL. f_equal. set (s := f_sort g) in *. clearbody s.
    destruct (le_lt_dec (length s) n); destruct (le_lt_dec (length s) m); rewrite ?(firstn_all2 s) by lia; try reflexivity; try (f_equal; lia).
    all: first [rewrite (firstn_all2 (n := n)) by lia | idtac]; first [rewrite (firstn_all2 (n := m)) by lia | idtac]; try reflexivity; exfalso; lia.
  - specialize (NL i). rewrite Hc in NL. destruct (nth_error ch i) as [c'|] eqn:Ec'; [|discriminate]. injection NL as NL.
    exists c'. split; [reflexivity|]. split; [auto|]. split; [lia|].
    exists (firstn (length c - 1) (f_sort (pre ++ post))). split; [eapply own_others; eassumption|]. rewrite NL. eapply own_others; try eassumption. lia.
Qed.

Lemma leaves : forall lo hi cl pl ch ph c p, bound B lo -> bound B hi ->
  f_auction (set_nth i (pre ++ lo :: post) cats) recipe = Ok (cl, pl) ->
  f_auction (set_nth i (pre ++ hi :: post) cats) recipe = Ok (ch, ph) ->
  nth_error cl i = Some c -> length c <= position pre post lo ->
  (exists c', nth_error ch i = Some c' /\ position pre post hi < length c') -> nth_error ph i = Some p ->
  fle lo hi = true /\ (dval lo <= dval p + err)%Q.
Proof.
  intros lo hi cl pl ch ph c p Blo Bhi Hl Hh Hc P (c' & Hc' & P') Hp.
  destruct (fle lo hi) eqn:E.
  - split; [reflexivity|]. destruct (two_runs lo hi cl pl ch ph Blo Bhi E Hl Hh) as [(_ & _ & c0 & Hc0 & P0 & _)|[_ (q & Hq & X)]].
    + rewrite Hc in Hc0; injection Hc0 as <-. lia.
    + rewrite Hp in Hq. injection Hq as <-. Lqa.lra.
  - exfalso. assert (E' : fle hi lo = true) by (apply fle_total; [apply Blo|apply Bhi|exact E]).
    destruct (stays hi lo ch ph cl pl c' Bhi Blo E' Hh Hl Hc' P') as (_ & _ & c0 & Hc0 & _ & X & _). rewrite Hc in Hc0. injection Hc0 as <-. lia.
Qed.
End Stay.
