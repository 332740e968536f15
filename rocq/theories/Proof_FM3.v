(** * C100: the result of McAfee's protocol with doubles *)

From Coq Require Import String ZArith Reals Qreals QArith Qpower List Lia Lqa Lra Sorted Permutation.
From Coq Require Import SpecFloat.
From Flocq Require Import Core BinarySingleNaN Plus_error.
From Verif Require Import Base Model_Agents Model_Market Model_Float Model_FloatMcAfee Spec_Float Spec_FloatMcAfee Proof_Float Proof_Float2 Proof_FM1 Proof_FM2.
Import ListNotations.

Local Open Scope nat_scope.
Ltac xlra := first [Lra.lra | Lqa.lra].
#[local] Existing Instance hprec.
#[local] Existing Instance hmax.

Lemma abs_fin : forall x, finite_double x -> finite_double (SFabs x) /\ (0 <= dval (SFabs x))%Q /\ (dval (SFabs x) == Qabs.Qabs (dval x))%Q.
Proof.
  intros x [V F]. destruct x as [s|s| |s m e]; try destruct F.
  - split; [split; [reflexivity|exact I]|]. cbn. split; [xlra|reflexivity].
  - assert (P : (0 < 2 ^ e)%Q) by (apply Qpower_0_lt; reflexivity).
    assert (N : (0 <= dval (S754_finite false m e))%Q).
    { cbn [dval]. apply Qmult_le_0_compat; [unfold Qle; cbn; lia|xlra]. }
    split; [split; [exact V|exact I]|]. cbn [SFabs]. split; [exact N|]. destruct s; cbn [dval] in *.
    + change (inject_Z (Zneg m)) with (- inject_Z (Zpos m))%Q. setoid_replace (- inject_Z (Z.pos m) * 2 ^ e)%Q with (- (inject_Z (Z.pos m) * 2 ^ e))%Q by ring.
      rewrite Qabs.Qabs_opp, Qabs.Qabs_pos by exact N. reflexivity.
    + rewrite Qabs.Qabs_pos by exact N. reflexivity.
Qed.

Lemma opp_fin : forall x, finite_double x -> finite_double (SFopp x) /\ (dval (SFopp x) == - dval x)%Q.
Proof.
  intros x [V F]. destruct x as [s|s| |s m e]; try destruct F.
  - split; [split; [reflexivity|exact I]|reflexivity].
  - split; [split; [exact V|exact I]|]. cbn [SFopp dval]. destruct s; cbn [negb].
    + change (inject_Z (Zneg m)) with (- inject_Z (Zpos m))%Q. ring.
    + change (inject_Z (Zneg m)) with (- inject_Z (Zpos m))%Q. ring.
Qed.

Lemma mul_unit : forall c z, finite_double c -> (z = 1 \/ z = -1)%Z ->
  finite_double (fmul c (fint z)) /\ (dval (fmul c (fint z)) == inject_Z z * dval c)%Q.
Proof.
  intros c z Hc Z. destruct (finite_B c Hc) as (b & Fb & ->). rewrite int_B, mul_B.
  destruct (rep_int z) as [F1 E1]; [destruct Z as [->| ->]; vm_compute; discriminate|].
  pose proof (Bmult_correct 53 1024 hprec hmax mode_NE b (bint z)) as K.
  assert (E : (B2R b * B2R (bint z) = B2R b \/ B2R b * B2R (bint z) = B2R (Bopp b))%R).
  { rewrite E1, B2R_Bopp. destruct Z as [->| ->]; [left|right]; ring. }
  change (round radix2 (SpecFloat.fexp 53 1024) (round_mode mode_NE) (B2R b * B2R (bint z))) with (rnd (B2R b * B2R (bint z))) in K.
  assert (R : rnd (B2R b * B2R (bint z)) = (B2R b * B2R (bint z))%R).
  { destruct E as [-> | ->]; apply rnd_B. }
  rewrite R in K. assert (L : Rlt_bool (Rabs (B2R b * B2R (bint z))) (bpow radix2 1024) = true) by (destruct E as [-> | ->]; apply lt_emax_B).
  rewrite L, Fb, F1 in K. destruct K as (K1 & K2 & _).
  split; [apply finite_SF; exact K2|]. apply eqR_Qeq. rewrite dval_B by exact K2. rewrite K1, Q2R_mult, dval_B by exact Fb. rewrite E1. unfold Q2R, inject_Z. cbn [Qnum Qden]. field.
Qed.

(** The candidate price is infinite, or finite and non-negative. *)
Lemma cand2 : forall a b, finite_double a -> finite_double b ->
  exists c, f_candidate [a; b] = Ok c /\ (c = S754_infinity false \/ finite_double c /\ (0 <= dval c)%Q).
Proof.
  intros a b Ha Hb. eexists. split; [reflexivity|]. cbn [map fold_left length Z.of_nat Pos.of_succ_nat Pos.succ].
  destruct (abs_fin a Ha) as (Fa & Na & _). destruct (abs_fin b Hb) as (Fb & Nb & _). revert Fa Na Fb Nb. generalize (SFabs a) (SFabs b). clear. intros x y Hx Nx Hy Ny.
  destruct (finite_B x Hx) as (u & Fu & ->). destruct (finite_B y Hy) as (v & Fv & ->).
  rewrite !int_B, !add_B. destruct (add0_B u Fu) as [F0 E0]. set (u' := Bplus mode_NE (bint 0) u) in *.
  assert (Pu : (0 <= B2R u')%R). { rewrite E0, <- dval_B by exact Fu. replace 0%R with (Q2R 0) by (unfold Q2R; cbn; xlra). apply Qle_Rle. exact Nx. }
  assert (Pv : (0 <= B2R v)%R). { rewrite <- dval_B by exact Fv. replace 0%R with (Q2R 0) by (unfold Q2R; cbn; xlra). apply Qle_Rle. exact Ny. }
  assert (VE : Valid_exp fexp64) by (apply fexp_correct; apply hprec).
  assert (R0 : rnd 0 = 0%R) by (apply round_0; auto with typeclass_instances).
  pose proof (Bplus_correct 53 1024 hprec hmax mode_NE u' v F0 Fv) as K. destruct (Rlt_bool _ _) eqn:RB in K.
  - right. destruct K as (K1 & K2 & _). set (w := Bplus mode_NE u' v) in *.
    assert (W : (0 <= B2R w)%R). { rewrite K1, <- R0. apply round_le; auto with typeclass_instances. xlra. }
    rewrite div_B. destruct (rep_int 2 ltac:(lia)) as [F2 E2].
    assert (NZ : B2R (bint 2) <> 0%R) by (rewrite E2; xlra).
    pose proof (Bdiv_correct 53 1024 hprec hmax mode_NE w (bint 2) NZ) as D.
    change (round radix2 (SpecFloat.fexp 53 1024) (round_mode mode_NE) (B2R w / B2R (bint 2))) with (rnd (B2R w / B2R (bint 2))) in D. rewrite E2 in D.
    assert (L1 : (rnd (B2R w / 2) <= B2R w)%R). { rewrite <- (rnd_B w) at 2. apply round_le; auto with typeclass_instances. xlra. }
    assert (L2 : (0 <= rnd (B2R w / 2))%R). { rewrite <- R0. apply round_le; auto with typeclass_instances. xlra. }
    assert (L3 := lt_emax_B w). rewrite Rlt_bool_true in D.
    + destruct D as (D1 & D2 & _). rewrite K2 in D2. split; [apply finite_SF; exact D2|]. apply Rle_Qle. rewrite dval_B by exact D2. rewrite D1. unfold Q2R. cbn. xlra.
    + rewrite Rabs_pos_eq by exact L2. rewrite Rabs_pos_eq in L3 by exact W. destruct (Rlt_bool_spec (B2R w) (bpow radix2 1024)); [xlra|discriminate].
  - destruct K as (K1 & K2).
    assert (S1 : Bsign u' = false).
    { destruct (Bsign u') eqn:SG; [|reflexivity]. exfalso.
      assert (P' : forall x : bf, Bsign x = true -> (B2R x <= 0)%R).
      { intros [s|s| |s m e B] Q; simpl in *; subst; simpl; try xlra. apply F2R_le_0. simpl. lia. }
      assert (A := P' u' SG). assert (B := P' v (eq_sym K2)).
      assert (E : (B2R u' + B2R v = 0)%R) by xlra. rewrite E in RB. rewrite round_0, Rabs_R0 in RB by auto with typeclass_instances.
      rewrite Rlt_bool_true in RB by apply bpow_gt_0. discriminate RB. }
    left. rewrite K1, S1, <- int_B. vm_compute. reflexivity.
Qed.

(** ** The first element of a stable sort is a least one *)

Section HeadMin.
  Variable A : Type.
  Variable le : A -> A -> bool.
  Variable P : A -> Prop.
  Hypothesis total : forall x y, P x -> P y -> le x y = true \/ le y x = true.
  Hypothesis trans : forall x y z, P x -> P y -> P z -> le x y = true -> le y z = true -> le x z = true.

  Lemma isort_head_min : forall l h t, Forall P l -> isort le l = h :: t -> forall d, In d l -> le h d = true.
  Proof.
    induction l as [|a l IH]; intros h t F E d D; [destruct D|]. inversion F as [|? ? Pa Fl]; subst. cbn [isort] in E.
    assert (R : le a a = true) by (destruct (total a a Pa Pa); assumption).
    destruct (isort le l) as [|b r] eqn:S; cbn [insert] in E.
    - injection E as <- <-. destruct D as [<-|D]; [exact R|]. assert (L := isort_length le l). rewrite S in L. destruct l; [destruct D|discriminate].
    - assert (Pb : P b). { rewrite Forall_forall in Fl. apply Fl. apply (isort_In _ le). rewrite S. left. reflexivity. }
      destruct (le a b) eqn:AB; injection E as <- <-.
      + destruct D as [<-|D]; [exact R|]. assert (Pd : P d) by (rewrite Forall_forall in Fl; auto). apply (trans a b d); auto. apply (IH b r Fl eq_refl d D).
      + destruct D as [<-|D]; [|apply (IH b r Fl eq_refl d D)]. destruct (total a b Pa Pb); congruence.
  Qed.
End HeadMin.

(** ** The result *)

Lemma nonneg_one : forall x y, (0 <= Qsum [dval x; dval y])%Q -> (0 <= dval x)%Q \/ (0 <= dval y)%Q.
Proof. intros x y H. cbn in H. destruct (Qlt_le_dec (dval x) 0) as [L|L]; [right|left]; xlra. Qed.

Lemma lt_inf : forall x, finite_double x -> flt x (S754_infinity false) = true.
Proof. intros x [V F]. destruct x as [s|s| |s m e]; try destruct F; try reflexivity. Qed.

Lemma fin0 : finite_double (fint 0). Proof. apply (fint_fin 0). vm_compute; discriminate. Qed.

Lemma dval0 : (dval (fint 0) = 0)%Q. Proof. reflexivity. Qed.

Lemma good_two : forall c x y, finite_double x -> finite_double y -> (0 <= Qsum [dval x; dval y])%Q ->
  (c = S754_infinity false \/ finite_double c /\ (0 <= dval c)%Q) -> f_good_price c [x; y] = true ->
  finite_double c /\ (0 <= dval c)%Q.
Proof.
  intros c x y Hx Hy G [->|C] H; [|exact C]. exfalso. unfold f_good_price in H. cbn [forallb] in H. rewrite andb_true_r in H. apply andb_prop in H. destruct H as [H1 H2].
  rewrite !lt_inf in H1, H2 by assumption. rewrite (fle_dval (fint 0) x), dval0 in H1 by auto using fin0. rewrite (fle_dval (fint 0) y), dval0 in H2 by auto using fin0.
  destruct (nonneg_one x y G) as [N|N]; apply Qle_bool_iff in N; [rewrite N in H1; discriminate H1|rewrite N in H2; discriminate H2].
Qed.

(** The price of an accepted candidate is at most the value. *)
Definition unit_price (c x : double) : double := if flt x (fint 0) then fmul c (fint (-1)) else fmul c (fint 1).

Lemma unit_price_le : forall c x, finite_double c -> finite_double x ->
  negb ((fle (fint 0) x && flt x c) || (fle x (fint 0) && flt x (SFopp c))) = true ->
  finite_double (unit_price c x) /\ (dval (unit_price c x) <= dval x)%Q /\ (dval (unit_price c x) == (if Qlt_bool (dval x) 0 then - dval c else dval c))%Q.
Proof.
  intros c x Hc Hx H. destruct (opp_fin c Hc) as [Fo Eo]. apply negb_true_iff, orb_false_iff in H. destruct H as [H1 H2].
  rewrite (fle_dval (fint 0) x), (flt_dval x c), dval0 in H1 by auto using fin0. rewrite (fle_dval x (fint 0)), (flt_dval x (SFopp c)), dval0 in H2 by auto using fin0.
  unfold unit_price. rewrite (flt_dval x (fint 0)), dval0 by auto using fin0. destruct (Qlt_bool (dval x) 0) eqn:L.
  - destruct (mul_unit c (-1) Hc (or_intror eq_refl)) as [F E]. apply Qlt_bool_iff in L. assert (L' : Qle_bool (dval x) 0 = true) by (apply Qle_bool_iff; xlra).
    rewrite L' in H2. apply Qlt_bool_false in H2. split; [exact F|]. change (inject_Z (-1)) with (-1)%Q in E. split; [xlra|xlra].
  - destruct (mul_unit c 1 Hc (or_introl eq_refl)) as [F E]. apply Qlt_bool_false in L. assert (L' : Qle_bool 0 (dval x) = true) by (apply Qle_bool_iff; xlra).
    rewrite L' in H1. apply Qlt_bool_false in H1. split; [exact F|]. change (inject_Z 1) with 1%Q in E. split; [xlra|xlra].
Qed.

Lemma good_price_two : forall c x y, f_good_price c [x; y] = true ->
  negb ((fle (fint 0) x && flt x c) || (fle x (fint 0) && flt x (SFopp c))) = true /\ negb ((fle (fint 0) y && flt y c) || (fle y (fint 0) && flt y (SFopp c))) = true.
Proof. intros c x y H. unfold f_good_price in H. cbn [forallb] in H. rewrite andb_true_r in H. apply andb_prop in H. exact H. Qed.

Lemma loop_gain : forall it cats d, In d (fst (f_optimal_loop it cats)) -> flt (f_gft d) (fint 0) = false.
Proof.
  induction it as [|it IH]; intros cats d H; cbn [f_optimal_loop fst] in H; [destruct H|]. destruct (f_heads cats) as [ps|] eqn:E; [|destruct H].
  destruct (flt (f_gft ps) (fint 0)) eqn:L; [destruct H|]. cbn [fst] in H. destruct H as [<-|H]; [exact L|]. apply (IH _ _ H).
Qed.

(** What the protocol returns: everything but the comparison of the gains. *)
Definition the_deals (it : nat) (bs ss : list double) : list (list double) := fst (f_optimal_loop it [f_desc bs; f_desc ss]).

Lemma deal_two : forall it bs ss d, Forall finite_double bs -> Forall finite_double ss -> In d (the_deals it bs ss) ->
  exists x y, d = [x; y] /\ finite_double x /\ finite_double y /\ In x bs /\ In y ss /\ (0 <= Qsum [dval x; dval y])%Q.
Proof.
  intros it bs ss d Hb Hs D. destruct (drawn2 _ _ _ (loop_drawn _ _ _ D)) as (x & y & -> & X & Y).
  apply (Permutation_in _ (f_desc_perm bs)) in X. apply (Permutation_in _ (f_desc_perm ss)) in Y.
  assert (Fx : finite_double x) by (rewrite Forall_forall in Hb; auto). assert (Fy : finite_double y) by (rewrite Forall_forall in Hs; auto).
  exists x, y. repeat (split; [first [reflexivity|assumption]|]). assert (G := loop_gain _ _ _ D). rewrite gft_sign in G by assumption. apply Qlt_bool_false in G. exact G.
Qed.

Lemma result2 : forall it bs ss h, Forall finite_double bs -> Forall finite_double ss ->
  exists tb ts p1 p2 kept dropped, f_mcafee it [bs; ss] h = Ok ([tb; ts], [p1; p2])
    /\ finite_double p1 /\ finite_double p2 /\ (0 <= dval p1 + dval p2)%Q
    /\ Permutation (kept ++ dropped) (the_deals it bs ss) /\ length dropped <= 1
    /\ Permutation tb (map (fun ps => nth 0 ps (fint 0)) kept) /\ Permutation ts (map (fun ps => nth 1 ps (fint 0)) kept)
    /\ (the_deals it bs ss = [] -> p1 = fint 0 /\ p2 = fint 0)
    /\ (forall lp others, f_by_gft (the_deals it bs ss) = lp :: others ->
        exists x0 y0, lp = [x0; y0] /\ (dval p1 <= dval x0)%Q /\ (dval p2 <= dval y0)%Q).
Proof.
  intros it bs ss h Hb Hs. unfold f_mcafee. cbn [map]. fold (the_deals it bs ss).
  destruct (loop_pairs it (f_desc bs) (f_desc ss)) as (k & K1 & K2 & K3 & K4). rewrite K4. cbn [map].
  assert (M : finite_double (fint (-100000000))) by (apply (fint_fin (-100000000)); vm_compute; discriminate).
  assert (SK : forall l, Forall finite_double l -> Forall finite_double (skipn k (f_desc l))).
  { intros l Hl. apply Forall_forall. intros x Hx. apply f_desc_finite in Hl. rewrite Forall_forall in Hl. apply Hl. rewrite <- (firstn_skipn k). apply in_or_app. right. exact Hx. }
  assert (SB := SK bs Hb). assert (SS := SK ss Hs). clear SK.
  assert (HD : forall b s, Forall finite_double b -> Forall finite_double s -> exists a c, finite_double a /\ finite_double c
      /\ f_heads [match b with [] => [fint (-100000000)] | _ => b end; match s with [] => [fint (-100000000)] | _ => s end] = Some [a; c]).
  { intros b s Fb Fs. destruct b as [|a b], s as [|c s]; try (inversion Fb; subst); try (inversion Fs; subst); cbn [f_heads]; eauto 6. }
  destruct (HD _ _ SB SS) as (a & c & Fa & Fc & ->). clear HD.
  destruct (cand2 a c Fa Fc) as (cand & -> & CC). 
  assert (PERM : Permutation (f_by_gft (the_deals it bs ss)) (the_deals it bs ss)) by (apply isort_perm).
  assert (DT : forall d, In d (f_by_gft (the_deals it bs ss)) -> exists x y, d = [x; y] /\ finite_double x /\ finite_double y /\ In x bs /\ In y ss /\ (0 <= Qsum [dval x; dval y])%Q).
  { intros d D. apply deal_two with (it := it); auto. apply (Permutation_in _ PERM). exact D. }
  destruct (f_by_gft (the_deals it bs ss)) as [|lp others] eqn:E.
  - assert (N : the_deals it bs ss = []) by (apply Permutation_nil; exact PERM). rewrite N.
    exists [], [], (fint 0), (fint 0), [], []. split; [destruct h; reflexivity|]. split; [apply fin0|]. split; [apply fin0|]. split; [apply Qle_refl|]. split; [constructor|]. split; [cbn; lia|].
    split; [constructor|]. split; [constructor|]. split; [auto|]. discriminate.
  - destruct (DT lp (or_introl eq_refl)) as (x0 & y0 & -> & Fx & Fy & _ & _ & G).
    assert (TW : forall l, incl l ([x0; y0] :: others) -> forall ps, In ps l -> exists x y, ps = [x; y]).
    { intros l I ps P. destruct (DT ps (I ps P)) as (x & y & -> & _). eauto. }
    assert (REJ : exists tb ts p1 p2 kept dropped,
      Ok (fold_left (fun t ps => f_add_ps ps t) others [[]; []], [x0; y0]) = Ok ([tb; ts], [p1; p2])
      /\ finite_double p1 /\ finite_double p2 /\ (0 <= dval p1 + dval p2)%Q
      /\ Permutation (kept ++ dropped) (the_deals it bs ss) /\ length dropped <= 1
      /\ Permutation tb (map (fun ps => nth 0 ps (fint 0)) kept) /\ Permutation ts (map (fun ps => nth 1 ps (fint 0)) kept)
      /\ (the_deals it bs ss = [] -> p1 = fint 0 /\ p2 = fint 0)
      /\ (forall lp others', [x0; y0] :: others = lp :: others' -> exists x0 y0, lp = [x0; y0] /\ (dval p1 <= dval x0)%Q /\ (dval p2 <= dval y0)%Q)).
    { destruct (add_two others [] [] (TW others (fun z Z => or_intror Z))) as (tb & ts & T1 & T2 & T3).
      exists tb, ts, x0, y0, others, [[x0; y0]]. rewrite T1. split; [reflexivity|]. split; [assumption|]. split; [assumption|]. split; [cbn in G; xlra|].
      split; [rewrite <- PERM; apply Permutation_app_comm|]. split; [cbn; lia|]. split; [exact T2|]. split; [exact T3|]. split.
      - intros N. rewrite N in PERM. apply Permutation_sym, Permutation_nil in PERM. discriminate.
      - intros lp' o' EQ. injection EQ as <- <-. exists x0, y0. repeat split; xlra. }
    destruct h; cbn [bind]; [|exact REJ].
    destruct (f_good_price cand [x0; y0]) eqn:GP; [|exact REJ]. clear REJ.
    destruct (good_two cand x0 y0 Fx Fy G CC GP) as [Fcand Ncand]. destruct (good_price_two _ _ _ GP) as [G1 G2].
    destruct (unit_price_le cand x0 Fcand Fx G1) as (U1 & U2 & U3). destruct (unit_price_le cand y0 Fcand Fy G2) as (V1 & V2 & V3).
    destruct (add_two ([x0; y0] :: others) [] [] (TW _ (incl_refl _))) as (tb & ts & T1 & T2 & T3).
    exists tb, ts, (unit_price cand x0), (unit_price cand y0), ([x0; y0] :: others), []. rewrite T1. split; [reflexivity|].
    split; [assumption|]. split; [assumption|]. split.
    { rewrite U3, V3. destruct (Qlt_bool (dval x0) 0) eqn:A1, (Qlt_bool (dval y0) 0) eqn:A2; try xlra.
      apply Qlt_bool_iff in A1. apply Qlt_bool_iff in A2. cbn in G. xlra. }
    split; [rewrite app_nil_r; exact PERM|]. split; [cbn; lia|]. split; [exact T2|]. split; [exact T3|]. split.
    + intros N. rewrite N in PERM. apply Permutation_sym, Permutation_nil in PERM. discriminate.
    + intros lp' o' EQ. injection EQ as <- <-. exists x0, y0. auto.
Qed.
