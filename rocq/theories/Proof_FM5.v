(** * C100: with small integers the doubles are exact *)

From Coq Require Import String ZArith Reals Qreals QArith Qpower Qabs List Lia Lqa Lra Sorted Permutation.
From Coq Require Import SpecFloat.
From Flocq Require Import Core BinarySingleNaN Plus_error Relative.
From Verif Require Import Base Model_Agents Model_Trade Model_Market Model_TradeReduction Model_McAfee Model_Float Model_FloatMcAfee Spec_Float Spec_FloatMcAfee
  Proof_Float Proof_Float2 Proof_FM1 Proof_FM2 Proof_FM3.
Import ListNotations.

Local Open Scope nat_scope.
Ltac xlra := first [Lra.lra | Lqa.lra].
#[local] Existing Instance hprec.
#[local] Existing Instance hmax.

Lemma small_rep : forall x, small_int x -> exists z (b : bf), x = B2SF b /\ rep z b /\ (dval x == inject_Z z)%Q /\ (Z.abs z < 2 ^ 52)%Z.
Proof.
  intros x (F & z & E & L). destruct (finite_B x F) as (b & Fb & ->). exists z, b. split; [reflexivity|]. split; [|split; assumption].
  split; [exact Fb|]. rewrite <- dval_B by exact Fb. rewrite (Qeq_eqR _ _ E). unfold Q2R, inject_Z. cbn [Qnum Qden]. field.
Qed.

Lemma rep_dval : forall z (b : bf), rep z b -> (dval (B2SF b) == inject_Z z)%Q.
Proof. intros z b [F E]. apply eqR_Qeq. rewrite dval_B by exact F. rewrite E. unfold Q2R, inject_Z. cbn [Qnum Qden]. field. Qed.

Lemma small_gain : forall x y, small_int x -> small_int y -> exists z (g : bf), f_gft [x; y] = B2SF g /\ rep z g /\ (Qsum [dval x; dval y] == inject_Z z)%Q.
Proof.
  intros x y Hx Hy. destruct (small_rep x Hx) as (zx & a & -> & Ra & Ea & La). destruct (small_rep y Hy) as (zy & b & -> & Rb & Eb & Lb).
  exists (0 + zx + zy)%Z, (Bplus mode_NE (Bplus mode_NE (bint 0) a) b). split; [unfold f_gft; cbn [fold_left]; rewrite int_B, !add_B; reflexivity|]. split.
  - apply rep_add; auto; [|lia]. apply rep_add; auto; [|lia]. apply rep_int. lia.
  - cbn [Qsum fold_right]. rewrite Ea, Eb, !inject_Z_plus. ring.
Qed.

Lemma gain_cmp : forall x y x' y', small_int x -> small_int y -> small_int x' -> small_int y' ->
  fle (f_gft [x; y]) (f_gft [x'; y']) = Qle_bool (Qsum [dval x; dval y]) (Qsum [dval x'; dval y']).
Proof.
  intros x y x' y' H1 H2 H3 H4. destruct (small_gain x y H1 H2) as (z & g & -> & R & E). destruct (small_gain x' y' H3 H4) as (z' & g' & -> & R' & E').
  rewrite (rep_le z z') by assumption. apply bool_iff. rewrite Z.leb_le, Qle_bool_iff, E, E'. rewrite <- Zle_Qle. reflexivity.
Qed.

Lemma rep_half : forall n (w : bf), rep n w -> (Z.abs n < 2 ^ 53)%Z ->
  is_finite (Bdiv mode_NE w (bint 2)) = true /\ B2R (Bdiv mode_NE w (bint 2)) = (IZR n / 2)%R.
Proof.
  intros n w [Fw Ew] L. destruct (rep_int 2 ltac:(lia)) as [F2 E2]. assert (NZ : B2R (bint 2) <> 0%R) by (rewrite E2; Lra.lra).
  pose proof (Bdiv_correct 53 1024 hprec hmax mode_NE w (bint 2) NZ) as D. rewrite Ew, E2 in D.
  change (round radix2 (SpecFloat.fexp 53 1024) (round_mode mode_NE) (IZR n / 2)) with (rnd (IZR n / 2)) in D.
  assert (G : generic_format radix2 fexp64 (IZR n / 2)).
  { change fexp64 with (FLT_exp (SpecFloat.emin 53 1024) 53). apply generic_format_FLT. apply (FLT_spec _ _ _ _ (Float radix2 n (-1))).
    - unfold F2R. cbn. field.
    - exact L.
    - vm_compute. discriminate. }
  assert (R : rnd (IZR n / 2) = (IZR n / 2)%R) by (apply round_generic; auto with typeclass_instances).
  rewrite R in D. rewrite Rlt_bool_true in D; [destruct D as (D1 & D2 & _); rewrite Fw in D2; auto|].
  assert (S := int_small n ltac:(lia)). destruct (Rlt_bool_spec (Rabs (IZR n)) (bpow radix2 1024)) as [S'|]; [|discriminate].
  apply Rle_lt_trans with (Rabs (IZR n)); [|exact S']. unfold Rdiv. rewrite Rabs_mult, (Rabs_pos_eq (/ 2)) by Lra.lra. assert (P := Rabs_pos (IZR n)). Lra.lra.
Qed.

Lemma small_cand : forall a b, small_int a -> small_int b -> exists c, f_candidate [a; b] = Ok c /\ finite_double c /\ (dval c == (Qabs (dval a) + Qabs (dval b)) / 2)%Q.
Proof.
  intros a b Ha Hb. eexists. split; [reflexivity|]. cbn [map fold_left length Z.of_nat Pos.of_succ_nat Pos.succ].
  assert (AB : forall x, small_int x -> exists z (u : bf), SFabs x = B2SF u /\ rep z u /\ (Qabs (dval x) == inject_Z z)%Q /\ (0 <= z < 2 ^ 52)%Z).
  { intros x Hx. assert (Fx : finite_double x) by apply Hx. destruct (abs_fin x Fx) as (F & _ & E). destruct Hx as (_ & z & E' & L).
    destruct (finite_B _ F) as (u & Fu & EU). exists (Z.abs z), u. split; [exact EU|].
    assert (Q : (Qabs (dval x) == inject_Z (Z.abs z))%Q). { rewrite E'. unfold Qabs, inject_Z. reflexivity. }
    split; [|split; [exact Q|lia]]. split; [exact Fu|]. rewrite <- dval_B by exact Fu. rewrite <- EU. rewrite (Qeq_eqR _ _ E), (Qeq_eqR _ _ Q). unfold Q2R, inject_Z. cbn [Qnum Qden]. field. }
  destruct (AB a Ha) as (za & u & -> & Ru & Eu & Lu). destruct (AB b Hb) as (zb & v & -> & Rv & Ev & Lv).
  rewrite !int_B, !add_B, div_B.
  assert (RW : rep (0 + za + zb) (Bplus mode_NE (Bplus mode_NE (bint 0) u) v)). { apply rep_add; auto; [|lia]. apply rep_add; auto; [|lia]. apply rep_int. lia. }
  destruct (rep_half _ _ RW ltac:(lia)) as [F E]. split; [apply finite_SF; exact F|]. apply eqR_Qeq. rewrite dval_B by exact F. rewrite E.
  unfold Qdiv. rewrite Q2R_mult, Q2R_plus, (Qeq_eqR _ _ Eu), (Qeq_eqR _ _ Ev). rewrite !plus_IZR. unfold Q2R, inject_Z. cbn. field.
Qed.

Lemma dummy_small : small_int (fint (-100000000)).
Proof. destruct (fint_fin (-100000000)) as [F E]; [vm_compute; discriminate|]. split; [exact F|]. exists (-100000000)%Z. split; [exact E|reflexivity]. Qed.

Lemma good_exact : forall c c' ps, finite_double c -> Forall finite_double ps -> (dval c == c')%Q -> f_good_price c ps = is_price_good_for_ps c' (map dval ps).
Proof.
  intros c c' ps Hc Hps E. destruct (opp_fin c Hc) as [Fo Eo]. unfold f_good_price, is_price_good_for_ps. induction Hps as [|x ps Hx Hps IH]; [reflexivity|]. cbn [forallb map]. rewrite IH. f_equal. f_equal.
  rewrite !fle_dval, !flt_dval, dval0 by auto using fin0. f_equal; f_equal; unfold Qlt_bool; f_equal; apply bool_iff; rewrite !Qle_bool_iff; [rewrite E|rewrite Eo, E]; reflexivity.
Qed.

(** The traders. *)
Lemma add_exact : forall c d x y, Forall finite_double c -> Forall finite_double d -> finite_double x -> finite_double y ->
  mcafee_add_ps 0 2 [dval x; dval y] (exact_market [c; d]) = Ok (exact_market (f_add_ps [x; y] [c; d])).
Proof.
  intros c d x y Hc Hd Hx Hy. cbn. unfold append. cbn [cname cvalues].
  assert (K : forall l z, Forall finite_double l -> finite_double z -> sort_desc (map dval l ++ [dval z]) = map dval (f_desc (l ++ [z]))).
  { intros l z Hl Hz. rewrite f_desc_map by (apply Forall_app; split; [assumption|constructor; [assumption|constructor]]). rewrite map_app. reflexivity. }
  rewrite !K by assumption. reflexivity.
Qed.

Lemma fold_exact : forall deals c d, (forall ps, In ps deals -> exists x y, ps = [x; y] /\ finite_double x /\ finite_double y) -> Forall finite_double c -> Forall finite_double d ->
  fold_result (fun t ps => mcafee_add_ps 0 2 ps t) (map (map dval) deals) (exact_market [c; d]) = Ok (exact_market (fold_left (fun t ps => f_add_ps ps t) deals [c; d])).
Proof.
  induction deals as [|ps deals IH]; intros c d H Hc Hd; [reflexivity|]. destruct (H ps (or_introl eq_refl)) as (x & y & -> & Fx & Fy). cbn [map fold_result fold_left].
  change [dval x; dval y] with (map dval [x; y]) in *. cbn [map]. rewrite add_exact by assumption. cbn [bind f_add_ps]. apply IH.
  - intros qs Q. apply H. right. exact Q.
  - apply f_desc_finite. apply Forall_app. split; [assumption|constructor; [assumption|constructor]].
  - apply f_desc_finite. apply Forall_app. split; [assumption|constructor; [assumption|constructor]].
Qed.

Lemma head_exact : forall b s, Forall small_int b -> Forall small_int s -> exists a c qa qc, small_int a /\ small_int c
  /\ f_heads [match b with [] => [fint (-100000000)] | _ => b end; match s with [] => [fint (-100000000)] | _ => s end] = Some [a; c]
  /\ get_highest_agents (add_dummies MAX_VALUE (exact_market [b; s])) [1; 1] = Ok (Some [qa; qc]) /\ (qa == dval a)%Q /\ (qc == dval c)%Q.
Proof.
  assert (ED : (- MAX_VALUE == dval (fint (-100000000)))%Q) by (destruct (fint_fin (-100000000)) as [_ E]; [vm_compute; discriminate|rewrite E; reflexivity]).
  intros b s Hb Hs. destruct b as [|a b], s as [|c s].
  - exists (fint (-100000000)), (fint (-100000000)), (- MAX_VALUE)%Q, (- MAX_VALUE)%Q. split; [apply dummy_small|]. split; [apply dummy_small|]. split; [reflexivity|]. split; [reflexivity|]. split; exact ED.
  - inversion Hs; subst. exists (fint (-100000000)), c, (- MAX_VALUE)%Q, (dval c). split; [apply dummy_small|]. split; [assumption|]. split; [reflexivity|]. split; [reflexivity|]. split; [exact ED|reflexivity].
  - inversion Hb; subst. exists a, (fint (-100000000)), (dval a), (- MAX_VALUE)%Q. split; [assumption|]. split; [apply dummy_small|]. split; [reflexivity|]. split; [reflexivity|]. split; [reflexivity|exact ED].
  - inversion Hb; subst. inversion Hs; subst. exists a, c, (dval a), (dval c). split; [assumption|]. split; [assumption|]. split; [reflexivity|]. split; [reflexivity|]. split; reflexivity.
Qed.

Lemma trade_ok : forall c d P, exists n, new_trade (exact_market [c; d]) [1; 1] P = Ok (mkTrade (exact_market [c; d]) [1; 1] P n).
Proof. intros c d P. unfold new_trade. cbn. eexists. reflexivity. Qed.

Lemma shape : forall deals (c d : list double), (forall ps, In ps deals -> exists x y, ps = [x; y]) -> exists c' d', fold_left (fun t ps => f_add_ps ps t) deals [c; d] = [c'; d'].
Proof. intros deals c d H. destruct (add_two deals c d H) as (c' & d' & E & _). eauto. Qed.

Lemma exact_ints : forall it bs ss h, Forall small_int bs -> Forall small_int ss ->
  exists t tb ts p1 p2 q1 q2, mcafee_M MAX_VALUE it (exact_market [bs; ss]) [1; 1] h = Ok t
    /\ f_mcafee it [bs; ss] h = Ok ([tb; ts], [p1; p2])
    /\ map cvalues (tcats t) = [map dval tb; map dval ts] /\ tprices t = Some [q1; q2] /\ (q1 == dval p1)%Q /\ (q2 == dval p2)%Q.
Proof.
  intros it bs ss h Hb Hs.
  assert (FB : Forall finite_double bs) by (apply Forall_impl with (2 := Hb); intros a A; apply A).
  assert (FS : Forall finite_double ss) by (apply Forall_impl with (2 := Hs); intros a A; apply A).
  unfold mcafee_M. cbn [length exact_market map Nat.eqb negb forallb andb].
  change [mkCat "agent" (map dval bs); mkCat "agent" (map dval ss)] with (exact_market [bs; ss]). rewrite optimal2 by assumption. cbn [bind].
  unfold f_mcafee. cbn [map]. destruct (loop_pairs it (f_desc bs) (f_desc ss)) as (k & K1 & K2 & K3 & K4). rewrite K4. cbn [map].
  assert (DT : forall d, In d (the_deals it bs ss) -> exists x y, d = [x; y] /\ small_int x /\ small_int y).
  { intros d D. destruct (deal_two it bs ss d FB FS D) as (x & y & -> & _ & _ & X & Y & _). rewrite Forall_forall in Hb, Hs. exists x, y. auto. }
  fold (the_deals it bs ss).
  assert (SRT : sort_by Qsum (map (map dval) (the_deals it bs ss)) = map (map dval) (f_by_gft (the_deals it bs ss))).
  { symmetry. unfold f_by_gft, sort_by. apply isort_map. intros d e D E. destruct (DT d D) as (x & y & -> & X & Y). destruct (DT e E) as (x' & y' & -> & X' & Y'). apply gain_cmp; assumption. }
  rewrite SRT. clear SRT.
  assert (DT' : forall d, In d (f_by_gft (the_deals it bs ss)) -> exists x y, d = [x; y] /\ finite_double x /\ finite_double y).
  { intros d D. apply (Permutation_in _ (isort_perm _ _)) in D. destruct (DT d D) as (x & y & -> & X & Y). exists x, y. split; [reflexivity|]. split; [apply X|apply Y]. }
  assert (SK : forall l, Forall small_int l -> Forall small_int (skipn k (f_desc l))).
  { intros l Hl. apply Forall_forall. intros x Hx. rewrite Forall_forall in Hl. apply Hl. apply (Permutation_in _ (f_desc_perm l)). rewrite <- (firstn_skipn k). apply in_or_app. right. exact Hx. }
  destruct (head_exact _ _ (SK bs Hb) (SK ss Hs)) as (a & c & qa & qc & Sa & Sc & -> & -> & Ea & Ec). cbn [bind].
  destruct (small_cand a c Sa Sc) as (cand & -> & Fc & Ecand).
  assert (EC : (dval cand == Qsum (map Qabs [qa; qc]) / Qn 2)%Q).
  { rewrite Ecand. cbn [map Qsum fold_right]. rewrite Ea, Ec. change (Qn 2) with 2%Q. field. }
  change (price_candidate [qa; qc]) with (Ok (Qsum (map Qabs [qa; qc]) / Qn 2)%Q). set (q := (Qsum (map Qabs [qa; qc]) / Qn 2)%Q) in *.
  destruct (f_by_gft (the_deals it bs ss)) as [|lp others] eqn:E.
  - assert (G : forall o : option Q, match map (map dval) [] with
        | [] => new_trade (empty_agent_categories (exact_market [bs; ss])) [1; 1] (Some (repeat 0%Q 2)) | _ :: _ => Raise ValueError end
        = Ok (mkTrade (exact_market [[]; []]) [1; 1] (Some [0%Q; 0%Q]) 0)) by reflexivity.
    exists (mkTrade (exact_market [[]; []]) [1; 1] (Some [0%Q; 0%Q]) 0), [], [], (fint 0), (fint 0), 0%Q, 0%Q. split; [destruct h; reflexivity|]. split; [destruct h; reflexivity|]. split; [reflexivity|]. split; [reflexivity|]. split; reflexivity.
  - destruct (DT' lp (or_introl eq_refl)) as (x0 & y0 & -> & Fx & Fy). cbn [map].
    assert (GE := good_exact cand q [x0; y0] Fc (Forall_cons _ Fx (Forall_cons _ Fy (Forall_nil _))) EC). cbn [map] in GE.
    assert (EM : empty_agent_categories (exact_market [bs; ss]) = exact_market [[]; []]) by reflexivity.
    assert (REJ : exists t tb ts p1 p2 q1 q2,
      (traders <- fold_result (fun t ps => mcafee_add_ps 0 2 ps t) (map (map dval) others) (empty_agent_categories (exact_market [bs; ss])) ;;
       new_trade traders [1; 1] (Some [dval x0; dval y0])) = Ok t
      /\ Ok (fold_left (fun t ps => f_add_ps ps t) others [[]; []], [x0; y0]) = Ok ([tb; ts], [p1; p2])
      /\ map cvalues (tcats t) = [map dval tb; map dval ts] /\ tprices t = Some [q1; q2] /\ (q1 == dval p1)%Q /\ (q2 == dval p2)%Q).
    { rewrite EM. rewrite (fold_exact others [] [] (fun ps P => DT' ps (or_intror P)) (Forall_nil _) (Forall_nil _)). cbn [bind].
      destruct (shape others [] []) as (tb & ts & SH); [intros ps P; destruct (DT' ps (or_intror P)) as (x & y & -> & _); eauto|]. rewrite SH.
      destruct (trade_ok tb ts (Some [dval x0; dval y0])) as (n & ->). eexists. exists tb, ts, x0, y0, (dval x0), (dval y0).
      split; [reflexivity|]. split; [reflexivity|]. split; [reflexivity|]. split; [reflexivity|]. split; reflexivity. }
    destruct h; cbn [bind length]; [|exact REJ].
    rewrite <- GE. destruct (f_good_price cand [x0; y0]) eqn:GP; cbn [bind]; [|exact REJ]. clear REJ.
    destruct (good_price_two _ _ _ GP) as [G1 G2]. destruct (unit_price_le cand x0 Fc Fx G1) as (_ & _ & U3). destruct (unit_price_le cand y0 Fc Fy G2) as (_ & _ & V3).
    assert (FE := fold_exact ([x0; y0] :: others) [] [] DT' (Forall_nil _) (Forall_nil _)). rewrite EM. change (length (exact_market [bs; ss])) with 2.
    change (map (map dval) ([x0; y0] :: others)) with ([dval x0; dval y0] :: map (map dval) others) in FE.
    match goal with |- context[bind ?X _] => change X with (fold_result (fun t ps => mcafee_add_ps 0 2 ps t) ([dval x0; dval y0] :: map (map dval) others) (exact_market [[]; []])) end.
    rewrite FE. cbn [bind firstn map].
    destruct (shape ([x0; y0] :: others) [] []) as (tb & ts & SH); [intros ps P; destruct (DT' ps P) as (x & y & -> & _); eauto|]. rewrite SH.
    destruct (trade_ok tb ts (Some [(if Qlt_bool (dval x0) 0 then q * -1 else q * 1)%Q; (if Qlt_bool (dval y0) 0 then q * -1 else q * 1)%Q])) as (n & ->).
    eexists. exists tb, ts, (unit_price cand x0), (unit_price cand y0). do 2 eexists. split; [reflexivity|]. split; [reflexivity|]. split; [reflexivity|]. split; [reflexivity|].
    split; [rewrite U3; destruct (Qlt_bool (dval x0) 0)|rewrite V3; destruct (Qlt_bool (dval y0) 0)]; rewrite EC; ring.
Qed.
