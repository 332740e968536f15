(** * C105: with small integers the doubles are exact *)

From Coq Require Import String ZArith Reals Qreals QArith Qpower Qabs List Lia Lqa Lra Sorted Permutation.
From Coq Require Import SpecFloat.
From Flocq Require Import Core BinarySingleNaN.
From Verif Require Import Base Model_Agents Model_Trade Model_Prices Model_Market Model_TradeReduction Model_Float Model_FloatMcAfee Model_FloatTradeReduction
  Spec_Float Spec_FloatMcAfee Spec_FloatTradeReduction Proof_Float Proof_Float2 Proof_FM1 Proof_FM2 Proof_FM3 Proof_FM5 Proof_FT1 Proof_FT2 Proof_Units.
Import ListNotations.

Local Open Scope nat_scope.
Ltac xlra := first [Lqa.lra | Lra.lra].
#[local] Existing Instance hprec.
#[local] Existing Instance hmax.

Definition ones : list nat := [1; 1].

Lemma small_dot : forall x y, small_int x -> small_int y -> exists zx zy (a b g : bf), x = B2SF a /\ y = B2SF b /\ rep zx a /\ rep zy b /\ dot2 x y = B2SF g /\ rep (zx + zy) g
  /\ (dval x == inject_Z zx)%Q /\ (dval y == inject_Z zy)%Q /\ (Z.abs zx < 2 ^ 52)%Z /\ (Z.abs zy < 2 ^ 52)%Z.
Proof.
  intros x y Hx Hy. destruct (small_rep x Hx) as (zx & a & -> & Ra & Ea & La). destruct (small_rep y Hy) as (zy & b & -> & Rb & Eb & Lb).
  exists zx, zy, a, b. eexists. split; [reflexivity|]. split; [reflexivity|]. split; [exact Ra|]. split; [exact Rb|]. split.
  - unfold dot2, f_dot. cbn [f_dot_from]. change (Z.of_nat 1) with 1%Z. rewrite !int_B, !mul_B, !add_B. reflexivity.
  - split; [|auto]. replace (zx + zy)%Z with (0 + zx * 1 + zy * 1)%Z by ring.
    assert (R1 : rep 1 (bint 1)) by (apply rep_int; lia). apply rep_add; [|apply rep_mul; auto; lia|lia]. apply rep_add; [apply rep_int; lia|apply rep_mul; auto; lia|lia].
Qed.

Lemma small_external : forall incl x y, small_int x -> small_int y ->
  external incl (dot2 x y) = (Qlt_bool 0 (dval x + dval y) || (incl && Qeq_bool (dval x + dval y) 0))%bool.
Proof.
  intros incl x y Hx Hy. destruct (small_dot x y Hx Hy) as (zx & zy & a & b & g & _ & _ & _ & _ & E & R & Ex & Ey & Lx & Ly). unfold external. rewrite E.
  assert (Q : (dval x + dval y == inject_Z (zx + zy))%Q) by (rewrite Ex, Ey, inject_Z_plus; reflexivity).
  assert (R0 : rep 0 (bint 0)) by (apply rep_int; lia). rewrite int_B.
  f_equal; [|f_equal].
  - rewrite (rep_lt 0 (zx + zy)) by assumption. apply bool_iff. rewrite Z.ltb_lt, Qlt_bool_iff, Q. change 0%Q with (inject_Z 0). rewrite <- Zlt_Qlt. reflexivity.
  - change (SFeqb (B2SF g) (B2SF (bint 0))) with (Beqb g (bint 0)). destruct R as [F1 E1], R0 as [F2 E2]. rewrite Beqb_correct by assumption. rewrite E1, E2. apply bool_iff. rewrite Qeq_bool_iff, Q.
    change 0%Q with (inject_Z 0). rewrite inject_Z_injective. case Req_bool_spec; intros H; split; intros K; auto; try discriminate; [apply eq_IZR; exact H|]. subst. exfalso. apply H. rewrite K. reflexivity.
Qed.

Lemma small_price : forall x y v, small_int x -> small_int y -> v = x \/ v = y ->
  finite_double (pivot_price v (dot2 x y)) /\ (dval (pivot_price v (dot2 x y)) == dval v - (dval x + dval y))%Q.
Proof.
  intros x y v Hx Hy V. destruct (small_dot x y Hx Hy) as (zx & zy & a & b & g & EX & EY & Ra & Rb & E & R & Ex & Ey & Lx & Ly).
  assert (VV : exists zv (c : bf), v = B2SF c /\ rep zv c /\ (dval v == inject_Z zv)%Q /\ (zv = zx \/ zv = zy)).
  { destruct V as [->| ->]; [exists zx, a|exists zy, b]; auto. }
  destruct VV as (zv & c & EV & Rc & Ev & ZV). unfold pivot_price. rewrite E. rewrite EV at 1 2. rewrite int_B, mul_B, sub_B, div_B.
  assert (R1 : rep 1 (bint 1)) by (apply rep_int; lia).
  assert (RP : rep (zv * 1 - (zx + zy)) (Bdiv mode_NE (Bminus mode_NE (Bmult mode_NE c (bint 1)) g) (bint 1))).
  { apply rep_div1; [|exact R1]. apply rep_sub; [|exact R|lia]. apply rep_mul; auto. lia. }
  split; [apply finite_SF; apply RP|]. rewrite (rep_dval _ _ RP), Ex, Ey, Ev. rewrite Z.mul_1_r. unfold Z.sub, Qminus. rewrite inject_Z_plus, inject_Z_opp, inject_Z_plus. reflexivity.
Qed.

Lemma epivot0 : forall incl a b n1 n2 m1 m2 qb o qs tb ts,
  tr_pivot [1; 1] incl [a; b] (mkTR [mkCat n1 qb; mkCat n2 (o :: qs)] [mkCat m1 tb; mkCat m2 ts] None) 0
  = Ok (if (Qlt_bool 0 (dot [a; o] ones) || (incl && Qeq_bool (dot [a; o] ones) 0))%bool
        then mkTR [mkCat n1 qb; mkCat n2 (o :: qs)] [mkCat m1 (sort_desc (tb ++ [a])); mkCat m2 ts] (Some [((a * Qn 1 - dot [a; o] ones) / Qn 1)%Q; o])
        else mkTR [mkCat n1 (sort_desc (qb ++ [a])); mkCat n2 (o :: qs)] [mkCat m1 tb; mkCat m2 ts] None).
Proof. intros. unfold tr_pivot, ones. cbn -[dot Qlt_bool Qeq_bool Qdiv Qminus Qmult Qn sort_desc]. destruct (Qlt_bool _ _ || _)%bool; reflexivity. Qed.

Lemma epivot1 : forall incl a b n1 n2 m1 m2 o qb qs tb ts,
  tr_pivot [1; 1] incl [a; b] (mkTR [mkCat n1 (o :: qb); mkCat n2 qs] [mkCat m1 tb; mkCat m2 ts] None) 1
  = Ok (if (Qlt_bool 0 (dot [o; b] ones) || (incl && Qeq_bool (dot [o; b] ones) 0))%bool
        then mkTR [mkCat n1 (o :: qb); mkCat n2 qs] [mkCat m1 tb; mkCat m2 (sort_desc (ts ++ [b]))] (Some [o; ((b * Qn 1 - dot [o; b] ones) / Qn 1)%Q])
        else mkTR [mkCat n1 (o :: qb); mkCat n2 (sort_desc (qs ++ [b]))] [mkCat m1 tb; mkCat m2 ts] None).
Proof. intros. unfold tr_pivot, ones. cbn -[dot Qlt_bool Qeq_bool Qdiv Qminus Qmult Qn sort_desc]. destruct (Qlt_bool _ _ || _)%bool; reflexivity. Qed.

Lemma epivot_known : forall incl a b rem m1 m2 tb ts P i, i < 2 ->
  tr_pivot [1; 1] incl [a; b] (mkTR rem [mkCat m1 tb; mkCat m2 ts] (Some P)) i
  = Ok (mkTR rem (if i =? 0 then [mkCat m1 (sort_desc (tb ++ [a])); mkCat m2 ts] else [mkCat m1 tb; mkCat m2 (sort_desc (ts ++ [b]))]) (Some P)).
Proof. intros incl a b rem m1 m2 tb ts P [|[|i]] H; [reflexivity|reflexivity|lia]. Qed.

Definition rel (l : list double) (q : list Q) : Prop := Forall2 (fun x v => finite_double x /\ (dval x == v)%Q) l q.

Lemma rel_append : forall l q x, rel l q -> finite_double x -> rel (f_desc (l ++ [x])) (sort_desc (q ++ [dval x])).
Proof.
  intros l q x R F. unfold f_desc, sort_desc. apply F2_isort.
  - apply Forall2_app; [exact R|]. constructor; [split; [exact F|reflexivity]|constructor].
  - intros a b a' b' [Fa Ea] [Fb Eb]. rewrite fle_dval by assumption. apply bool_iff. rewrite !Qle_bool_iff, Ea, Eb. reflexivity.
Qed.

Inductive sim : f_tr_state -> tr_state -> Prop :=
| sim_none : forall rb rs qb qs tb ts, rel rb qb -> rel rs qs -> rb <> [] -> rs <> [] -> Forall small_int rb -> Forall small_int rs -> Forall finite_double tb -> Forall finite_double ts ->
    sim (mkFTR [rb; rs] [tb; ts] None) (mkTR [mkCat "agent" qb; mkCat "agent" qs] (exact_market [tb; ts]) None)
| sim_some : forall rem qrem tb ts p1 p2 q1 q2, Forall finite_double tb -> Forall finite_double ts -> (q1 == dval p1)%Q -> (q2 == dval p2)%Q ->
    sim (mkFTR rem [tb; ts] (Some [p1; p2])) (mkTR qrem (exact_market [tb; ts]) (Some [q1; q2])).

Lemma desc_append : forall l z, Forall finite_double l -> finite_double z -> sort_desc (map dval l ++ [dval z]) = map dval (f_desc (l ++ [z])).
Proof. intros l z Hl Hz. rewrite f_desc_map by (apply Forall_app; split; [assumption|constructor; [assumption|constructor]]). rewrite map_app. reflexivity. Qed.

Lemma finite_append : forall l z, Forall finite_double l -> finite_double z -> Forall finite_double (f_desc (l ++ [z])).
Proof. intros l z Hl Hz. apply f_desc_finite. apply Forall_app. split; [assumption|constructor; [assumption|constructor]]. Qed.

Lemma small_append : forall l z, Forall small_int l -> small_int z -> Forall small_int (f_desc (l ++ [z])) /\ f_desc (l ++ [z]) <> [].
Proof.
  intros l z Hl Hz. split.
  - rewrite f_desc_perm. apply Forall_app. split; [assumption|constructor; [assumption|constructor]].
  - intros E. assert (P := f_desc_perm (l ++ [z])). rewrite E in P. apply Permutation_nil in P. destruct l; discriminate.
Qed.

Lemma cond_eq : forall incl x o a q, small_int x -> small_int o -> (dval x == a)%Q -> (dval o == q)%Q ->
  (Qlt_bool 0 (dot [a; q] ones) || (incl && Qeq_bool (dot [a; q] ones) 0))%bool = external incl (dot2 x o).
Proof.
  intros incl x o a q Hx Ho Ea Eq. rewrite small_external by assumption.
  assert (D : (dot [a; q] ones == dval x + dval o)%Q). { unfold ones. cbn [dot]. change (Qn 1) with 1%Q. rewrite Ea, Eq. ring. }
  f_equal; [apply bool_iff; rewrite !Qlt_bool_iff, D; reflexivity|]. f_equal. apply bool_iff. rewrite !Qeq_bool_iff, D. reflexivity.
Qed.

Lemma price_eq : forall x o a q v w, small_int x -> small_int o -> (dval x == a)%Q -> (dval o == q)%Q -> v = x \/ v = o -> (dval v == w)%Q ->
  ((w * Qn 1 - dot [a; q] ones) / Qn 1 == dval (pivot_price v (dot2 x o)))%Q.
Proof.
  intros x o a q v w Hx Ho Ea Eq V Ev. destruct (small_price x o v Hx Ho V) as [_ ->]. unfold ones. cbn [dot]. change (Qn 1) with 1%Q. rewrite Ea, Eq, Ev. field.
Qed.

Lemma sim_ps : forall incl x y fs es, small_int x -> small_int y -> sim fs es ->
  exists fs' es', f_tr_ps incl fs [x; y] = Ok fs' /\ tr_ps [1; 1] incl es [dval x; dval y] = Ok es' /\ sim fs' es'.
Proof.
  intros incl x y fs es Hx Hy S. assert (Fx := proj1 Hx). assert (Fy := proj1 Hy). unfold f_tr_ps, tr_ps. cbn [length seq f_fold]. change (pivot_indexes [1; 1]) with [0; 1]. cbn [fold_result].
  destruct S as [rb rs qb qs tb ts Rb Rs Nb Ns Sb Ss Ft Fs|rem qrem tb ts p1 p2 q1 q2 Ft Fs E1 E2].
  - cbn [exact_market map]. destruct rs as [|o rs]; [congruence|]. inversion Rs as [|? q0 ? qs' [Fo Eo] Rs']; subst. inversion Ss as [|? ? So Ss']; subst.
    rewrite pivot0, epivot0. cbn [bind]. rewrite (cond_eq incl x o (dval x) q0 Hx So (Qeq_refl _) Eo).
    destruct (external incl (dot2 x o)) eqn:X.
    + rewrite pivot_known, epivot_known by lia. cbn [bind Nat.eqb]. rewrite !desc_append by assumption. do 2 eexists. split; [reflexivity|]. split; [reflexivity|].
      apply (sim_some _ _ (f_desc (tb ++ [x])) (f_desc (ts ++ [y]))); auto using finite_append.
      * apply price_eq; auto; reflexivity.
      * symmetry. exact Eo.
    + destruct (small_append rb x Sb Hx) as [Sb2 Nb2]. assert (Rb2 := rel_append rb qb x Rb Fx).
      destruct (f_desc (rb ++ [x])) as [|c rb2]; [congruence|]. inversion Rb2 as [|? q3 ? qb3 [Fc Ec] Rb3 EL ER]; subst. inversion Sb2 as [|? ? Sc Sb3]; subst.
      rewrite pivot1, epivot1. cbn [bind]. rewrite (cond_eq incl c y q3 (dval y) Sc Hy Ec (Qeq_refl _)).
      destruct (external incl (dot2 c y)).
      * rewrite !desc_append by assumption. do 2 eexists. split; [reflexivity|]. split; [reflexivity|].
        apply (sim_some _ _ tb (f_desc (ts ++ [y]))); auto using finite_append; [symmetry; exact Ec|]. apply price_eq; auto; reflexivity.
      * do 2 eexists. split; [reflexivity|]. split; [reflexivity|]. destruct (small_append (o :: rs) y Ss Hy) as [Ss2 Ns2].
        apply (sim_none (c :: rb2) (f_desc ((o :: rs) ++ [y])) (q3 :: qb3) (sort_desc ((q0 :: qs') ++ [dval y]))); auto; [rewrite ER; exact Rb2|]. apply (rel_append (o :: rs) (q0 :: qs') y); auto.
  - cbn [exact_market map]. rewrite pivot_known, epivot_known by lia. cbn [bind Nat.eqb]. rewrite pivot_known, epivot_known by lia. cbn [bind Nat.eqb]. rewrite !desc_append by assumption.
    do 2 eexists. split; [reflexivity|]. split; [reflexivity|]. apply (sim_some _ _ (f_desc (tb ++ [x])) (f_desc (ts ++ [y]))); auto using finite_append.
Qed.

Lemma sim_run : forall incl deals fs es, (forall d, In d deals -> exists x y, d = [x; y] /\ small_int x /\ small_int y) -> sim fs es ->
  exists fs' es', f_fold (f_tr_ps incl) deals fs = Ok fs' /\ fold_result (tr_ps [1; 1] incl) (map (map dval) deals) es = Ok es' /\ sim fs' es'.
Proof.
  intros incl deals. induction deals as [|d deals IH]; intros fs es H S; [exists fs, es; auto|]. destruct (H d (or_introl eq_refl)) as (x & y & -> & Hx & Hy).
  destruct (sim_ps incl x y fs es Hx Hy S) as (fs' & es' & E1 & E2 & S'). cbn [f_fold map fold_result]. rewrite E1, E2. cbn [bind]. apply IH; [|exact S']. intros e E. apply H. right. exact E.
Qed.

Lemma rel_dval : forall l, Forall finite_double l -> rel l (map dval l).
Proof. induction 1; constructor; auto. split; [assumption|reflexivity]. Qed.

Lemma tr_exact : forall it bs ss incl, Forall small_int bs -> Forall small_int ss ->
  exists t tb ts P, trade_reduction_M MAX_VALUE it (exact_market [bs; ss]) [1; 1] incl = Ok t
    /\ f_trade_reduction it [bs; ss] incl = Ok ([tb; ts], P)
    /\ map cvalues (tcats t) = [map dval tb; map dval ts] /\ same_prices P (tprices t).
Proof.
  intros it bs ss incl Hb Hs.
  assert (FB : Forall finite_double bs) by (apply Forall_impl with (2 := Hb); intros a A; apply A).
  assert (FS : Forall finite_double ss) by (apply Forall_impl with (2 := Hs); intros a A; apply A).
  unfold trade_reduction_M. cbn [length exact_market map Nat.eqb].
  change [mkCat "agent" (map dval bs); mkCat "agent" (map dval ss)] with (exact_market [bs; ss]). rewrite optimal2 by assumption. cbn [bind].
  unfold f_trade_reduction. cbn [map]. fold (the_deals it bs ss).
  assert (DT : forall d, In d (the_deals it bs ss) -> exists x y, d = [x; y] /\ small_int x /\ small_int y).
  { intros d D. destruct (deal_two it bs ss d FB FS D) as (x & y & -> & _ & _ & X & Y & _). rewrite Forall_forall in Hb, Hs. exists x, y. auto. }
  assert (SRT : sort_by Qsum (map (map dval) (the_deals it bs ss)) = map (map dval) (f_by_gft (the_deals it bs ss))).
  { symmetry. unfold f_by_gft, sort_by. apply isort_map. intros d e D E. destruct (DT d D) as (x & y & -> & X & Y). destruct (DT e E) as (x' & y' & -> & X' & Y'). apply gain_cmp; assumption. }
  rewrite SRT. clear SRT.
  assert (DT' : forall d, In d (f_by_gft (the_deals it bs ss)) -> exists x y, d = [x; y] /\ small_int x /\ small_int y).
  { intros d D. apply (Permutation_in _ (isort_perm _ _)) in D. apply DT. exact D. }
  destruct (loop_pairs it (f_desc bs) (f_desc ss)) as (k & K1 & K2 & K3 & K4). rewrite K4.
  assert (SK : forall l, Forall small_int l -> Forall small_int (skipn k (f_desc l))).
  { intros l Hl. apply Forall_forall. intros x Hx. rewrite Forall_forall in Hl. apply Hl. apply (Permutation_in _ (f_desc_perm l)). rewrite <- (firstn_skipn k). apply in_or_app. right. exact Hx. }
  assert (SB := SK bs Hb). assert (SS := SK ss Hs). clear SK K1 K2 K3 K4. revert SB SS. generalize (skipn k (f_desc bs)) (skipn k (f_desc ss)). intros b s SB SS.
  destruct (f_by_gft (the_deals it bs ss)) as [|d0 ds] eqn:E.
  - cbn [map]. eexists. exists [], [], (Some [fint 0; fint 0]). split; [reflexivity|]. split; [reflexivity|]. split; [reflexivity|]. cbn. split; [reflexivity|]. repeat constructor.
  - assert (EM : empty_agent_categories (exact_market [bs; ss]) = exact_market [[]; []]) by reflexivity. rewrite EM.
    change (map (map dval) (d0 :: ds)) with (map dval d0 :: map (map dval) ds).
    assert (DUM : forall l, Forall small_int l -> exists q, add_dummies MAX_VALUE (exact_market [l]) = [mkCat "agent" q] /\ rel (match l with [] => [fint (-100000000)] | _ => l end) q
       /\ match l with [] => [fint (-100000000)] | _ => l end <> [] /\ Forall small_int (match l with [] => [fint (-100000000)] | _ => l end)).
    { intros l Hl. destruct l as [|x l].
      - exists [(- MAX_VALUE)%Q]. split; [reflexivity|]. split; [|split; [discriminate|constructor; [apply dummy_small|constructor]]].
        constructor; [|constructor]. split; [apply dummy_small|]. destruct (fint_fin (-100000000)) as [_ E0]; [vm_compute; discriminate|rewrite E0; reflexivity].
      - exists (map dval (x :: l)). split; [reflexivity|]. split; [apply rel_dval; apply Forall_impl with (2 := Hl); intros a A; apply A|]. split; [discriminate|exact Hl]. }
    assert (GO : forall lst (nb ns : list double), (forall d, In d lst -> exists x y, d = [x; y] /\ small_int x /\ small_int y) -> Forall small_int nb -> Forall small_int ns ->
      exists t tb ts P,
        (s <- fold_result (tr_ps [1; 1] incl) (map (map dval) lst) (mkTR (add_dummies MAX_VALUE (exact_market [nb; ns])) (exact_market [[]; []]) None) ;; new_trade (tr_traders s) [1; 1] (tr_prices s)) = Ok t
        /\ (s <- f_fold (f_tr_ps incl) lst (mkFTR [match nb with [] => [fint (-100000000)] | _ => nb end; match ns with [] => [fint (-100000000)] | _ => ns end] [[]; []] None) ;; Ok (ftr_traders s, ftr_prices s)) = Ok ([tb; ts], P)
        /\ map cvalues (tcats t) = [map dval tb; map dval ts] /\ same_prices P (tprices t)).
    { intros lst nb ns HL Hnb Hns. destruct (DUM nb Hnb) as (q1 & A1 & A2 & A3 & A4). destruct (DUM ns Hns) as (q2 & B1 & B2 & B3 & B4).
      assert (AD : add_dummies MAX_VALUE (exact_market [nb; ns]) = [mkCat "agent" q1; mkCat "agent" q2]).
      { change (add_dummies MAX_VALUE (exact_market [nb; ns])) with (add_dummies MAX_VALUE (exact_market [nb]) ++ add_dummies MAX_VALUE (exact_market [ns])). rewrite A1, B1. reflexivity. }
      rewrite AD. destruct (sim_run incl lst _ _ HL (sim_none _ _ q1 q2 [] [] A2 B2 A3 B3 A4 B4 (Forall_nil _) (Forall_nil _))) as (fs & es & R1 & R2 & S).
      rewrite R1, R2. cbn [bind]. destruct S as [rb rs qb qs tb ts|rem qrem tb ts p1 p2 r1 r2 Ft Fs E1 E2]; cbn [tr_traders tr_prices ftr_traders ftr_prices].
      - destruct (trade_ok tb ts None) as (n & ->). eexists. exists tb, ts, None. split; [reflexivity|]. split; [reflexivity|]. split; [reflexivity|]. exact I.
      - destruct (trade_ok tb ts (Some [r1; r2])) as (n & ->). eexists. exists tb, ts, (Some [p1; p2]). split; [reflexivity|]. split; [reflexivity|]. split; [reflexivity|].
        cbn. split; [reflexivity|]. constructor; [exact E1|]. constructor; [exact E2|constructor]. }
    assert (DT2 : forall d, In d (d0 :: ds) -> exists x y, d = [x; y] /\ small_int x /\ small_int y) by exact DT'.
    destruct b as [|h1 b]; [|destruct s as [|h2 s]].
    + cbn [f_heads exact_market map get_highest_agents]. apply (GO (d0 :: ds) [] s DT2); auto.
    + assert (HN : get_highest_agents (exact_market [h1 :: b; []]) [1; 1] = Ok None) by reflexivity. rewrite HN. cbn [f_heads bind fst snd map]. apply (GO (d0 :: ds) (h1 :: b) [] DT2); auto.
    + assert (HN : get_highest_agents (exact_market [h1 :: b; h2 :: s]) [1; 1] = Ok (Some [dval h1; dval h2])) by reflexivity. rewrite HN.
      assert (HR : market_remove_highest (exact_market [h1 :: b; h2 :: s]) [1; 1] = Ok (exact_market [b; s])) by reflexivity. cbn [bind]. rewrite HR. cbn [f_heads bind fst snd map tl].
      inversion SB; subst. inversion SS; subst. apply (GO ([h1; h2] :: d0 :: ds) b s); auto. intros d [<-|D]; [exists h1, h2; auto|apply DT2; exact D].
Qed.
