(** * C120: with doubles, an agent who trades in the trade-reduction protocol changes the prices by roundings only *)

From Coq Require Import String List Arith ZArith QArith Qabs Lia Lqa Permutation.
From Coq Require Import SpecFloat.
From Verif Require Import Base Model_Float Model_FloatMcAfee Model_FloatTradeReduction Spec_Float Spec_FloatMcAfee Spec_FloatReductionTruth
  Proof_Float2 Proof_FM4 Proof_FTT Proof_FTT2.
Import ListNotations.
Open Scope Q_scope.

Lemma near_abs : forall a b c d E, Qabs (a - c) <= E -> Qabs (b - d) <= E -> c <= d + 4 * E -> d <= c + 4 * E -> Qabs (a - b) <= 6 * E.
Proof.
  intros a b c d E H1 H2 H3 H4. apply Qabs_Qle_condition in H1. apply Qabs_Qle_condition in H2. apply Qabs_Qle_condition. split; lra.
Qed.

Lemma near_abs' : forall a b c d E, Qabs (a + c) <= E -> Qabs (b + d) <= E -> c <= d + 4 * E -> d <= c + 4 * E -> Qabs (a - b) <= 6 * E.
Proof.
  intros a b c d E H1 H2 H3 H4. apply Qabs_Qle_condition in H1. apply Qabs_Qle_condition in H2. apply Qabs_Qle_condition. split; lra.
Qed.

Theorem buyer_no_influence : forall it incl pre post ss v v' B tb ts P tb' ts' P',
  Forall finite_double (v' :: pre ++ v :: post) -> Forall finite_double ss ->
  Forall (fun b => 0 <= dval b <= B) (v' :: pre ++ v :: post) -> Forall (fun s => -100000000 <= dval s <= 0) ss -> B < 100000000 ->
  (length (pre ++ v :: post) < it)%nat ->
  f_trade_reduction it [pre ++ v :: post; ss] incl = Ok ([tb; ts], P) -> f_trade_reduction it [pre ++ v' :: post; ss] incl = Ok ([tb'; ts'], P') ->
  In v tb -> In v' tb' -> exists p1 p2 p1' p2', P = Some [p1; p2] /\ P' = Some [p1'; p2']
  /\ Qabs (dval p1 - dval p1') <= 6 * ((1 # 4503599627370496) * B) /\ Qabs (dval p2 - dval p2') <= 6 * ((1 # 4503599627370496) * B).
Proof.
  intros it incl pre post ss v v' B tb ts P tb' ts' P' F0 FS VB0 VS HB CAP H H' I I'.
  inversion F0 as [|? ? Fv' F]; subst. inversion VB0 as [|? ? Vv' VB]; subst.
  assert (F' := swap_Forall _ _ _ v' _ F Fv'). assert (VB' := swap_Forall _ _ _ v' _ VB Vv').
  assert (CAP' : (length (pre ++ v' :: post) < it)%nat) by (rewrite app_length in *; cbn [length] in *; exact CAP).
  change (1 # 4503599627370496) with eps. set (E := eps * B). assert (HE : 0 <= E) by (apply Qmult_le_0_compat; [discriminate|lra]).
  destruct (fclear _ ss B F FS VB VS HB it incl tb ts P CAP H) as [(T1 & _)|(p1 & p2 & rb & wb & ws & c & -> & C)]; [subst; destruct I|].
  destruct (fclear _ ss B F' FS VB' VS HB it incl tb' ts' P' CAP' H') as [(T1' & _)|(p1' & p2' & rb' & wb' & ws' & c' & -> & C')]; [subst; destruct I'|].
  fold E in C, C'. exists p1, p2, p1', p2'. split; [reflexivity|]. split; [reflexivity|].
  assert (X := buyer_price _ _ _ _ _ _ _ _ _ _ _ _ _ _ _ _ _ _ _ _ _ _ HE C C' I').
  assert (Y := buyer_price _ _ _ _ _ _ _ _ _ _ _ _ _ _ _ _ _ _ _ _ _ _ HE C' C I). split.
  - exact (near_abs _ _ _ _ _ (c_p1 _ _ _ _ _ _ _ _ _ _ _ C) (c_p1 _ _ _ _ _ _ _ _ _ _ _ C') X Y).
  - exact (near_abs' _ _ _ _ _ (c_p2 _ _ _ _ _ _ _ _ _ _ _ C) (c_p2 _ _ _ _ _ _ _ _ _ _ _ C') X Y).
Qed.

Theorem seller_no_influence : forall it incl bs pre post v v' B tb ts P tb' ts' P', 0 <= B ->
  Forall finite_double bs -> Forall finite_double (v' :: pre ++ v :: post) ->
  Forall (fun b => 0 <= dval b <= B) bs -> Forall (fun s => -100000000 <= dval s <= 0) (v' :: pre ++ v :: post) -> B < 100000000 ->
  (length bs < it)%nat ->
  f_trade_reduction it [bs; pre ++ v :: post] incl = Ok ([tb; ts], P) -> f_trade_reduction it [bs; pre ++ v' :: post] incl = Ok ([tb'; ts'], P') ->
  In v ts -> In v' ts' -> exists p1 p2 p1' p2', P = Some [p1; p2] /\ P' = Some [p1'; p2']
  /\ Qabs (dval p1 - dval p1') <= 6 * ((1 # 4503599627370496) * B) /\ Qabs (dval p2 - dval p2') <= 6 * ((1 # 4503599627370496) * B).
Proof.
  intros it incl bs pre post v v' B tb ts P tb' ts' P' B0 FB F0 VB VS0 HB CAP H H' I I'.
  inversion F0 as [|? ? Fv' F]; subst. inversion VS0 as [|? ? Vv' VS]; subst.
  assert (F' := swap_Forall _ _ _ v' _ F Fv'). assert (VS' := swap_Forall _ _ _ v' _ VS Vv').
  change (1 # 4503599627370496) with eps. set (E := eps * B). assert (HE : 0 <= E) by (apply Qmult_le_0_compat; [discriminate|exact B0]).
  destruct (fclear bs _ B FB F VB VS HB it incl tb ts P CAP H) as [(_ & T1 & _)|(p1 & p2 & rb & wb & ws & c & -> & C)]; [subst; destruct I|].
  destruct (fclear bs _ B FB F' VB VS' HB it incl tb' ts' P' CAP H') as [(_ & T1' & _)|(p1' & p2' & rb' & wb' & ws' & c' & -> & C')]; [subst; destruct I'|].
  fold E in C, C'. exists p1, p2, p1', p2'. split; [reflexivity|]. split; [reflexivity|].
  assert (X := seller_price _ _ _ _ _ _ _ _ _ _ _ _ _ _ _ _ _ _ _ _ _ _ HE C C' I').
  assert (Y := seller_price _ _ _ _ _ _ _ _ _ _ _ _ _ _ _ _ _ _ _ _ _ _ HE C' C I). split.
  - exact (near_abs _ _ _ _ _ (c_p1 _ _ _ _ _ _ _ _ _ _ _ C) (c_p1 _ _ _ _ _ _ _ _ _ _ _ C') Y X).
  - exact (near_abs' _ _ _ _ _ (c_p2 _ _ _ _ _ _ _ _ _ _ _ C) (c_p2 _ _ _ _ _ _ _ _ _ _ _ C') Y X).
Qed.
