(** * C124: with doubles, an agent who left the ascending auction does not envy those who trade, up to the rounding *)

From Coq Require Import String ZArith Reals Qreals QArith Qpower Qabs List Lia Lra Lqa Sorted Permutation.
From Coq Require Import SpecFloat.
From Flocq Require Import Core BinarySingleNaN Plus_error Relative.
From Verif Require Import Base Model_Float Spec_Float Spec_FloatMcAfee Spec_FloatBudget Spec_FloatTruth
  Proof_Float Proof_Float2 Proof_FM1 Proof_FB1 Proof_FB2 Proof_FB3 Proof_FU1 Proof_FU2 Proof_FU3 Proof_FU4.
Import ListNotations.

Local Open Scope nat_scope.
#[local] Existing Instance hprec.
#[local] Existing Instance hmax.
#[local] Existing Instance ve.
Ltac lra := first [Lra.lra | Lqa.lra].

Lemma desc_app : forall a low b, fdesc (a ++ low :: b) -> Forall (fun v => fle low v = true) a /\ fdesc (a ++ b).
Proof.
  induction a as [|z a IH]; intros low b S; cbn [app] in *; inversion S as [|? ? S1 S2]; subst; [split; [constructor|exact S1]|].
  destruct (IH _ _ S1) as [I1 I2]. split.
  - constructor; [|exact I1]. rewrite Forall_forall in S2. apply S2. apply in_or_app. right. left. reflexivity.
  - constructor; [exact I2|]. rewrite Forall_forall in *. intros y Hy. apply S2. apply in_app_or in Hy. apply in_or_app. destruct Hy as [|]; [left|right; right]; assumption.
Qed.

Lemma app_self : forall A (c q : list A), c ++ q = c -> q = [].
Proof. intros A c q H. apply (f_equal (@length A)) in H. rewrite app_length in H. destruct q; [reflexivity|cbn in H; lia]. Qed.

Section Envy.
Variables (recipe : list nat) (B : Q) (k : Z) (i : nat).
Hypothesis (HB : (100000000 <= B)%Q).
Hypothesis (HK : (2 * inject_Z (traders recipe) * B <= Qpower 2 k)%Q).
Hypothesis (K1000 : (k <= 1000)%Z).
Hypothesis (HT : (traders recipe <= 2 ^ 53)%Z).
Hypothesis (HN : (2 * Z.of_nat (length recipe) + 2 <= 2 ^ 53)%Z).

Let err := ((4 * INR (length recipe) + 8) * bpow radix2 (k - 54))%R.

Lemma leaver_price : forall fuel cats ps cats' prices' c rest,
  length cats = length recipe -> Forall (Forall (bound B)) cats -> Forall (okp (Q2R B)) ps -> length ps = length recipe ->
  nth_error cats i = Some (c ++ rest) -> fdesc (c ++ rest) ->
  f_loop fuel recipe cats (map B2SF ps) = Ok (cats', prices') -> nth_error cats' i = Some c ->
  forall x : bf, In (B2SF x) rest -> exists bp : bf, nth_error prices' i = Some (B2SF bp) /\ is_finite bp = true /\ (B2R x - err <= B2R bp)%R.
Proof.
  induction fuel as [|fuel IH]; intros cats ps cats' prices' c rest Lc HC HP LP Ec SD H Ec' x Hx; [discriminate|].
  cbn [f_loop] in H. change (filter _ _) with (relevant recipe) in H.
  destruct (relevant recipe) as [|y l] eqn:R; [discriminate|].
  assert (Im : In (f_argmax_from (f_potential cats recipe) y l) (relevant recipe)) by (rewrite R; apply argmax_in).
  set (main := f_argmax_from _ _ _) in *. clearbody main.
  destruct (relevant_in _ _ Im) as (r & Hr).
  assert (Hi : main < length recipe) by (apply nth_error_Some; congruence).
  destruct (nth_error cats main) as [cm|] eqn:Hc; [|apply nth_error_None in Hc; lia].
  destruct (nth_error ps main) as [pm|] eqn:Hp; [|apply nth_error_None in Hp; lia].
  assert (Hp' : nth_error (map B2SF ps) main = Some (B2SF pm)) by (rewrite nth_error_map, Hp; reflexivity).
  assert (STOP : cats' = cats -> False).
  { intros ->. rewrite Ec in Ec'. injection Ec' as E0. apply app_self in E0. subst rest. destruct Hx. }
  unfold get in H. rewrite Hc in H. cbn [bind] in H.
  destruct (rev cm) as [|low rc] eqn:Rc; [inversion H; subst; exfalso; auto|].
  apply rev_last in Rc.
  destruct (increase_ok recipe (map B2SF ps) main r low (B2SF pm) Hr Hp') as (b & np & E & E1 & E2). rewrite E in H. cbn [bind fst snd] in H.
  destruct (sizes recipe B k main r Hr HB HK) as (B1 & HB' & K1).
  assert (BC := Forall_nth _ _ _ _ _ HC Hc). rewrite Rc in BC. apply Forall_app in BC. destruct BC as [BC BL]. inversion BL as [|? ? BL1 _]; subst.
  destruct (bound_okp B low BL1) as (bl & El & OL). subst low.
  destruct b; [inversion H; subst; exfalso; auto|].
  rewrite (E1 eq_refl) in E, H.
  assert (ST : fle (fint 0) (fadd (fsub (f_dot (map B2SF ps) recipe) (fmul (fint (Z.of_nat (S r))) (B2SF pm))) (fmul (fint (Z.of_nat (S r))) (B2SF bl))) = false).
  { symmetry. exact (increase_flag _ _ _ _ _ _ _ _ Hr Hp' E). }
  assert (SM := stay_sum k (Q2R B) recipe ps main r pm bl ltac:(lia) ltac:(lra) HP (HR recipe HT) LP Hr Hp HB' HN OL ST).
  rewrite <- map_set in H.
  assert (HP2 : Forall (okp (Q2R B)) (set_nth main bl ps)) by (apply Forall_set; assumption).
  assert (HC2 : Forall (Forall (bound B)) (set_nth main (removelast cm) cats)) by (apply Forall_set; assumption).
  destruct (Nat.eq_dec main i) as [->|NE].
  - rewrite Ec in Hc. injection Hc as <-.
    destruct (rev rest) as [|low' q'] eqn:RQ. { assert (rest = []) by (rewrite <- (rev_involutive rest), RQ; reflexivity). subst rest. destruct Hx. }
    apply rev_last in RQ. assert (RL : removelast (c ++ rest) = c ++ removelast rest) by (rewrite RQ at 1; rewrite app_assoc, removelast_last; reflexivity).
    rewrite RL in *. assert (low' = B2SF bl) as ->.
    { rewrite RQ in Rc at 1. rewrite app_assoc in Rc. apply app_inj_tail in Rc. apply Rc. }
    rewrite RQ in SD. rewrite app_assoc in SD. apply desc_app in SD. destruct SD as [SD1 SD2]. rewrite app_nil_r in SD2.
    rewrite RQ in Hx. apply in_app_or in Hx. destruct Hx as [Hx|[Hx|[]]].
    + apply (IH (set_nth i (c ++ removelast rest) cats) (set_nth i bl ps) cats' prices' c (removelast rest)); auto; rewrite ?set_len; auto. apply nth_set_same. lia.
    + apply B2SF_inj in Hx. subst x.
      eapply (tail_price recipe B k i HB HK K1000 HT HN bl OL) with (p := bl) (c := c ++ removelast rest) in H; auto; rewrite ?set_len; auto.
      * apply nth_set_same. lia.
      * apply nth_set_same. lia.
      * apply Rle_refl.
  - apply (IH (set_nth main (removelast cm) cats) (set_nth main bl ps) cats' prices' c rest); auto; rewrite ?set_len; auto. rewrite nth_set_other by exact NE. exact Ec.
Qed.

Lemma no_envy : forall cats ct pt l c rest p x, Forall (Forall (bound B)) cats ->
  f_auction cats recipe = Ok (ct, pt) -> nth_error cats i = Some l -> nth_error ct i = Some c -> nth_error pt i = Some p ->
  Permutation l (c ++ rest) -> In x rest ->
  (dval x <= dval p + inject_Z (4 * Z.of_nat (length recipe) + 8) * Qpower 2 (k - 54))%Q.
Proof.
  intros cats ct pt l c rest p x BC H Hl Hc Hp P Hx.
  assert (FB := Forall2_nth _ _ _ _ _ _ _ _ (float_best _ _ _ _ H) Hl Hc). destruct FB as (n & EC).
  set (rest' := skipn n (f_sort l)). assert (ES : f_sort l = c ++ rest') by (rewrite EC; symmetry; apply firstn_skipn).
  assert (PR : Permutation rest rest').
  { apply (Permutation_app_inv_l c). rewrite <- ES. eapply perm_trans; [apply Permutation_sym; exact P|].
    assert (X := sort_perm l). first [exact X | apply Permutation_sym; exact X]. }
  apply (Permutation_in _ PR) in Hx. clearbody rest'.
  unfold f_auction in H. destruct (length recipe =? length cats) eqn:L; [|discriminate]. apply Nat.eqb_eq in L.
  destruct (bounds_okp B (repeat (fint (-100000000)) (length recipe))) as (ps & EP & OP).
  { apply (start_bound B [] (length recipe)); [exact HB|constructor..]. }
  rewrite EP in H.
  assert (LP : length ps = length recipe). { rewrite <- (map_length B2SF ps), <- EP. apply repeat_length. }
  assert (HCS : Forall (Forall (bound B)) (map f_sort cats)).
  { rewrite Forall_map. revert BC. apply Forall_impl. intros a. apply sort_forall. }
  assert (Bl := Forall_nth _ _ _ _ _ BC Hl).
  assert (BX : bound B x). { assert (X := sort_forall _ l Bl). rewrite ES in X. apply Forall_app in X. destruct X as [_ X]. rewrite Forall_forall in X. auto. }
  destruct (bound_okp B x BX) as (bx & Ex & OX). subst x.
  eapply leaver_price with (rest := rest') (c := c) in H; eauto.
  - destruct H as (bp & Ep & Fp & LB). rewrite Hp in Ep. injection Ep as ->.
    apply Rle_Qle. rewrite Q2R_plus, Q2R_mult, Q2R_Z, Q2R_pow2, plus_IZR, mult_IZR, <- INR_IZR_INZ, !dval_B by (exact Fp || apply OX). unfold err in LB.
    change (IZR 4) with 4%R. change (IZR 8) with 8%R. lra.
  - rewrite map_length. auto.
  - rewrite nth_error_map, Hl. cbn. rewrite ES. reflexivity.
  - rewrite <- ES. apply sort_sorted. eapply bound_fin. exact Bl.
Qed.
End Envy.
