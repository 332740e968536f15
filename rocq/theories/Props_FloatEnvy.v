(** * C124: with doubles, the agents who left the ascending auction have nothing to gain, up to the rounding

    The exact statement is C82. *)

From Coq Require Import String List Arith ZArith QArith Qpower Qabs Lia Lqa Permutation.
From Coq Require Import SpecFloat.
From Verif Require Import Base Model_Float Spec_Float Spec_FloatMcAfee Spec_FloatBudget Spec_FloatEnvy Proof_FB3 Proof_FU4 Proof_FEnvy.
Import ListNotations.
Open Scope Q_scope.

Lemma bounds : forall cats B, Forall (Forall finite_double) cats -> Forall (Forall (fun x => Qabs (dval x) <= B)) cats -> Forall (Forall (bound B)) cats.
Proof. intros cats B F H. rewrite Forall_forall in *. intros c Hc. specialize (F c Hc). specialize (H c Hc). rewrite Forall_forall in *. intros x Hx. split; auto. Qed.

(** No agent who left would gain more than the rounding by trading at the price of its category, whatever the recipe and whether or not there is a
    deal. *)
Theorem C124_no_envy : forall cats recipe ct pt outs B k i o p x,
  Forall (Forall finite_double) cats -> Forall (Forall (fun x => Qabs (dval x) <= B)) cats -> 100000000 <= B ->
  2 * inject_Z (traders recipe) * B <= Qpower 2 k -> (k <= 1000)%Z -> (traders recipe <= 2 ^ 53)%Z ->
  (2 * Z.of_nat (length recipe) + 2 <= 2 ^ 53)%Z ->
  f_auction cats recipe = Ok (ct, pt) -> leavers cats ct outs ->
  nth_error outs i = Some o -> nth_error pt i = Some p -> In x o ->
  dval x <= dval p + inject_Z (4 * Z.of_nat (length recipe) + 8) * Qpower 2 (k - 54).
Proof.
  intros cats recipe ct pt outs B k i o p x F H HB HK K1000 HT HN Hr [LO LV] Ho Hp Hx.
  assert (LL : length ct = length cats).
  { assert (Hr' := Hr). unfold f_auction in Hr'. destruct (length recipe =? length cats)%nat; [|discriminate]. apply loop_len in Hr'. rewrite map_length in Hr'. apply Hr'. }
  assert (J : (i < length cats)%nat) by (rewrite <- LO; apply nth_error_Some; congruence).
  destruct (nth_error cats i) as [l|] eqn:El; [|apply nth_error_None in El; lia].
  destruct (nth_error ct i) as [c|] eqn:Ec; [|apply nth_error_None in Ec; lia].
  apply (no_envy recipe B k i HB HK K1000 HT HN cats ct pt l c o p x); auto.
  - apply bounds; assumption.
  - apply (LV i l c o El Ec Ho).
Qed.
Print Assumptions C124_no_envy.

(** In figures: values up to 10^8 (MAX_VALUE), at most five categories and five traders in a deal: less than two millionths. *)
Theorem C124_two_millionths : forall cats recipe ct pt outs i o p x,
  Forall (Forall finite_double) cats -> Forall (Forall (fun x => Qabs (dval x) <= 100000000)) cats ->
  (length recipe <= 5)%nat -> (traders recipe <= 5)%Z ->
  f_auction cats recipe = Ok (ct, pt) -> leavers cats ct outs ->
  nth_error outs i = Some o -> nth_error pt i = Some p -> In x o ->
  dval x < dval p + (2 # 1000000).
Proof.
  intros cats recipe ct pt outs i o p x F H LR TR Hr LV Ho Hp Hx.
  assert (T0 : (0 <= traders recipe)%Z) by (unfold traders; lia).
  assert (K : 2 * inject_Z (traders recipe) * 100000000 <= Qpower 2 30).
  { change (Qpower 2 30) with (inject_Z 1073741824). change 2 with (inject_Z 2). change 100000000 with (inject_Z 100000000). rewrite <- !inject_Z_mult, <- Zle_Qle. lia. }
  assert (P53 : (2 ^ 53 = 9007199254740992)%Z) by reflexivity.
  assert (N := C124_no_envy cats recipe ct pt outs 100000000 30 i o p x F H (Qle_refl _) K ltac:(lia) ltac:(lia) ltac:(lia) Hr LV Ho Hp Hx).
  eapply Qle_lt_trans; [exact N|]. rewrite Qplus_lt_r. apply Qle_lt_trans with (inject_Z 28 * Qpower 2 (30 - 54)); [|reflexivity].
  apply Qmult_le_compat_r; [|discriminate]. rewrite <- Zle_Qle. lia.
Qed.
Print Assumptions C124_two_millionths.

Lemma gain_paid : forall e deal recipe prices, map (@length double) deal = recipe -> length prices = length recipe ->
  (forall i d p x, nth_error deal i = Some d -> nth_error prices i = Some p -> In x d -> dval x <= dval p + e) ->
  deal_gain deal <= paid prices recipe + inject_Z (traders recipe) * e.
Proof.
  intros e deal. unfold deal_gain, traders. induction deal as [|d deal IH]; intros recipe prices <- L H.
  - destruct prices; [|discriminate]. change (0 <= 0 + 0 * e). Lqa.lra.
  - destruct prices as [|p prices]; [discriminate|]. injection L as L. cbn [map paid concat nsum]. rewrite map_app, fold_right_app.
    specialize (IH _ prices eq_refl L (fun i => H (S i))). set (X := fold_right Qplus 0 (map dval (concat deal))) in *.
    assert (D : fold_right Qplus X (map dval d) <= inject_Z (Z.of_nat (length d)) * (dval p + e) + X).
    { assert (HD : forall x, In x d -> dval x <= dval p + e) by (intros x Hx; apply (H 0%nat d p x); auto). clearbody X. clear - HD.
      induction d as [|x d IH]; [change (X <= 0 * (dval p + e) + X); Lqa.lra|]. cbn [map fold_right length]. assert (X1 := HD x (or_introl eq_refl)). assert (X2 := IH (fun y Hy => HD y (or_intror Hy))).
      replace (Z.of_nat (S (length d))) with (Z.of_nat (length d) + 1)%Z by lia. rewrite inject_Z_plus. change (inject_Z 1) with 1. Lqa.lra. }
    assert (N : inject_Z (Z.of_nat (nsum (length d :: map (@length double) deal))) == inject_Z (Z.of_nat (length d)) + inject_Z (Z.of_nat (nsum (map (@length double) deal)))).
    { rewrite <- inject_Z_plus. f_equiv. cbn. unfold nsum. cbn. lia. }
    change (fold_right Nat.add 0%nat) with nsum in *. rewrite N. Lqa.lra.
Qed.

(** If there is a deal: no further deal of agents who left gains more than the rounding. *)
Theorem C124_nothing_left : forall cats recipe ct pt outs deal B k,
  Forall (Forall finite_double) cats -> Forall (Forall (fun x => Qabs (dval x) <= B)) cats -> 100000000 <= B ->
  2 * inject_Z (traders recipe) * B <= Qpower 2 k -> (k <= 1000)%Z -> (traders recipe <= 2 ^ 53)%Z ->
  (2 * Z.of_nat (length recipe) + 2 <= 2 ^ 53)%Z ->
  f_auction cats recipe = Ok (ct, pt) -> Forall (fun n => (0 < n)%nat) (f_deals ct recipe) -> leavers cats ct outs -> deal_of outs recipe deal ->
  deal_gain deal <= (inject_Z (2 * Z.of_nat (length recipe) + 5) + inject_Z (traders recipe) * inject_Z (4 * Z.of_nat (length recipe) + 8)) * Qpower 2 (k - 54).
Proof.
  intros cats recipe ct pt outs deal B k F H HB HK K1000 HT HN Hr DM LV [D1 D2].
  destruct (near_balance cats recipe ct pt B k F H HB HK K1000 HT HN Hr DM) as [_ NB]. apply Qabs_Qle_condition in NB. destruct NB as [_ NB].
  assert (LP : length pt = length recipe).
  { assert (Hr' := Hr). unfold f_auction in Hr'. destruct (length recipe =? length cats)%nat; [|discriminate]. apply loop_len in Hr'. rewrite repeat_length in Hr'. apply Hr'. }
  assert (G := gain_paid (inject_Z (4 * Z.of_nat (length recipe) + 8) * Qpower 2 (k - 54)) deal recipe pt D1 LP).
  eapply Qle_trans; [apply G|].
  - intros i d p x Hd Hp Hx.
    assert (J : (i < length outs)%nat) by (rewrite <- (Forall2_length _ _ _ _ _ D2); apply nth_error_Some; congruence).
    destruct (nth_error outs i) as [o|] eqn:Ho; [|apply nth_error_None in Ho; lia].
    apply (C124_no_envy cats recipe ct pt outs B k i o p x); auto.
    clear - D2 Hd Ho Hx. revert i Hd Ho. induction D2 as [|a b l l' AB D2 IH]; intros [|i] Hd Ho; cbn in *; try discriminate; [|eauto].
    injection Hd as <-. injection Ho as <-. apply AB. exact Hx.
  - set (e := Qpower 2 (k - 54)) in *. rewrite Qmult_plus_distr_l, <- Qmult_assoc. apply Qplus_le_compat; [exact NB|apply Qle_refl].
Qed.
Print Assumptions C124_nothing_left.

(** ** Not exactly: the buyer of C106 leaves with the value 0.200000009 although the buyers' price is 0.200000003. *)
Definition b9 : double := lit 200000009 1000000000.
Definition close : list (list double) := [[b9; b9]; [lit (-200000002) 1000000000; lit (-200000003) 1000000000]].
Theorem C124_exact_refuted : exists ct pt outs o p,
  Forall (Forall finite_double) close /\ f_auction close [1; 1]%nat = Ok (ct, pt) /\ leavers close ct outs
  /\ nth_error outs 0 = Some o /\ nth_error pt 0 = Some p /\ In b9 o /\ dval p + (59 # 10000000000) < dval b9.
Proof.
  do 2 eexists. exists [[b9]; [lit (-200000003) 1000000000]]. do 2 eexists. split; [vm_compute; repeat constructor|]. split; [vm_compute; reflexivity|]. split.
  { split; [reflexivity|]. intros [|[|[|i]]] l c o H1 H2 H3; cbn in H1, H2, H3; try discriminate; injection H1 as <-; injection H2 as <-; injection H3 as <-; vm_compute; apply Permutation_refl. }
  split; [reflexivity|]. split; [vm_compute; reflexivity|]. split; [left; reflexivity|]. vm_compute. reflexivity.
Qed.
Print Assumptions C124_exact_refuted.

(** Non-vacuity: buyers 17, 14, 13 and 9 and sellers 1, 2, 10 and 16: two buyers and three sellers remain, at the price 13; the buyer 9 and the seller
    16 are a deal of agents who left. *)
Definition plain : list (list double) := [[fint 17; fint 14; fint 13; fint 9]; [fint (-1); fint (-2); fint (-10); fint (-16)]].
Example C124_case : exists ct pt, f_auction plain [1; 1]%nat = Ok (ct, pt) /\ Forall (Forall finite_double) plain
  /\ Forall (Forall (fun x => Qabs (dval x) <= 100000000)) plain /\ Forall (fun n => (0 < n)%nat) (f_deals ct [1; 1]%nat)
  /\ leavers plain ct [[fint 13; fint 9]; [fint (-16)]] /\ deal_of [[fint 13; fint 9]; [fint (-16)]] [1; 1]%nat [[fint 9]; [fint (-16)]]
  /\ deal_gain [[fint 9]; [fint (-16)]] == -(7).
Proof.
  do 2 eexists. split; [vm_compute; reflexivity|]. split; [vm_compute; repeat constructor|]. split; [repeat constructor; vm_compute; discriminate|].
  split; [vm_compute; repeat constructor|]. split.
  { split; [reflexivity|]. intros [|[|[|i]]] l c o H1 H2 H3; cbn in H1, H2, H3; try discriminate; injection H1 as <-; injection H2 as <-; injection H3 as <-; vm_compute; apply Permutation_refl. }
  split; [|vm_compute; reflexivity]. split; [reflexivity|]. constructor; [|constructor; [|constructor]]; intros x [<-|[]]; cbn; auto.
Qed.
