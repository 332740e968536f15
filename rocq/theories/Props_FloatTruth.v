(** * C106: the ascending auction with doubles is truthful up to rounding, and only up to rounding *)

From Coq Require Import String List Arith ZArith QArith Qpower Qabs Lia Lqa.
From Coq Require Import SpecFloat.
From Verif Require Import Base Model_Float Spec_Float Spec_FloatMcAfee Spec_FloatBudget Spec_FloatTruth Proof_Float2 Proof_FB3 Proof_FU4.
Import ListNotations.
Open Scope Q_scope.

Lemma set_self : forall A (l : list A) i x, nth_error l i = Some x -> set_nth i x l = l.
Proof. induction l as [|a l IH]; intros [|i] x H; try discriminate; cbn [set_nth nth_error] in *; [injection H as ->; reflexivity|]. rewrite IH by exact H. reflexivity. Qed.

(** An agent of category [i] has the true value [v].  The market [cats] is the one where it says so; it may report any other
    number [v'] between [-B] and [B].  With the sizes of C104, the false report raises its expected utility by at most
    [(4n + 8) * 2^(k-54)], where [n] is the number of categories. *)
Theorem C106_nearly_truthful : forall cats recipe i pre post v v' B k ct pt cl pl,
  nth_error cats i = Some (pre ++ v :: post) ->
  Forall (Forall finite_double) cats -> Forall (Forall (fun x => -100000000 <= dval x /\ dval x <= B)) cats -> 100000000 <= B ->
  finite_double v' -> Qabs (dval v') <= B ->
  2 * inject_Z (traders recipe) * B <= Qpower 2 k -> (k <= 1000)%Z -> (traders recipe <= 2 ^ 53)%Z ->
  (2 * Z.of_nat (length recipe) + 2 <= 2 ^ 53)%Z ->
  f_auction cats recipe = Ok (ct, pt) ->
  f_auction (set_nth i (pre ++ v' :: post) cats) recipe = Ok (cl, pl) ->
  f_utility cl pl recipe i (position pre post v') v
    <= f_utility ct pt recipe i (position pre post v) v + inject_Z (4 * Z.of_nat (length recipe) + 8) * Qpower 2 (k - 54).
Proof.
  intros cats recipe i pre post v v' B k ct pt cl pl Hi F H HB Fv' Bv' HK K1000 HT HN Ht Hl.
  assert (BC : Forall (Forall (bound B)) cats).
  { rewrite Forall_forall in *. intros c Hc. specialize (F c Hc). specialize (H c Hc). rewrite Forall_forall in *. intros x Hx. destruct (H x Hx) as [X1 X2].
    split; [auto|]. apply Qabs_Qle_condition. split; [|exact X2]. apply Qle_trans with (-100000000); [|exact X1]. apply Qopp_le_compat in HB. exact HB. }
  assert (LC : Forall (Forall (fun x => -100000000 <= dval x)) cats).
  { revert H. apply Forall_impl. intros c. apply Forall_impl. intros x [X _]. exact X. }
  assert (BI := Forall_nth _ _ _ _ _ BC Hi). assert (LI := Forall_nth _ _ _ _ _ LC Hi).
  assert (BI' := BI). apply Forall_app in BI'. destruct BI' as [B1 B2]. inversion B2 as [|? ? Bv B3]; subst.
  apply (float_truthful recipe B k i cats pre post HB HK K1000 HT HN) ; auto.
  - apply nth_error_Some. congruence.
  - split; assumption.
  - rewrite set_self by exact Hi. exact Ht.
Qed.
Print Assumptions C106_nearly_truthful.

(** In figures: values and reports up to 10^8 (MAX_VALUE), at most five categories and five traders in a deal: a false report gains less
    than two millionths. *)
Theorem C106_two_millionths : forall cats recipe i pre post v v' ct pt cl pl,
  nth_error cats i = Some (pre ++ v :: post) ->
  Forall (Forall finite_double) cats -> Forall (Forall (fun x => Qabs (dval x) <= 100000000)) cats ->
  finite_double v' -> Qabs (dval v') <= 100000000 ->
  (length recipe <= 5)%nat -> (traders recipe <= 5)%Z ->
  f_auction cats recipe = Ok (ct, pt) ->
  f_auction (set_nth i (pre ++ v' :: post) cats) recipe = Ok (cl, pl) ->
  f_utility cl pl recipe i (position pre post v') v < f_utility ct pt recipe i (position pre post v) v + (2 # 1000000).
Proof.
  intros cats recipe i pre post v v' ct pt cl pl Hi F H Fv' Bv' LR TR Ht Hl.
  assert (T0 : (0 <= traders recipe)%Z) by (unfold traders; lia).
  assert (K : 2 * inject_Z (traders recipe) * 100000000 <= Qpower 2 30).
  { change (Qpower 2 30) with (inject_Z 1073741824). change 2 with (inject_Z 2). change 100000000 with (inject_Z 100000000). rewrite <- !inject_Z_mult, <- Zle_Qle. lia. }
  assert (P53 : (2 ^ 53 = 9007199254740992)%Z) by reflexivity.
  assert (H' : Forall (Forall (fun x => -100000000 <= dval x /\ dval x <= 100000000)) cats).
  { revert H. apply Forall_impl. intros l. apply Forall_impl. intros x X. apply Qabs_Qle_condition in X. exact X. }
  assert (N := C106_nearly_truthful cats recipe i pre post v v' 100000000 30 ct pt cl pl Hi F H' (Qle_refl _) Fv' Bv' K ltac:(lia) ltac:(lia) ltac:(lia) Ht Hl).
  eapply Qle_lt_trans; [exact N|]. rewrite Qplus_lt_r. apply Qle_lt_trans with (inject_Z 28 * Qpower 2 (30 - 54)); [|reflexivity].
  apply Qmult_le_compat_r; [|discriminate]. rewrite <- Zle_Qle. lia.
Qed.
Print Assumptions C106_two_millionths.

(** It is not exactly truthful, even with one buyer and one seller in a deal: two buyers of value 0.200000009 and two sellers of cost
    0.200000002 and 0.200000003.  The second buyer leaves at its value, 0.200000009; the lost digits of [-10^8] then make
    the auction lower the buyers' price to 0.200000003.  Had that buyer reported 0.3, it would have traded at that price and
    gained 5.9 * 10^-9.  (With exact numbers C14 excludes this.) *)
Definition b9 : double := lit 200000009 1000000000.
Definition manipulable : list (list double) := [[b9; b9]; [lit (-200000002) 1000000000; lit (-200000003) 1000000000]].
Definition one_each : list nat := [1; 1]%nat.
Theorem C106_exactly_truthful_refuted : exists ct pt cl pl,
  nth_error manipulable 0 = Some ([b9] ++ b9 :: [])
  /\ Forall (Forall finite_double) manipulable /\ finite_double (lit 3 10)
  /\ f_auction manipulable one_each = Ok (ct, pt)
  /\ f_auction (set_nth 0 ([b9] ++ lit 3 10 :: []) manipulable) one_each = Ok (cl, pl)
  /\ f_utility ct pt one_each 0 (position [b9] [] b9) b9 == 0
  /\ (59 # 10000000000) < f_utility cl pl one_each 0 (position [b9] [] (lit 3 10)) b9.
Proof.
  do 4 eexists. split; [reflexivity|]. split; [vm_compute; repeat constructor|]. split; [vm_compute; repeat constructor|].
  split; [vm_compute; reflexivity|]. split; [vm_compute; reflexivity|]. split; vm_compute; reflexivity.
Qed.
Print Assumptions C106_exactly_truthful_refuted.

(** Non-vacuity: this market meets the hypotheses of [C106_two_millionths]; and a false report that costs its agent the trade:
    a buyer of value 5 with a trade at price 4 who reports 2 and is left without. *)
Example C106_case :
  Forall (Forall (fun x => Qabs (dval x) <= 100000000)) manipulable /\ Qabs (dval (lit 3 10)) <= 100000000
  /\ (length one_each <= 5)%nat /\ (traders one_each <= 5)%Z.
Proof. split; [repeat constructor; vm_compute; discriminate|]. split; [vm_compute; discriminate|]. split; vm_compute; [lia|discriminate]. Qed.
Definition plain : list (list double) := map (map fint) [[5; 4; 3]%Z; [-1; -2; -9]%Z].
Example C106_case_loss : exists ct pt cl pl,
  nth_error plain 0 = Some ([] ++ fint 5 :: [fint 4; fint 3])
  /\ f_auction plain one_each = Ok (ct, pt) /\ f_auction (set_nth 0 ([] ++ fint 2 :: [fint 4; fint 3]) plain) one_each = Ok (cl, pl)
  /\ f_utility ct pt one_each 0 (position [] [fint 4; fint 3] (fint 5)) (fint 5) == 1
  /\ f_utility cl pl one_each 0 (position [] [fint 4; fint 3] (fint 2)) (fint 5) == 0.
Proof. do 4 eexists. split; [reflexivity|]. split; [vm_compute; reflexivity|]. split; [vm_compute; reflexivity|]. split; vm_compute; reflexivity. Qed.
