(** * C121: with doubles, an agent who stays in the ascending auction does not influence its prices, not even by a rounding

    The exact statement is C95; for McAfee's protocol and trade reduction with doubles only closeness holds (C120). *)

From Coq Require Import String List Arith ZArith QArith Qpower Qabs Lia Lqa Permutation.
From Coq Require Import SpecFloat.
From Verif Require Import Base Model_Float Spec_Float Spec_FloatMcAfee Spec_FloatBudget Spec_FloatTruth Proof_Float2 Proof_FM1 Proof_FB3 Proof_FU4 Proof_FUW.
Import ListNotations.
Open Scope Q_scope.

Lemma set_self : forall A (l : list A) i x, nth_error l i = Some x -> set_nth i x l = l.
Proof. induction l as [|a l IH]; intros [|i] x H; try discriminate; cbn [set_nth nth_error] in *; [injection H as ->; reflexivity|]. rewrite IH by exact H. reflexivity. Qed.

Lemma market_bounds : forall cats i pre post v B,
  nth_error cats i = Some (pre ++ v :: post) -> Forall (Forall finite_double) cats -> Forall (Forall (fun x => Qabs (dval x) <= B)) cats ->
  (i < length cats)%nat /\ Forall (Forall (bound B)) cats /\ Forall (bound B) pre /\ Forall (bound B) post /\ bound B v.
Proof.
  intros cats i pre post v B Hi F H.
  assert (BC : Forall (Forall (bound B)) cats).
  { rewrite Forall_forall in *. intros c Hc. specialize (F c Hc). specialize (H c Hc). rewrite Forall_forall in *. intros x Hx. split; auto. }
  split; [apply nth_error_Some; congruence|]. split; [exact BC|].
  assert (BI := Forall_nth _ _ _ _ _ BC Hi). apply Forall_app in BI. destruct BI as [B1 B2]. inversion B2; subst. auto.
Qed.

(** An agent of category [i] reports [v] and is among the remaining agents (its place in the category, the number of agents that come before it
    in the sorted order, is below their number).  If it reports any [v'] that is not lower, then the prices are the same doubles, the other
    categories keep the same agents, its own category keeps the same number, and in it the agent and the same other agents. *)
Theorem C121_higher_report : forall cats recipe i pre post v v' B k ct pt cl pl c,
  nth_error cats i = Some (pre ++ v :: post) ->
  Forall (Forall finite_double) cats -> Forall (Forall (fun x => Qabs (dval x) <= B)) cats -> 100000000 <= B ->
  finite_double v' -> Qabs (dval v') <= B ->
  2 * inject_Z (traders recipe) * B <= Qpower 2 k -> (k <= 1000)%Z -> (traders recipe <= 2 ^ 53)%Z ->
  (2 * Z.of_nat (length recipe) + 2 <= 2 ^ 53)%Z ->
  f_auction cats recipe = Ok (ct, pt) ->
  f_auction (set_nth i (pre ++ v' :: post) cats) recipe = Ok (cl, pl) ->
  dval v <= dval v' -> nth_error ct i = Some c -> (position pre post v < length c)%nat ->
  pl = pt /\ (forall j, j <> i -> nth_error cl j = nth_error ct j)
  /\ exists c', nth_error cl i = Some c' /\ length c' = length c /\ (position pre post v' < length c')%nat
     /\ exists others, Permutation c (v :: others) /\ Permutation c' (v' :: others).
Proof.
  intros cats recipe i pre post v v' B k ct pt cl pl c Hi F H HB Fv' Bv' HK K1000 HT HN Ht Hl LE Hc P.
  destruct (market_bounds _ _ _ _ _ _ Hi F H) as (Li & BC & B1 & B2 & Bv).
  apply (stays recipe B k i cats pre post HB HK K1000 HT HN Li BC B1 B2 v v' ct pt cl pl c); auto.
  - split; assumption.
  - rewrite fle_dval by (exact Fv' || apply Bv). apply Qle_bool_iff. exact LE.
  - rewrite set_self by exact Hi. exact Ht.
Qed.
Print Assumptions C121_higher_report.

(** Whatever two reports it stays in with: the same prices. *)
Theorem C121_any_reports : forall cats recipe i pre post v v' B k ct pt cl pl c c',
  nth_error cats i = Some (pre ++ v :: post) ->
  Forall (Forall finite_double) cats -> Forall (Forall (fun x => Qabs (dval x) <= B)) cats -> 100000000 <= B ->
  finite_double v' -> Qabs (dval v') <= B ->
  2 * inject_Z (traders recipe) * B <= Qpower 2 k -> (k <= 1000)%Z -> (traders recipe <= 2 ^ 53)%Z ->
  (2 * Z.of_nat (length recipe) + 2 <= 2 ^ 53)%Z ->
  f_auction cats recipe = Ok (ct, pt) ->
  f_auction (set_nth i (pre ++ v' :: post) cats) recipe = Ok (cl, pl) ->
  nth_error ct i = Some c -> (position pre post v < length c)%nat ->
  nth_error cl i = Some c' -> (position pre post v' < length c')%nat ->
  pl = pt /\ length c' = length c /\ (forall j, j <> i -> nth_error cl j = nth_error ct j)
  /\ exists others, Permutation c (v :: others) /\ Permutation c' (v' :: others).
Proof.
  intros cats recipe i pre post v v' B k ct pt cl pl c c' Hi F H HB Fv' Bv' HK K1000 HT HN Ht Hl Hc P Hc' P'.
  destruct (market_bounds _ _ _ _ _ _ Hi F H) as (Li & BC & B1 & B2 & Bv).
  assert (Bv2 : bound B v') by (split; assumption).
  assert (Ht' : f_auction (set_nth i (pre ++ v :: post) cats) recipe = Ok (ct, pt)) by (rewrite set_self by exact Hi; exact Ht).
  destruct (fle v v') eqn:E.
  - destruct (stays recipe B k i cats pre post HB HK K1000 HT HN Li BC B1 B2 v v' ct pt cl pl c Bv Bv2 E Ht' Hl Hc P) as (X & Y & c0 & Hc0 & L & _ & O).
    rewrite Hc' in Hc0. injection Hc0 as <-. auto.
  - assert (E' : fle v' v = true) by (apply fle_total; [apply Bv|exact Fv'|exact E]).
    destruct (stays recipe B k i cats pre post HB HK K1000 HT HN Li BC B1 B2 v' v cl pl ct pt c' Bv2 Bv E' Hl Ht' Hc' P') as (X & Y & c0 & Hc0 & L & _ & o & O1 & O2).
    rewrite Hc in Hc0. injection Hc0 as <-. split; [auto|]. split; [auto|]. split; [intros j NE; symmetry; apply Y; exact NE|]. exists o. auto.
Qed.
Print Assumptions C121_any_reports.

(** The price is the threshold, up to the rounding: the agent stays in with [v] when its category's price is [p]; a report [v'] with which it
    leaves is not above [v], and exceeds [p] by at most [(4n + 8) * 2^(k-54)].  (That [p] is not above a report with which it stays, up to the
    rounding, is C104.) *)
Theorem C121_threshold : forall cats recipe i pre post v v' B k ct pt cl pl c c' p,
  nth_error cats i = Some (pre ++ v :: post) ->
  Forall (Forall finite_double) cats -> Forall (Forall (fun x => Qabs (dval x) <= B)) cats -> 100000000 <= B ->
  finite_double v' -> Qabs (dval v') <= B ->
  2 * inject_Z (traders recipe) * B <= Qpower 2 k -> (k <= 1000)%Z -> (traders recipe <= 2 ^ 53)%Z ->
  (2 * Z.of_nat (length recipe) + 2 <= 2 ^ 53)%Z ->
  f_auction cats recipe = Ok (ct, pt) ->
  f_auction (set_nth i (pre ++ v' :: post) cats) recipe = Ok (cl, pl) ->
  nth_error ct i = Some c -> (position pre post v < length c)%nat -> nth_error pt i = Some p ->
  nth_error cl i = Some c' -> (length c' <= position pre post v')%nat ->
  dval v' <= dval v /\ dval v' <= dval p + inject_Z (4 * Z.of_nat (length recipe) + 8) * Qpower 2 (k - 54).
Proof.
  intros cats recipe i pre post v v' B k ct pt cl pl c c' p Hi F H HB Fv' Bv' HK K1000 HT HN Ht Hl Hc P Hp Hc' P'.
  destruct (market_bounds _ _ _ _ _ _ Hi F H) as (Li & BC & B1 & B2 & Bv).
  rewrite <- Qle_bool_iff, <- fle_dval by (exact Fv' || apply Bv).
  apply (leaves recipe B k i cats pre post HB HK K1000 HT HN Li BC B1 B2 v' v cl pl ct pt c' p); auto.
  - split; assumption.
  - rewrite set_self by exact Hi. exact Ht.
  - exists c. split; assumption.
Qed.
Print Assumptions C121_threshold.

(** In figures: reports up to 10^8 (MAX_VALUE), at most five categories and five traders in a deal: less than two millionths. *)
Theorem C121_threshold_two_millionths : forall cats recipe i pre post v v' ct pt cl pl c c' p,
  nth_error cats i = Some (pre ++ v :: post) ->
  Forall (Forall finite_double) cats -> Forall (Forall (fun x => Qabs (dval x) <= 100000000)) cats ->
  finite_double v' -> Qabs (dval v') <= 100000000 ->
  (length recipe <= 5)%nat -> (traders recipe <= 5)%Z ->
  f_auction cats recipe = Ok (ct, pt) ->
  f_auction (set_nth i (pre ++ v' :: post) cats) recipe = Ok (cl, pl) ->
  nth_error ct i = Some c -> (position pre post v < length c)%nat -> nth_error pt i = Some p ->
  nth_error cl i = Some c' -> (length c' <= position pre post v')%nat ->
  dval v' <= dval v /\ dval v' < dval p + (2 # 1000000).
Proof.
  intros cats recipe i pre post v v' ct pt cl pl c c' p Hi F H Fv' Bv' LR TR Ht Hl Hc P Hp Hc' P'.
  assert (T0 : (0 <= traders recipe)%Z) by (unfold traders; lia).
  assert (K : 2 * inject_Z (traders recipe) * 100000000 <= Qpower 2 30).
  { change (Qpower 2 30) with (inject_Z 1073741824). change 2 with (inject_Z 2). change 100000000 with (inject_Z 100000000). rewrite <- !inject_Z_mult, <- Zle_Qle. lia. }
  assert (P53 : (2 ^ 53 = 9007199254740992)%Z) by reflexivity.
  destruct (C121_threshold cats recipe i pre post v v' 100000000 30 ct pt cl pl c c' p Hi F H (Qle_refl _) Fv' Bv' K ltac:(lia) ltac:(lia) ltac:(lia) Ht Hl Hc P Hp Hc' P') as [X N].
  split; [exact X|]. eapply Qle_lt_trans; [exact N|]. rewrite Qplus_lt_r. apply Qle_lt_trans with (inject_Z 28 * Qpower 2 (30 - 54)); [|reflexivity].
  apply Qmult_le_compat_r; [|discriminate]. rewrite <- Zle_Qle. lia.
Qed.
Print Assumptions C121_threshold_two_millionths.

(** ** The threshold is not exact: two buyers of value 0.200000009 and two sellers of cost 0.200000002 and 0.200000003.  The second buyer
    would stay in with the report 0.3, at the price 0.200000003; with its own value, which is higher than that price, it leaves. *)
Definition b9 : double := lit 200000009 1000000000.
Definition close_market : list (list double) := [[b9; lit 3 10]; [lit (-200000002) 1000000000; lit (-200000003) 1000000000]].
Definition one_each : list nat := [1; 1]%nat.

Theorem C121_exact_threshold_refuted : exists ct pt cl pl c c' p,
  nth_error close_market 0 = Some ([b9] ++ lit 3 10 :: []) /\ Forall (Forall finite_double) close_market /\ finite_double b9
  /\ f_auction close_market one_each = Ok (ct, pt) /\ f_auction (set_nth 0 ([b9] ++ b9 :: []) close_market) one_each = Ok (cl, pl)
  /\ nth_error ct 0 = Some c /\ (position [b9] [] (lit 3 10) < length c)%nat /\ nth_error pt 0 = Some p
  /\ nth_error cl 0 = Some c' /\ (length c' <= position [b9] [] b9)%nat
  /\ dval p + (59 # 10000000000) < dval b9.
Proof.
  do 7 eexists. split; [reflexivity|]. split; [vm_compute; repeat constructor|]. split; [vm_compute; repeat constructor|].
  split; [vm_compute; reflexivity|]. split; [vm_compute; reflexivity|]. split; [vm_compute; reflexivity|]. split; [vm_compute; lia|].
  split; [vm_compute; reflexivity|]. split; [vm_compute; reflexivity|]. split; [vm_compute; lia|]. vm_compute. reflexivity.
Qed.
Print Assumptions C121_exact_threshold_refuted.

(** Non-vacuity: four buyers of values 17, 14, 13 and 9 and four sellers of costs 1, 2, 10 and 16: the buyer of value 14 stays in at the price 13, with the report
    15.5 as well, and leaves with the report 12; the sizes are those of the theorems. *)
Definition plain_market : list (list double) := [[fint 17; fint 14; fint 13; fint 9]; [fint (-1); fint (-2); fint (-10); fint (-16)]].
Example C121_case : exists ct pt cl pl co po c c' co' p,
  nth_error plain_market 0 = Some ([fint 17] ++ fint 14 :: [fint 13; fint 9]) /\ Forall (Forall finite_double) plain_market
  /\ Forall (Forall (fun x => Qabs (dval x) <= 100000000)) plain_market /\ 2 * inject_Z (traders one_each) * 100000000 <= Qpower 2 30
  /\ f_auction plain_market one_each = Ok (ct, pt)
  /\ f_auction (set_nth 0 ([fint 17] ++ lit 31 2 :: [fint 13; fint 9]) plain_market) one_each = Ok (cl, pl)
  /\ f_auction (set_nth 0 ([fint 17] ++ fint 12 :: [fint 13; fint 9]) plain_market) one_each = Ok (co, po)
  /\ nth_error ct 0 = Some c /\ (position [fint 17] [fint 13; fint 9] (fint 14) < length c)%nat /\ nth_error pt 0 = Some p /\ dval p == 13
  /\ nth_error cl 0 = Some c' /\ (position [fint 17] [fint 13; fint 9] (lit 31 2) < length c')%nat
  /\ nth_error co 0 = Some co' /\ (length co' <= position [fint 17] [fint 13; fint 9] (fint 12))%nat.
Proof.
  do 10 eexists. split; [reflexivity|]. split; [vm_compute; repeat constructor|]. split; [repeat constructor; vm_compute; discriminate|]. split; [vm_compute; discriminate|].
  split; [vm_compute; reflexivity|]. split; [vm_compute; reflexivity|]. split; [vm_compute; reflexivity|]. split; [vm_compute; reflexivity|]. split; [vm_compute; lia|].
  split; [vm_compute; reflexivity|]. split; [vm_compute; reflexivity|]. split; [vm_compute; reflexivity|]. split; [vm_compute; lia|]. split; [vm_compute; reflexivity|]. vm_compute. lia.
Qed.
