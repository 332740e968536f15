(** * C122: with doubles, better reports of the agents who stay in the ascending auction change nothing, not even by a rounding

    The exact statement is C115. *)

From Coq Require Import String List Arith ZArith Reals Qreals QArith Qpower Qabs Lia Lqa Permutation Sorted.
From Coq Require Import SpecFloat.
From Flocq Require BinarySingleNaN.
From Verif Require Import Base Model_Float Spec_Float Spec_FloatMcAfee Spec_FloatBudget Spec_FloatGroup
  Proof_Float2 Proof_FM1 Proof_FB3 Proof_FU1 Proof_FU4 Proof_FUG.
Import ListNotations.
Open Scope Q_scope.

Lemma fdesc_last : forall a low rest x, fdesc ((a ++ [low]) ++ rest) -> Forall finite_double (a ++ [low]) -> In x (a ++ [low]) -> dval low <= dval x.
Proof.
  intros a low rest x S F H. assert (Fl : finite_double low) by (apply Forall_app in F; destruct F as [_ F]; inversion F; assumption).
  apply in_app_or in H. destruct H as [H|[<-|[]]]; [|apply Qle_refl].
  assert (Fx : finite_double x) by (apply Forall_app in F; destruct F as [F _]; rewrite Forall_forall in F; auto).
  apply Qle_bool_iff. rewrite <- fle_dval by assumption. revert S H. clear. induction a as [|z a IH]; intros S H; [destruct H|].
  cbn [app] in S. inversion S as [|? ? S1 S2]; subst. destruct H as [->|H]; [|auto]. rewrite Forall_forall in S2. apply S2. apply in_or_app. left. apply in_or_app. right. left. reflexivity.
Qed.

(** [ct] remain in the market [cats], at the prices [pt].  In [cats'] any number of them, in any categories, report other values, each at least as
    good as some remaining agent of the category.  Then the auction ends with the same agents ([tops]: those with the new reports), at the same
    prices, as doubles. *)
Theorem C122_inside_irrelevant : forall cats cats' recipe B k ct pt tops,
  Forall (Forall finite_double) (cats ++ cats') -> Forall (Forall (fun x => Qabs (dval x) <= B)) (cats ++ cats') -> 100000000 <= B ->
  2 * inject_Z (traders recipe) * B <= Qpower 2 k -> (k <= 1000)%Z -> (traders recipe <= 2 ^ 53)%Z ->
  (2 * Z.of_nat (length recipe) + 2 <= 2 ^ 53)%Z ->
  f_auction cats recipe = Ok (ct, pt) ->
  length cats' = length cats -> length tops = length cats ->
  (forall i l l' c top, nth_error cats i = Some l -> nth_error cats' i = Some l' -> nth_error ct i = Some c -> nth_error tops i = Some top ->
     better_inside l l' c top) ->
  f_auction cats' recipe = Ok (tops, pt).
Proof.
  intros cats cats' recipe B k ct pt tops F H HB HK K1000 HT HN Hr L1 L2 INS.
  assert (BB : Forall (Forall (bound B)) (cats ++ cats')).
  { rewrite Forall_forall in *. intros c Hc. specialize (F c Hc). specialize (H c Hc). rewrite Forall_forall in *. intros x Hx. split; auto. }
  apply Forall_app in BB. destruct BB as [BC BC'].
  unfold f_auction in *. rewrite L1. destruct (length recipe =? length cats)%nat eqn:L; [|discriminate]. apply Nat.eqb_eq in L.
  assert (LT := loop_len _ _ _ _ _ _ Hr). rewrite map_length, repeat_length in LT. destruct LT as [LT _].
  assert (PAT : forall j, (j < length cats)%nat -> exists l l' c top, nth_error cats j = Some l /\ nth_error cats' j = Some l' /\ nth_error ct j = Some c
    /\ nth_error tops j = Some top /\ better_inside l l' c top).
  { intros j J. destruct (nth_error cats j) as [l|] eqn:E1; [|apply nth_error_None in E1; lia].
    destruct (nth_error cats' j) as [l'|] eqn:E2; [|apply nth_error_None in E2; lia].
    destruct (nth_error ct j) as [c|] eqn:E3; [|apply nth_error_None in E3; lia].
    destruct (nth_error tops j) as [top|] eqn:E4; [|apply nth_error_None in E4; lia].
    exists l, l', c, top. repeat split; auto. apply (INS j); assumption. }
  assert (FUEL : map (@length double) cats' = map (@length double) cats).
  { apply ext_nth. intros j. rewrite !nth_error_map. destruct (Nat.lt_ge_cases j (length cats)) as [J|J].
    - destruct (PAT j J) as (l & l' & c & top & -> & -> & _ & _ & rest & S1 & S2 & S3 & _). cbn. f_equal.
      rewrite <- (Permutation_length (sort_perm l)), <- (Permutation_length (sort_perm l')), S1, S2, !app_length, S3. reflexivity.
    - rewrite !(proj2 (nth_error_None _ _)) by lia. reflexivity. }
  rewrite FUEL. set (fuel := S (nsum _)) in *. clearbody fuel.
  destruct (bounds_okp B (repeat (fint (-100000000)) (length recipe))) as (ps & EP & OP).
  { apply (start_bound B [] (length recipe)); [exact HB|constructor..]. }
  rewrite EP in Hr |- *.
  assert (LP : length ps = length recipe). { rewrite <- (map_length BinarySingleNaN.B2SF ps), <- EP. apply repeat_length. }
  assert (SB : Forall (Forall (bound B)) (map f_sort cats)). { rewrite Forall_map. revert BC. apply Forall_impl. intros c. apply sort_forall. }
  assert (SB' : Forall (Forall (bound B)) (map f_sort cats')). { rewrite Forall_map. revert BC'. apply Forall_impl. intros c. apply sort_forall. }
  apply (sim recipe B k HB HK K1000 HT HN ct tops) with (cur := map f_sort cats); auto; try lia.
  - apply Forall_forall. intros top Ht. apply In_nth_error in Ht. destruct Ht as (j & Hj).
    assert (J : (j < length cats)%nat) by (rewrite <- L2; apply nth_error_Some; congruence).
    destruct (PAT j J) as (l & l' & c & top' & _ & E2 & _ & E4 & rest & _ & S2 & _). rewrite Hj in E4. injection E4 as <-.
    assert (X := Forall_nth _ _ _ j (f_sort l') SB'). rewrite nth_error_map, E2 in X. specialize (X eq_refl). rewrite S2 in X. apply Forall_app in X. apply X.
  - intros j c c' Hc Hc'. assert (J : (j < length cats)%nat) by (rewrite <- L2; apply nth_error_Some; congruence).
    destruct (PAT j J) as (l & l' & c0 & top' & _ & _ & E3 & E4 & rest & _ & _ & S3 & _). congruence.
  - intros j a low c' Hc Hc' y Hy. assert (J : (j < length cats)%nat) by (rewrite <- L2; apply nth_error_Some; congruence).
    destruct (PAT j J) as (l & l' & c0 & top' & E1 & _ & E3 & E4 & rest & S1 & _ & _ & S4). rewrite Hc in E3. injection E3 as <-. rewrite Hc' in E4. injection E4 as <-.
    destruct (S4 y Hy) as (x & Hx & LE). eapply Qle_trans; [|exact LE].
    assert (Fl : Forall finite_double l) by (assert (X := Forall_nth _ _ _ _ _ BC E1); revert X; apply Forall_impl; intros z [Z _]; exact Z).
    assert (SS := sort_sorted l Fl). rewrite S1 in SS. apply (fdesc_last a low rest x SS); [|exact Hx].
    assert (X := sort_forall _ l Fl). rewrite S1 in X. apply Forall_app in X. apply X.
  - split; [rewrite map_length; lia|]. split; [rewrite map_length; lia|]. intros j c c' Hc Hc'.
    assert (J : (j < length cats)%nat) by (rewrite <- L2; apply nth_error_Some; congruence).
    destruct (PAT j J) as (l & l' & c0 & top' & E1 & E2 & E3 & E4 & rest & S1 & S2 & _). rewrite Hc in E3. injection E3 as <-. rewrite Hc' in E4. injection E4 as <-.
    exists rest. rewrite !nth_error_map, E1, E2. cbn. rewrite S1, S2. auto.
Qed.
Print Assumptions C122_inside_irrelevant.

(** ** A report that covers the price is not enough (with exact numbers it is, C115): two sellers of costs 0.8 and 1.8 and six buyers, one
    seller and three buyers in a deal.  Five buyers remain, at the price 0.6.  If all of them report 0.6, two of them leave, and the seller's
    price changes in the last digit. *)
Definition buyers_rest : list double := [lit 1 2].
Definition buyers_high : list double := [lit 26 5; lit 4 1; lit 23 10; lit 19 10; lit 6 5].
Definition sellers_two : list double := [lit (-4) 5; lit (-9) 5].
Definition one_three : list nat := [1; 3]%nat.

Theorem C122_at_the_price_refuted : exists ct pt cl pl top,
  Forall (Forall finite_double) [sellers_two; buyers_high ++ buyers_rest]
  /\ f_auction [sellers_two; buyers_high ++ buyers_rest] one_three = Ok (ct, pt)
  /\ nth_error ct 1 = Some buyers_high
  /\ nth_error pt 1 = Some top /\ dval top == dval (lit 3 5) /\ Forall (fun y => flt y top = true) buyers_rest
  /\ f_auction [sellers_two; repeat top 5 ++ buyers_rest] one_three = Ok (cl, pl)
  /\ nth_error cl 1 = Some (repeat top 3) /\ pl <> pt.
Proof.
  do 5 eexists. split; [vm_compute; repeat constructor|]. split; [vm_compute; reflexivity|]. split; [vm_compute; reflexivity|].
  split; [vm_compute; reflexivity|]. split; [vm_compute; reflexivity|]. split; [repeat constructor|]. split; [vm_compute; reflexivity|]. split; [vm_compute; reflexivity|]. vm_compute. discriminate.
Qed.
Print Assumptions C122_at_the_price_refuted.

(** ** The agents who leave do matter (with exact numbers those with values below the final price do not, C114): sellers of costs 0.8 and 3.4 and
    buyers of values 4.2 and 0.8; one deal, the sellers' price is about -0.8.  Without the seller of cost 3.4, who left, there is no deal:
    the seller of cost 0.8 leaves too, because other roundings are made on the way. *)
Definition b42 : list double := [lit 21 5; lit 4 5].
Theorem C122_outside_refuted : exists ct pt cl pl p,
  Forall (Forall finite_double) [[lit (-4) 5; lit (-17) 5]; b42]
  /\ f_auction [[lit (-4) 5; lit (-17) 5]; b42] [1; 1]%nat = Ok (ct, pt) /\ nth_error ct 0 = Some [lit (-4) 5] /\ nth_error ct 1 = Some [lit 21 5]
  /\ nth_error pt 0 = Some p /\ dval (lit (-17) 5) < dval p
  /\ f_auction [[lit (-4) 5]; b42] [1; 1]%nat = Ok (cl, pl) /\ nth_error cl 0 = Some [] /\ nth_error cl 1 = Some [lit 21 5].
Proof.
  do 5 eexists. split; [vm_compute; repeat constructor|]. split; [vm_compute; reflexivity|]. split; [vm_compute; reflexivity|]. split; [vm_compute; reflexivity|].
  split; [vm_compute; reflexivity|]. split; [vm_compute; reflexivity|]. split; [vm_compute; reflexivity|]. split; vm_compute; reflexivity.
Qed.
Print Assumptions C122_outside_refuted.

(** Non-vacuity: in the same market the remaining buyers report 7, 3, 1.5, 1.3 and 1.2 instead. *)
Definition buyers_new : list double := [lit 7 1; lit 3 1; lit 3 2; lit 13 10; lit 6 5].
Example C122_case : exists pt,
  f_auction [sellers_two; buyers_high ++ buyers_rest] one_three = Ok ([[lit (-4) 5]; buyers_high], pt)
  /\ better_inside sellers_two sellers_two [lit (-4) 5] [lit (-4) 5]
  /\ better_inside (buyers_high ++ buyers_rest) (buyers_new ++ buyers_rest) buyers_high buyers_new
  /\ Forall (Forall (fun x => Qabs (dval x) <= 100000000)) ([sellers_two; buyers_high ++ buyers_rest] ++ [sellers_two; buyers_new ++ buyers_rest])
  /\ 2 * inject_Z (traders one_three) * 100000000 <= Qpower 2 30
  /\ f_auction [sellers_two; buyers_new ++ buyers_rest] one_three = Ok ([[lit (-4) 5]; buyers_new], pt).
Proof.
  eexists. split; [vm_compute; reflexivity|]. split.
  { exists [lit (-9) 5]. split; [vm_compute; reflexivity|]. split; [vm_compute; reflexivity|]. split; [reflexivity|]. intros y [<-|[]]. exists (lit (-4) 5). split; [left; reflexivity|vm_compute; discriminate]. }
  split.
  { exists buyers_rest. split; [vm_compute; reflexivity|]. split; [vm_compute; reflexivity|]. split; [reflexivity|]. intros y Hy. exists (lit 6 5). split; [do 4 right; left; reflexivity|].
    repeat (destruct Hy as [<-|Hy]; [vm_compute; discriminate|]). destruct Hy. }
  split; [repeat constructor; vm_compute; discriminate|]. split; [vm_compute; discriminate|]. vm_compute. reflexivity.
Qed.
