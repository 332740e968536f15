(** * Trade reduction with a recipe of ones, in closed form (C107) *)

From Coq Require Import String List Arith Lia QArith Lqa Permutation Sorted.
From Verif Require Import Base Model_Agents Model_Prices Model_Trade Model_Market Model_Ascending Model_TradeReduction
  Spec_Market Spec_Trade Spec_Ascending Spec_TradeReduction Spec_McAfee Spec_Demos Proof_Market Proof_Trade Proof_Prices Proof_Ascending
  Proof_Ascending2 Proof_Ascending3 Proof_Ascending4 Proof_Deals Proof_Statics
  Proof_TR Proof_TR2 Proof_TR3 Proof_TR4 Proof_TR5 Proof_TR6 Proof_TR8 Proof_McAfee2.
Import ListNotations.
Open Scope Q_scope.

(** The first [a] of [n] categories have lost an agent. *)
Definition front (j a n : nat) : list nat := map (fun c => if (c <? a)%nat then j else S j) (seq 0 n).

Lemma front_length : forall j a n, length (front j a n) = n.
Proof. intros. unfold front. rewrite map_length, seq_length. reflexivity. Qed.

Lemma front_nth : forall j a n c, (c < n)%nat -> nth c (front j a n) 0%nat = if (c <? a)%nat then j else S j.
Proof.
  intros j a n c H. unfold front. rewrite nth_indep with (d' := (fun c => if (c <? a)%nat then j else S j) 0%nat)
    by (rewrite map_length, seq_length; assumption).
  rewrite (map_nth (fun c => if (c <? a)%nat then j else S j)), seq_nth by assumption. reflexivity.
Qed.

Lemma nth_dec_eq : forall i ns c, nth c (dec i ns) 0%nat = if (c =? i)%nat then (nth i ns 0 - 1)%nat else nth c ns 0%nat.
Proof.
  intros i ns c. unfold dec. destruct (Nat.eqb_spec c i) as [->|Hne].
  - destruct (lt_dec i (length ns)) as [L|L].
    + erewrite nth_error_nth; [reflexivity|]. apply set_nth_same. assumption.
    + rewrite !nth_overflow by (rewrite ?set_nth_length; lia). reflexivity.
  - destruct (nth_error ns c) as [x|] eqn:E.
    + erewrite nth_error_nth; [|rewrite set_nth_other by lia; exact E]. symmetry. apply nth_error_nth. assumption.
    + apply nth_error_None in E. rewrite !nth_overflow by (rewrite ?set_nth_length; lia). reflexivity.
Qed.

Lemma dec_front : forall j a n, (a < n)%nat -> dec a (front j a n) = front j (S a) n.
Proof.
  intros j a n H. apply list_nat_ext.
  - rewrite dec_length, !front_length. reflexivity.
  - intros c. rewrite nth_dec_eq. destruct (lt_dec c n) as [L|L].
    + rewrite !front_nth by assumption. destruct (Nat.eqb_spec c a) as [->|Hne].
      * rewrite Nat.ltb_irrefl. destruct (Nat.ltb_spec a (S a)); lia.
      * destruct (Nat.ltb_spec c a), (Nat.ltb_spec c (S a)); lia.
    + destruct (Nat.eqb_spec c a) as [->|Hne]; [lia|]. rewrite !nth_overflow by (rewrite front_length; lia). reflexivity.
Qed.

Lemma walk_front : forall M m recipe z j n rest, acceptable z (psum M m recipe (front j n n)) ->
  forall d a, (a + S d = n)%nat -> exists i, (a <= i < n)%nat
    /\ walk M m recipe z (seq a (S d) ++ rest) (front j a n) = Some (i, front j i n)
    /\ acceptable z (psum M m recipe (front j (S i) n))
    /\ forall i', (a < i' <= i)%nat -> ~ acceptable z (psum M m recipe (front j i' n)).
Proof.
  intros M m recipe z j n rest Hacc. induction d as [|d IH]; intros a Ha.
  - exists a. cbn [seq app walk]. rewrite dec_front by lia. replace (S a) with n by lia.
    rewrite (proj2 (accepts_iff z _) Hacc). split; [lia|]. split; [reflexivity|]. split; [assumption|]. intros i' Hi'. lia.
  - cbn [seq app]. cbn [walk]. rewrite dec_front by lia.
    destruct (accepts z (psum M m recipe (front j (S a) n))) eqn:E.
    + exists a. split; [lia|]. split; [reflexivity|]. split; [apply accepts_iff; assumption|]. intros i' Hi'. lia.
    + destruct (IH (S a)) as (i & Hi & W & A & N); [lia|]. exists i. split; [lia|]. split; [exact W|]. split; [assumption|].
      intros i' Hi' X. destruct (Nat.eq_dec i' (S a)) as [->|Hne]; [apply accepts_iff in X; congruence|].
      apply (N i'); [lia|assumption].
Qed.

Lemma nth_clone : forall m c C, nth_error m c = Some C -> vals (clone_market m) c = sort_desc (cvalues C).
Proof. intros. apply vals_clone. assumption. Qed.

Lemma Qsum_seq_split : forall (f : category -> Q) (m : list category), Qsum (map (fun c => f (nth c m dcat)) (seq 0 (length m))) == Qsum (map f m).
Proof. intros f m. symmetry. apply Qsum_nth. Qed.

Lemma map_seq_from : forall A (f : nat -> A) i k, map f (seq i k) = map (fun d => f (i + d)%nat) (seq 0 k).
Proof.
  intros A f i k. revert i. induction k as [|k IH]; intros i; [reflexivity|]. cbn [seq map]. rewrite Nat.add_0_r. f_equal.
  rewrite IH, <- seq_shift, map_map. apply map_ext. intros d. f_equal. lia.
Qed.

Lemma psum_total : forall M m recipe j i, all_ones recipe -> length recipe = length m -> (i <= length m)%nat ->
  psum M (clone_market m) recipe (front j i (length m)) == total_after M m j i.
Proof.
  intros M m recipe j i H1 Hl Hi. unfold psum, wdot, total_after. rewrite Hl.
  rewrite <- (firstn_skipn i m) at 1. rewrite app_length, seq_app, map_app, Qsum_app. rewrite firstn_length, Nat.min_l by assumption.
  assert (E : forall c, (c < length m)%nat -> pr M (clone_market m) (front j i (length m)) c * Qn (nth c recipe 0%nat)
     == ranked (- M) (nth c m dcat) (if (c <? i)%nat then j else S j)).
  { intros c Hc. rewrite (all_ones_nth recipe c H1) by lia. unfold pr. rewrite front_nth by assumption.
    rewrite (nth_clone m c (nth c m dcat)) by (apply nth_error_nth'; assumption). unfold ranked, Qn. simpl (inject_Z (Z.of_nat 1)). ring. }
  apply Qplus_comp.
  - rewrite (Qsum_map_ext _ _ (fun c => ranked (- M) (nth c (firstn i m) dcat) j)).
    + assert (X := Qsum_seq_split (fun c => ranked (- M) c j) (firstn i m)). rewrite firstn_length, Nat.min_l in X by assumption. exact X.
    + intros c Hc. apply in_seq in Hc. rewrite E by lia. destruct (Nat.ltb_spec c i); [|lia].
      replace (nth c (firstn i m) dcat) with (nth c m dcat); [reflexivity|].
      rewrite <- (firstn_skipn i m) at 1. rewrite app_nth1; [reflexivity|]. rewrite firstn_length. lia.
  - rewrite skipn_length. cbn [plus].
    rewrite <- (Qsum_seq_split (fun c => ranked (- M) c (S j)) (skipn i m)). rewrite skipn_length.
    rewrite (map_seq_from _ _ i (length m - i)). apply Qsum_map_ext. intros d Hd. apply in_seq in Hd. rewrite E by lia.
    destruct (Nat.ltb_spec (i + d) i); [lia|].
    replace (nth d (skipn i m) dcat) with (nth (i + d) m dcat); [reflexivity|].
    rewrite <- (firstn_skipn i m) at 1. rewrite app_nth2; rewrite firstn_length, Nat.min_l by lia; [|lia]. f_equal. lia.
Qed.

Lemma worth_acceptable_many : forall z g, worth_doing z g = acceptable z g.
Proof. reflexivity. Qed.

(** The block that decides: the last procurement set acceptable under the flag. *)
Lemma tr_decides : forall M cap m recipe z t dealsz remz, cap_suffices cap m recipe -> values_at_least (- M) m ->
  all_ones recipe -> trade_reduction_M M cap m recipe z = Ok t -> optimal_trade cap m recipe z = Ok (dealsz, remz) ->
  length recipe = length m /\ new_trade (tcats t) recipe (tprices t) = Ok t /\
  exists kz, kz = length dealsz /\ stops_at cap kz (clone_market m) recipe z /\
  ((kz = 0%nat /\ num_of_deals t = 0%nat /\ (forall c, In c (tcats t) -> cvalues c = []))
   \/ exists i ns P, walk M (clone_market m) recipe z (tr_order kz recipe) (at_block kz recipe) = Some (i, ns)
          /\ Forall2 cat_eq (tcats t) (shrink (clone_market m) ns) /\ tprices t = Some P
          /\ qeq P (final_prices M (clone_market m) recipe ns (Some i)) /\ (i < length m)%nat).
Proof.
  intros M cap m recipe z t dealsz remz Hcap Hv H1 Ht Ez.
  destruct (tr_errors M cap m recipe z) as [[_ [Hl Hp]]|[X _]]; [|congruence].
  apply has_positive in Hp.
  destruct (tr_spec M cap m recipe z Hl Hp Hv) as [k [deals' [rem' [t' [Eo' [Ek [Hst [Et [Hnt Hres]]]]]]]]].
  assert (t' = t) by congruence. subst t'. split; [assumption|]. split; [assumption|].
  set (m' := clone_market m) in *.
  assert (Hl' : length recipe = length m') by (unfold m'; rewrite clone_length; assumption).
  assert (Hs' : sorted_market m') by apply clone_sorted.
  assert (Hv' : values_at_least (- M) m') by (apply values_at_least_clone; assumption).
  assert (Hcap' : cap_suffices cap m' recipe) by (apply cap_clone; assumption).
  destruct (optimal_trade_shape _ _ _ _ _ _ Ez) as (kz & Hz & Lz & _). fold m' in Hz.
  exists kz. split; [auto|]. split; [assumption|].
  assert (LZ : (kz <= k)%nat).
  { destruct (le_lt_dec kz k) as [L|L]; [assumption|exfalso].
    apply (later_unacceptable cap k m' recipe true Hs' Hcap' Hst k (le_n _)).
    - eapply enough_le; [|apply (proj1 (proj2 Hz))]. lia.
    - assert (A := proj1 (proj2 (proj2 Hz)) k L). destruct z; simpl in *; lra. }
  unfold tr_result in Hres. fold m' in Hres. destruct Hres as [[E0 Et0]|[E0 [u [Hu Hw]]]].
  { left. split; [lia|]. rewrite Et0. split; [reflexivity|]. intros c Hc. apply (empty_cats m). exact Hc. }
  assert (Henu : enough u m' recipe).
  { destruct Hu as [[A ->]|[_ ->]]; [assumption|apply (proj1 (proj2 Hst))]. }
  assert (Hku : (k <= u)%nat) by (destruct Hu as [[_ ->]|[_ ->]]; lia).
  assert (W : walk M m' recipe z (tr_order u recipe) (at_block u recipe)
            = walk M m' recipe z (tr_order kz recipe) (at_block kz recipe)).
  { destruct (Nat.eq_dec u kz) as [->|Hne]; [reflexivity|].
    replace u with ((u - kz) + kz)%nat at 1 2 by lia. rewrite tr_order_split, walk_app.
    rewrite walk_reject; [rewrite decs_order; reflexivity|].
    intros ns' L Hn Ha. rewrite decs_order in Hn.
    assert (He1 : enough (S kz) m' recipe) by (eapply enough_le; [|exact Henu]; lia).
    assert (Q := later_unacceptable cap kz m' recipe z Hs' Hcap' Hz kz (le_n _) He1).
    apply Q. eapply acceptable_le; [|exact Ha].
    apply psum_le_gain; try assumption. intros j Hj Hr. specialize (Hn j).
    rewrite at_block_nth, (all_ones_nth recipe j H1 Hj) in Hn. rewrite (all_ones_nth recipe j H1 Hj). lia. }
  rewrite W in Hw. destruct Hw as [[Ew Et0]|[i [ns [P [Ew [Hcat [_ [HP [HQ [Hi _]]]]]]]]]].
  - destruct kz as [|j].
    + left. split; [reflexivity|]. rewrite Et0. split; [reflexivity|]. intros c Hc. apply (empty_cats m). exact Hc.
    + exfalso. assert (A := proj1 (proj2 (proj2 Hz)) j (Nat.lt_succ_diag_r j)).
      destruct (walk_lower M m' recipe z j (S j) Hl' Hs' Hp (le_n _) (proj1 (proj2 Hz)) A) as (i & ns & X & _). congruence.
  - right. exists i, ns, P. unfold m' in Hi. rewrite clone_length in Hi. auto.
Qed.

Theorem tr_many : forall M cap m recipe z t dealsz remz, cap_suffices cap m recipe -> values_at_least (- M) m ->
  all_ones recipe -> trade_reduction_M M cap m recipe z = Ok t -> optimal_trade cap m recipe z = Ok (dealsz, remz) ->
  (length dealsz = 0%nat -> num_of_deals t = 0%nat /\ forall c, In c (tcats t) -> cvalues c = [])
  /\ (forall j, length dealsz = S j -> exists i P, (i < length m)%nat /\ tprices t = Some P /\ length P = length m
       /\ worth_doing z (total_after M m j (S i)) /\ (forall i', (1 <= i' <= i)%nat -> ~ worth_doing z (total_after M m j i'))
       /\ num_of_deals t = (if (i =? 0)%nat then S j else j)
       /\ Qsum P == 0
       /\ length (tcats t) = length m
       /\ (forall c C T, nth_error m c = Some C -> nth_error (tcats t) c = Some T -> cname T = cname C
           /\ ((c < i)%nat -> Forall2 Qeq (cvalues T) (firstn j (sort_desc (cvalues C))) /\ nth c P 0 == ranked (- M) C j)
           /\ (c = i -> Forall2 Qeq (cvalues T) (firstn (S j) (sort_desc (cvalues C))))
           /\ ((i < c)%nat -> Forall2 Qeq (cvalues T) (firstn (S j) (sort_desc (cvalues C))) /\ nth c P 0 == ranked (- M) C (S j)))).
Proof.
  intros M cap m recipe z t dealsz remz Hcap Hv H1 Ht Ez.
  assert (HB := tr_sbb _ _ _ _ _ _ Ht).
  destruct (tr_decides M cap m recipe z t dealsz remz Hcap Hv H1 Ht Ez) as (Hl & Hnt & kz & Lz & Hz & Hcase).
  split.
  { intros E. destruct Hcase as [(_ & X)|(i & ns & P & W & _)]; [exact X|]. rewrite E in Lz. subst kz. discriminate W. }
  intros j E. destruct Hcase as [(X & _)|(i & ns & P & W & Hcat & HP & HQ & Hi)]; [lia|]. rewrite E in Lz. subst kz.
  set (m' := clone_market m) in *. set (n := length m) in *.
  assert (Lm' : length m' = n) by apply clone_length.
  assert (Hs' : sorted_market m') by apply clone_sorted.
  assert (Hl' : length recipe = length m') by congruence.
  assert (EB : at_block (S j) recipe = front j 0 n).
  { apply list_nat_ext; [unfold at_block; rewrite map_length, front_length; exact Hl|]. intros c. rewrite at_block_nth.
    destruct (lt_dec c n) as [L|L].
    - rewrite front_nth by assumption. rewrite (all_ones_nth recipe c H1) by lia. simpl. lia.
    - rewrite (nth_overflow (front j 0 n)) by (rewrite front_length; lia). rewrite (nth_overflow recipe) by lia. lia. }
  assert (EO : tr_order (S j) recipe = seq 0 n ++ tr_order j recipe).
  { unfold tr_order. cbn [repeat concat]. f_equal. unfold pivot_categories. rewrite ones_pivots by assumption. f_equal. exact Hl. }
  assert (Hacc : acceptable z (psum M m' recipe (front j n n))).
  { eapply acceptable_le; [|apply (proj1 (proj2 (proj2 Hz)) j (Nat.lt_succ_diag_r j))].
    replace (front j n n) with (at_block j recipe); [apply psum_at_block; [assumption|assumption|apply Hz]|].
    apply list_nat_ext; [unfold at_block; rewrite map_length, front_length; exact Hl|]. intros c. rewrite at_block_nth.
    destruct (lt_dec c n) as [L|L].
    - rewrite front_nth by assumption. destruct (Nat.ltb_spec c n); [|lia]. rewrite (all_ones_nth recipe c H1) by lia. lia.
    - rewrite (nth_overflow (front j n n)) by (rewrite front_length; lia). rewrite (nth_overflow recipe) by lia. lia. }
  destruct n as [|n'] eqn:En; [lia|]. rewrite <- En in *.
  destruct (walk_front M m' recipe z j n (tr_order j recipe) Hacc n' 0%nat) as (i0 & Hi0 & W0 & A0 & N0); [lia|].
  rewrite EB, EO in W. rewrite <- En in W0. rewrite W in W0. inversion W0; subst i ns. clear W0.
  assert (PT : forall a, (a <= n)%nat -> psum M m' recipe (front j a n) == total_after M m j a).
  { intros a Ha. apply psum_total; assumption. }
  exists i0, P. split; [lia|]. split; [assumption|].
  assert (LP : length P = n).
  { rewrite (qeq_length _ _ HQ). unfold final_prices. rewrite set_nth_length. unfold prices_of. rewrite map_length, seq_length. exact Lm'. }
  split; [assumption|].
  split; [rewrite worth_acceptable_many; eapply acceptable_proper; [apply PT; lia|exact A0]|].
  split; [intros i' Hi' X; apply (N0 i'); [lia|]; eapply acceptable_proper; [symmetry; apply PT; lia|exact X]|].
  assert (CT : forall c T, nth_error (tcats t) c = Some T -> cname T = cname (nth c m' dcat)
     /\ Forall2 Qeq (cvalues T) (firstn (if (c <? i0)%nat then j else S j) (vals m' c))).
  { intros c T HT. destruct (Forall2_cat_nth _ _ _ _ Hcat HT) as (T' & HT' & EQ1 & EQ2).
    apply shrink_nth in HT'. destruct HT' as [Lc ->]. cbn [cname cvalues] in EQ1, EQ2. rewrite front_nth in EQ2 by lia. auto. }
  assert (LT : length (tcats t) = n).
  { rewrite (Forall2_length _ _ _ _ _ Hcat), shrink_length. exact Lm'. }
  assert (Hen : forall c, (c < n)%nat -> (S j <= length (vals m' c))%nat).
  { intros c Hc. assert (X := proj1 (enough_nth _ m' recipe Hl') (proj1 (proj2 Hz)) c ltac:(lia)).
    rewrite (all_ones_nth recipe c H1) in X by lia. lia. }
  split.
  { destruct (deals_max _ _ _ _ Hnt) as (_ & Hs & Hm).
    assert (SZ : forall c T, nth_error (tcats t) c = Some T -> csize T = if (c <? i0)%nat then j else S j).
    { intros c T HT. assert (Lc : (c < n)%nat) by (rewrite <- LT; apply nth_error_Some; congruence).
      destruct (CT c T HT) as [_ X]. unfold csize. rewrite (qeq_length _ _ X), firstn_length. specialize (Hen c Lc).
      destruct (c <? i0)%nat; lia. }
    assert (R1 : forall c, (c < n)%nat -> nth_error recipe c = Some 1%nat).
    { intros c Hc. rewrite (nth_error_nth' recipe 0%nat) by lia. rewrite (all_ones_nth recipe c H1) by lia. reflexivity. }
    unfold num_of_deals. destruct (Nat.eqb_spec i0 0) as [->|Hne].
    - assert (U : (tdeals t <= S j)%nat).
      { destruct (nth_error (tcats t) 0) as [T|] eqn:ET; [|apply nth_error_None in ET; lia].
        assert (X := Hs 0%nat T 1%nat ET (R1 0%nat ltac:(lia))). rewrite (SZ _ _ ET) in X. simpl in X. lia. }
      assert (Lw : (S j <= tdeals t)%nat).
      { apply Hm. intros c T r HT Hr. assert (Lc : (c < n)%nat) by (rewrite <- LT; apply nth_error_Some; congruence).
        rewrite (R1 c Lc) in Hr. inversion Hr; subst r. rewrite (SZ _ _ HT). destruct (Nat.ltb_spec c 0); lia. }
      lia.
    - assert (U : (tdeals t <= j)%nat).
      { destruct (nth_error (tcats t) 0) as [T|] eqn:ET; [|apply nth_error_None in ET; lia].
        assert (X := Hs 0%nat T 1%nat ET (R1 0%nat ltac:(lia))). rewrite (SZ _ _ ET) in X. destruct (Nat.ltb_spec 0 i0); lia. }
      assert (Lw : (j <= tdeals t)%nat).
      { apply Hm. intros c T r HT Hr. assert (Lc : (c < n)%nat) by (rewrite <- LT; apply nth_error_Some; congruence).
        rewrite (R1 c Lc) in Hr. inversion Hr; subst r. rewrite (SZ _ _ HT). destruct (Nat.ltb_spec c i0); lia. }
      lia. }
  split.
  { rewrite HP in HB. destruct HB as [_ HB]. rewrite ones_dot in HB by (auto; lia). exact HB. }
  split; [assumption|].
  intros c C T HC HT. assert (Lc : (c < n)%nat) by (unfold n; apply nth_error_Some; congruence).
  destruct (CT c T HT) as [X1 X2].
  assert (EV : vals m' c = sort_desc (cvalues C)) by (apply nth_clone; assumption). rewrite EV in X2.
  assert (EN : cname (nth c m' dcat) = cname C).
  { unfold m', clone_market. change dcat with (clone dcat). rewrite map_nth. rewrite (nth_error_nth _ _ dcat HC). reflexivity. }
  split; [congruence|].
  assert (HPc : c <> i0 -> nth c P 0 == ranked (- M) C (if (c <? i0)%nat then j else S j)).
  { intros Hne. rewrite (qeq_nth _ _ c 0 HQ). unfold final_prices, prices_of. unfold ranked.
    assert (X : nth_error (set_nth i0 (bal M m' recipe (front j i0 n) i0) (map (pr M m' (front j i0 n)) (seq 0 (length m')))) c
        = Some (pr M m' (front j i0 n) c)).
    { rewrite set_nth_other by lia. rewrite nth_error_map_seq by lia. reflexivity. }
    rewrite (nth_error_nth _ _ 0 X). unfold pr. rewrite front_nth by assumption. rewrite EV. reflexivity. }
  split; [|split].
  - intros L. destruct (Nat.ltb_spec c i0); [|lia]. split; [assumption|apply HPc; lia].
  - intros ->. rewrite Nat.ltb_irrefl in X2. assumption.
  - intros L. destruct (Nat.ltb_spec c i0); [lia|]. split; [assumption|apply HPc; lia].
Qed.
