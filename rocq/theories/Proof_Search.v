(** * The search programs (C98) *)

From Coq Require Import String List Arith Lia QArith Lqa Permutation Bool.
From Verif Require Import Base Model_Agents Model_Trade Model_Prices Model_Market Model_Ascending Model_TradeReduction Model_Report Model_Search
  Spec_Market Spec_Trade Spec_Ascending Spec_Search Proof_Flag.
From Verif Require Import Props_Ascending Props_TradeReduction.
Import ListNotations.
Open Scope list_scope.
Open Scope Q_scope.

(** ** removeSeconds *)

Fixpoint rs (n i : nat) (l : list Q) : list Q :=
  match l with [] => [] | p :: l' => if (i mod n =? 0)%nat then rs n (S i) l' else p :: rs n (S i) l' end.

Lemma remove_rs : forall n l i, (0 < n)%nat -> remove_seconds_from i l n = Ok (rs n i l).
Proof.
  intros n l. induction l as [|p l IH]; intros i H; [reflexivity|]. cbn [remove_seconds_from rs].
  destruct (Nat.eqb_spec n 0); [lia|]. rewrite IH by assumption. cbn [bind]. destruct (i mod n =? 0)%nat; reflexivity.
Qed.

Lemma rs_shift : forall n l i, (0 < n)%nat -> rs n (n + i) l = rs n i l.
Proof.
  intros n l. induction l as [|p l IH]; intros i H; [reflexivity|]. cbn [rs].
  rewrite <- Nat.add_succ_r. rewrite IH by assumption.
  replace ((n + i) mod n)%nat with (i mod n)%nat; [reflexivity|].
  replace (n + i)%nat with (i + 1 * n)%nat by lia. rewrite Nat.mod_add by lia. reflexivity.
Qed.

(** From a position inside a block: the rest of the block stays. *)
Lemma rs_block : forall n l j, (0 < j < n)%nat -> rs n j l = firstn (n - j) l ++ rs n n (skipn (n - j) l).
Proof.
  intros n l. induction l as [|p l IH]; intros j H.
  - rewrite firstn_nil, skipn_nil. reflexivity.
  - cbn [rs]. rewrite Nat.mod_small by lia. destruct (Nat.eqb_spec j 0); [lia|].
    destruct (Nat.eq_dec (S j) n) as [E|E].
    + replace (n - j)%nat with 1%nat by lia. simpl. rewrite E. reflexivity.
    + rewrite IH by lia. replace (n - j)%nat with (S (n - S j)) by lia. reflexivity.
Qed.

Lemma rs_step : forall n x l, (2 <= n)%nat -> rs n 0 (x :: l) = firstn (n - 1) l ++ rs n 0 (skipn (n - 1) l).
Proof.
  intros n x l H. cbn [rs]. rewrite Nat.mod_0_l by lia. simpl (0 =? 0)%nat. cbv iota.
  rewrite rs_block by lia. rewrite <- (Nat.add_0_r n) at 3. rewrite rs_shift by lia. reflexivity.
Qed.

Lemma list_len_ind : forall (P : list Q -> Prop), (forall l, (forall l', (length l' < length l)%nat -> P l') -> P l) -> forall l, P l.
Proof.
  intros P H l. remember (length l) as k eqn:E. revert l E. induction k as [k IH] using lt_wf_ind. intros l E. apply H.
  intros l' L. apply (IH (length l')); [lia|reflexivity].
Qed.

Lemma rs_nth : forall n l k d, (2 <= n)%nat ->
  (k < length (rs n 0 l))%nat -> (k + k / (n - 1) + 1 < length l)%nat /\ nth k (rs n 0 l) d = nth (k + k / (n - 1) + 1) l d.
Proof.
  intros n l k d H. revert k. induction l as [l IH] using list_len_ind. intros k Hk. destruct l as [|x l]; [simpl in Hk; lia|].
  rewrite rs_step in * by assumption. rewrite app_length, firstn_length in Hk.
  destruct (Nat.lt_ge_cases k (n - 1)) as [L|L].
  - destruct (Nat.lt_ge_cases k (length l)) as [G|G].
    + rewrite Nat.div_small by assumption. rewrite Nat.add_0_r, Nat.add_1_r. split; [simpl; lia|].
      rewrite app_nth1 by (rewrite firstn_length; lia). cbn [nth].
      rewrite <- (firstn_skipn (n - 1) l) at 2. rewrite app_nth1 by (rewrite firstn_length; lia). reflexivity.
    + exfalso. rewrite skipn_all2 in Hk by lia. simpl in Hk. lia.
  - destruct (Nat.lt_ge_cases (n - 1) (length l)) as [G|G].
    + rewrite Nat.min_l in Hk by lia.
      destruct (IH (skipn (n - 1) l)) with (k := (k - (n - 1))%nat) as [A B]; [rewrite skipn_length; simpl; lia|lia|].
      rewrite app_nth2 by (rewrite firstn_length; lia). rewrite firstn_length, Nat.min_l by lia. rewrite B.
      rewrite skipn_length in A.
      assert (E : (k / (n - 1) = S ((k - (n - 1)) / (n - 1)))%nat).
      { replace k with ((k - (n - 1)) + 1 * (n - 1))%nat at 1 by lia. rewrite Nat.div_add by lia. lia. }
      rewrite E. split; [simpl; lia|].
      replace (k + S ((k - (n - 1)) / (n - 1)) + 1)%nat with (S (n - 1 + (k - (n - 1) + (k - (n - 1)) / (n - 1) + 1)))%nat by lia.
      cbn [nth]. rewrite <- (firstn_skipn (n - 1) l) at 2.
      rewrite app_nth2 by (rewrite firstn_length; lia). rewrite firstn_length, Nat.min_l by lia. f_equal. lia.
    + exfalso. rewrite skipn_all2 in Hk by lia. simpl in Hk. lia.
Qed.

Lemma rs_length : forall n l, (2 <= n)%nat -> (length (rs n 0 l) + (length l + (n - 1)) / n = length l)%nat.
Proof.
  intros n l H. induction l as [l IH] using list_len_ind. destruct l as [|x l].
  - simpl. rewrite Nat.div_small by lia. reflexivity.
  - rewrite rs_step by assumption. rewrite app_length, firstn_length.
    destruct (Nat.lt_ge_cases (length l) (n - 1)) as [L|L].
    + rewrite Nat.min_r by lia. rewrite skipn_all2 by lia. simpl length.
      assert (E : ((S (length l) + (n - 1)) / n = 1)%nat).
      { symmetry. apply (Nat.div_unique _ n 1 (length l)); lia. }
      rewrite E. lia.
    + rewrite Nat.min_l by lia. assert (X := IH (skipn (n - 1) l) ltac:(rewrite skipn_length; simpl; lia)).
      rewrite skipn_length in X. simpl (length (x :: l)).
      assert (E : ((S (length l) + (n - 1)) / n = S ((length l - (n - 1) + (n - 1)) / n))%nat).
      { replace (S (length l) + (n - 1))%nat with ((length l - (n - 1) + (n - 1)) + 1 * n)%nat by lia.
        rewrite Nat.div_add by lia. lia. }
      rewrite E. lia.
Qed.

Lemma rs_In : forall n l i x, In x (rs n i l) -> In x l.
Proof.
  intros n l. induction l as [|p l IH]; intros i x H; [assumption|]. cbn [rs] in H.
  destruct (i mod n =? 0)%nat; [right; eapply IH; eassumption|]. destruct H as [<-|H]; [left; reflexivity|right; eapply IH; eassumption].
Qed.

Theorem remove_seconds_spec : forall l n, (2 <= n)%nat -> exists r, remove_seconds l n = Ok r
  /\ (length r + (length l + (n - 1)) / n = length l)%nat
  /\ forall k, (k < length r)%nat -> nth k r 0 = nth (k + k / (n - 1) + 1) l 0.
Proof.
  intros l n H. exists (rs n 0 l). split; [apply remove_rs; lia|]. split; [apply rs_length; assumption|].
  intros k Hk. apply rs_nth; assumption.
Qed.

Lemma remove_one : forall l, remove_seconds l 1 = Ok [].
Proof.
  assert (H : forall l i, rs 1 i l = []).
  { induction l as [|p l IH]; intros i; [reflexivity|]. cbn [rs]. replace (i mod 1)%nat with 0%nat by (symmetry; apply Nat.mod_1_r). apply IH. }
  intros l. unfold remove_seconds. rewrite remove_rs by lia. rewrite H. reflexivity.
Qed.

Lemma remove_zero : forall l, remove_seconds l 0 = if (length l =? 0)%nat then Ok [] else Raise ZeroDivisionError.
Proof. intros [|p l]; reflexivity. Qed.

(** ** The search for a bad input *)

Lemma bad_round_spec : forall recipe n b s, length recipe = 2%nat -> has_positive_entry recipe -> (2 <= n)%nat ->
  Forall (fun v => - MAX_VALUE <= v) (b ++ s) ->
  (forall m, length m = 2%nat -> (total_agents m <= length b + length s)%nat -> cap_suffices default_max_iterations m recipe) ->
  exists b' s' a o, bad_round recipe n b s = Ok (b', s', a, o) /\ remove_seconds b n = Ok b' /\ remove_seconds s n = Ok s'
    /\ (o - 1 <= a <= o)%nat.
Proof.
  intros recipe n b s HL HP Hn HV HC. unfold bad_round.
  unfold remove_seconds. rewrite !remove_rs by lia. cbn [bind new_market].
  set (m := [new_category "buyer" (rs n 0 b); new_category "seller" (rs n 0 s)]).
  destruct (C10_api m recipe) as [[_ A] _]. destruct (A (conj HL HP)) as [t Ht]. rewrite Ht. cbn [bind].
  destruct (Proof_Market.optimal_trade_spec default_max_iterations m recipe true HL) as [k [Ho _]]. 
  destruct (optimal_trade default_max_iterations m recipe true) as [[D R]| |] eqn:E; try discriminate. cbn [bind fst]. clear Ho.
  do 4 eexists. split; [reflexivity|]. split; [reflexivity|]. split; [reflexivity|].
  assert (CS : cap_suffices default_max_iterations m recipe).
  { apply HC; [reflexivity|]. unfold m, total_agents. cbn [map nsum]. unfold csize, new_category. cbn [cvalues].
    rewrite !sort_desc_length. assert (X := rs_length n b Hn). assert (Y := rs_length n s Hn). simpl. lia. }
  assert (VA : values_at_least (- MAX_VALUE) m).
  { intros c v Hc Hv. rewrite Forall_forall in HV. apply HV. apply in_or_app.
    destruct Hc as [<-|[<-|[]]]; cbn [cvalues new_category] in Hv; apply (Permutation_in _ (sort_desc_perm _)) in Hv; apply rs_In in Hv; auto. }
  assert (X := C15_number_of_deals MAX_VALUE _ default_max_iterations m recipe t D R ltac:(reflexivity) CS Ht E). 
  destruct X as [X1 X2]. specialize (X2 VA). lia.
Qed.

Lemma bad_loop_spec : forall recipe shuffle bound, length recipe = 2%nat -> has_positive_entry recipe ->
  (forall n, Forall (fun v => - MAX_VALUE <= v) (fst (shuffle n) ++ snd (shuffle n)) /\ (length (fst (shuffle n)) + length (snd (shuffle n)) <= bound)%nat) ->
  (forall m, length m = 2%nat -> (total_agents m <= bound)%nat -> cap_suffices default_max_iterations m recipe) ->
  forall fuel a o n b s printed, (10 - n < fuel)%nat -> (1 <= n <= 10)%nat -> (a <= o)%nat ->
  (n = 10%nat -> remove_seconds (fst (shuffle 10%nat)) 10 = Ok b /\ remove_seconds (snd (shuffle 10%nat)) 10 = Ok s) ->
  exists b' s' rows, bad_loop fuel recipe shuffle a o n b s printed = Ok (10%nat, b', s', (printed ++ rows)%list)
    /\ map (fun r => fst (fst r)) rows = seq (S n) (10 - n)
    /\ Forall (fun r => (snd r - 1 <= snd (fst r) <= snd r)%nat) rows
    /\ remove_seconds (fst (shuffle 10%nat)) 10 = Ok b' /\ remove_seconds (snd (shuffle 10%nat)) 10 = Ok s'.
Proof.
  intros recipe shuffle bound HL HP HV HC fuel. induction fuel as [|fuel IH]; intros a o n b s printed F N AO HB; [lia|].
  cbn [bad_loop]. replace (a <=? o)%nat with true by (symmetry; apply Nat.leb_le; assumption).
  destruct (Nat.ltb_spec n 10) as [L|L].
  - cbn [andb]. destruct (HV (S n)) as [V1 V2].
    destruct (bad_round_spec recipe (S n) (fst (shuffle (S n))) (snd (shuffle (S n))) HL HP ltac:(lia) V1) as (b1 & s1 & a1 & o1 & E & B & S1 & AO1).
    { intros m Hm T. apply HC; [assumption|lia]. }
    rewrite E. cbn [bind].
    destruct (IH a1 o1 (S n) b1 s1 (printed ++ [(S n, a1, o1)])%list) as (b' & s' & rows & E' & R1 & R2 & R3); [lia|lia|lia| |].
    { intros Z. rewrite <- Z. split; assumption. }
    exists b', s', ((S n, a1, o1) :: rows). split; [rewrite E', <- app_assoc; reflexivity|].
    split; [|split; [constructor; [cbn [fst snd]; exact AO1|assumption]|assumption]].
    cbn [map fst]. rewrite R1. replace (10 - n)%nat with (S (10 - S n)) by lia. reflexivity.
  - rewrite andb_false_r. assert (n = 10%nat) by lia. subst n. destruct (HB eq_refl) as [B1 B2].
    exists b, s, []. rewrite app_nil_r. split; [reflexivity|]. split; [reflexivity|]. split; [constructor|]. split; assumption.
Qed.

Lemma rs_tail : forall l, (length l <= 10)%nat -> rs 10 0 l = tl l.
Proof.
  intros [|x l] H; [reflexivity|]. rewrite rs_step by lia. simpl in H. rewrite firstn_all2, skipn_all2 by lia. simpl. apply app_nil_r.
Qed.

Lemma small_cap : forall bound r recipe m, (0 < r)%nat -> N.to_nat 2000000 = default_max_iterations -> (N.of_nat bound <= 2000000)%N ->
  length m = 2%nat -> (total_agents m <= bound)%nat -> cap_suffices default_max_iterations m (r :: recipe).
Proof.
  intros bound r recipe m Hr ED HB HM HT. rewrite <- ED. destruct m as [|c m]; [discriminate|].
  exists 0%nat, c, r. split; [reflexivity|]. split; [reflexivity|]. split; [assumption|].
  change (csize c + total_agents m <= bound)%nat in HT. assert (HB2 : (csize c <= bound)%nat) by lia.
  assert (X : (bound <= N.to_nat 2000000)%nat) by lia. clear ED. revert X. generalize (N.to_nat 2000000). intros cap X. nia.
Qed.

Theorem bad_search_spec : forall shuffle,
  (forall n, Permutation (fst (shuffle n)) bad_buyers /\ Permutation (snd (shuffle n)) bad_sellers) ->
  exists rows, bad_search [1; 4]%nat shuffle = Ok (10%nat, tl (fst (shuffle 10%nat)), tl (snd (shuffle 10%nat)), rows)
    /\ map (fun r => fst (fst r)) rows = seq 2 9
    /\ Forall (fun r => (snd r - 1 <= snd (fst r) <= snd r)%nat) rows.
Proof.
  intros shuffle HS. unfold bad_search.
  destruct (bad_loop_spec [1; 4]%nat shuffle 12) with (fuel := 10%nat) (a := 1%nat) (o := 2%nat) (n := 1%nat) (b := @nil Q) (s := @nil Q)
    (printed := @nil (nat * nat * nat)) as (b' & s' & rows & E & R1 & R2 & B & S0).
  - reflexivity.
  - exists 0%nat, 1%nat. split; [reflexivity|lia].
  - intros n. destruct (HS n) as [P1 P2]. split.
    + apply (Permutation_Forall (Permutation_sym (Permutation_app P1 P2))).
      unfold bad_buyers, bad_sellers. repeat constructor; unfold MAX_VALUE; vm_compute; discriminate.
    + rewrite (Permutation_length P1), (Permutation_length P2). reflexivity.
  - intros m. apply (small_cap 12 1 [4%nat]); [lia|reflexivity|vm_compute; discriminate].
  - lia.
  - lia.
  - lia.
  - discriminate.
  - exists rows. destruct (HS 10%nat) as [P1 P2].
    unfold remove_seconds in B, S0. rewrite remove_rs in B, S0 by lia.
    rewrite rs_tail in B by (rewrite (Permutation_length P1); simpl; lia).
    rewrite rs_tail in S0 by (rewrite (Permutation_length P2); simpl; lia).
    injection B as <-. injection S0 as <-. split; [exact E|]. split; assumption.
Qed.
