(** * The columns of one iteration of the stock comparison *)

From Coq Require Import String List Arith NArith Lia ZArith QArith Qround Lqa Bool Permutation.
From Verif Require Import Base Model_Agents Model_Trade Model_Prices Model_Market Model_Ascending Model_TradeReduction Model_McAfee
  Model_Experiment Model_CompareStock
  Spec_Market Spec_Trade Spec_Ascending Spec_TradeReduction Spec_McAfee Spec_Experiment Spec_StockData Spec_CompareStock
  Proof_Agents Proof_Market Proof_StockData Proof_Exp1 Proof_Exp2 Proof_Exp3 Proof_CompareStock.
Import ListNotations.
Open Scope Q_scope.

(** ** The markets suit the auctions *)
Lemma dot_zeros : forall n recipe, dot (repeat 0 n) recipe == 0.
Proof. induction n as [|n IH]; intros [|r recipe]; cbn [repeat dot]; try reflexivity. rewrite IH. ring. Qed.

Lemma tame_bounds : forall r0 recipe c0 cs B0, Forall (fun r => (0 < r)%nat) (r0 :: recipe) -> length recipe = length cs ->
  (forall v, In v (cvalues c0) -> - MAX_VALUE <= v <= B0) -> - MAX_VALUE <= B0 -> buyers_fit (r0 :: recipe) (B0 * Qn r0) ->
  (forall c v, In c cs -> In v (cvalues c) -> - MAX_VALUE <= v <= 0) ->
  (csize c0 <= default_max_iterations * r0)%nat -> sorted_market (c0 :: cs) -> tame (r0 :: recipe) (c0 :: cs).
Proof.
  intros r0 recipe c0 cs B0 FP L H0 HB HS HC SZ SM. inversion FP as [|? ? R0 FP']; subst.
  assert (VL : values_at_least (- MAX_VALUE) (c0 :: cs)).
  { intros c v [<-|Hc] Hv; [exact (proj1 (H0 v Hv))|exact (proj1 (HC c v Hc Hv))]. }
  split; [cbn; congruence|]. split; [|split; [exact VL|split; [|exact SM]]].
  - split; [exact VL|]. exists (B0 :: repeat 0 (length cs)). split.
    + constructor; [split; [exact HB|intros v Hv; exact (proj2 (H0 v Hv))]|]. clear - HC. induction cs as [|c cs IH]; constructor.
      * split; [discriminate|]. intros v Hv. exact (proj2 (HC c v (or_introl eq_refl) Hv)).
      * apply IH. intros c' v Hc Hv. apply (HC c' v); [right|]; assumption.
    + intros l r u Hr Rp Hu. cbn [dot]. rewrite dot_zeros. assert (QP : 1 <= Qn r) by (change 1 with (Qn 1); apply Qn_le; lia).
      assert (MP : 0 < MAX_VALUE) by reflexivity. destruct l as [|l]; cbn [nth_error] in *.
      * injection Hr as <-. injection Hu as <-. nra.
      * assert (E : u = 0) by (apply nth_error_In, repeat_spec in Hu; exact Hu). subst u. specialize (HS r (nth_error_In _ _ Hr)). change (B0 * Qn r0 < Qn r * MAX_VALUE) in HS. nra.
  - exists 0%nat, c0, r0. cbn [nth_error]. auto.
Qed.

Lemma drawn_tame : forall recipe n l m P, recipe <> [] -> Forall (fun r => (0 < r)%nat) recipe -> (N.of_nat n <= 2000000)%N ->
  0 <= P -> Forall (fun p => 0 <= p <= P) l -> P <= 100000000 -> buyers_fit recipe (P * Qn (nsum (tl recipe))) ->
  drawn_market recipe n l m -> tame recipe m.
Proof.
  intros recipe n l m P NE FP HN P0 HP PM PS (used & rest & PE & LU & LM & H).
  destruct recipe as [|r0 recipe]; [congruence|]. destruct used as [|u0 used]; [discriminate|]. destruct m as [|c0 m]; [discriminate|].
  cbn [tl] in PS. injection LU as LU. injection LM as LM.
  assert (R0 : (0 < r0)%nat) by (inversion FP; assumption). assert (Q0 : 0 < Qn r0) by (apply Qn_pos; assumption).
  assert (IN : forall i u, nth_error (u0 :: used) i = Some u -> Forall (fun p => 0 <= p <= P) u).
  { intros i u Hu. apply Forall_forall. intros p Hp. rewrite Forall_forall in HP. apply HP. eapply Permutation_in; [exact PE|].
    apply in_or_app. left. apply in_concat. exists u. split; [|assumption]. eapply nth_error_In; exact Hu. }
  set (f := Qn (nsum recipe) / Qn r0).
  assert (F0 : 0 <= f) by (apply div_nonneg; [assumption|apply Qn_nonneg]).
  assert (FE : f * Qn r0 == Qn (nsum recipe)) by (unfold f; field; lra).
  assert (MV : MAX_VALUE == 100000000) by reflexivity.
  destruct (H 0%nat r0 u0 c0 eq_refl eq_refl eq_refl) as [L0 (vs & V1 & V2 & V3)].
  apply tame_bounds with (B0 := P * f).
  - exact FP.
  - congruence.
  - intros v Hv. apply (Permutation_in _ V2) in Hv. specialize (IN 0%nat u0 eq_refl).
    clear - V1 Hv IN F0 P0 MV. induction V1 as [|p w u0 vs X V1 IH]; [destruct Hv|]. inversion IN as [|? ? Hp IN']; subst.
    destruct Hv as [<-|Hv]; [|apply IH; assumption]. destruct X as (z & -> & T). cbn [Nat.eqb tl hd] in T. fold f in T.
    destruct T as [T _]. assert (Y : 0 <= p * f) by nra. destruct (T Y) as [A B].
    assert (0 <= inject_Z z) by (change 0 with (inject_Z 0); rewrite <- Zle_Qle; exact A). assert (p * f <= P * f) by nra. lra.
  - rewrite MV. nra.
  - intros r Hr. rewrite <- Qmult_assoc, FE. exact (PS r Hr).
  - intros c v Hc Hv. apply In_nth_error in Hc. destruct Hc as (i & Hi).
    assert (Li : (i < length m)%nat) by (apply nth_error_Some; congruence).
    destruct (nth_error recipe i) as [r|] eqn:Er; [|apply nth_error_None in Er; lia].
    destruct (nth_error used i) as [u|] eqn:Eu; [|apply nth_error_None in Eu; lia].
    destruct (H (S i) r u c Er Eu Hi) as [_ (ws & W1 & W2 & _)]. apply (Permutation_in _ W2) in Hv. specialize (IN (S i) u Eu).
    clear - W1 Hv IN PM MV. induction W1 as [|p w u ws X W1 IH]; [destruct Hv|]. inversion IN as [|? ? Hp IN']; subst.
    destruct Hv as [<-|Hv]; [|apply IH; assumption]. destruct X as (z & -> & T). cbn [Nat.eqb] in T. destruct T as [_ T].
    assert (Y : - p <= 0) by lra. destruct (T Y) as [A B].
    assert (inject_Z z <= 0) by (change 0 with (inject_Z 0); rewrite <- Zle_Qle; exact A). lra.
  - unfold csize. rewrite (Permutation_length V2), <- (Forall2_length _ _ _ _ _ V1), L0. apply Nat.mul_le_mono_r. unfold default_max_iterations. lia.
  - apply Forall_forall. intros c Hc. apply In_nth_error in Hc. destruct Hc as (i & Hi).
    assert (Li : (i < S (length m))%nat) by (change (S (length m)) with (length (c0 :: m)); apply nth_error_Some; congruence).
    destruct (nth_error (r0 :: recipe) i) as [r|] eqn:Er; [|apply nth_error_None in Er; cbn in Er; lia].
    destruct (nth_error (u0 :: used) i) as [u|] eqn:Eu; [|apply nth_error_None in Eu; cbn in Eu; lia].
    destruct (H i r u c Er Eu Hi) as [_ (ws & _ & _ & W)]. exact W.
Qed.

Lemma random_stock_tame : forall recipe nums j m, recipe <> [] -> Forall (fun r => (0 < r)%nat) recipe ->
  Forall (fun n => (N.of_nat n <= 2000000)%N) nums -> (nsum recipe < 1000)%nat -> random_stock_market recipe nums j m -> tame recipe m.
Proof.
  intros recipe nums j m NE FP HN HS (n & draws & Hn & LD & -> & H).
  destruct recipe as [|r0 recipe]; [congruence|]. destruct draws as [|d0 draws]; [discriminate|]. injection LD as LD.
  assert (R0 : (0 < r0)%nat) by (inversion FP; assumption). assert (Q0 : 0 < Qn r0) by (apply Qn_pos; assumption).
  set (f := Qn (nsum recipe) / Qn r0).
  assert (F0 : 0 <= f) by (apply div_nonneg; [assumption|apply Qn_nonneg]).
  assert (FE : f * Qn r0 == Qn (nsum recipe)) by (unfold f; field; lra).
  assert (MV : MAX_VALUE == 100000000) by reflexivity.
  cbn [nsum fold_right] in HS. fold (nsum recipe) in HS.
  assert (HQ : Qn r0 + Qn (nsum recipe) <= 999).
  { rewrite <- Qn_plus. change 999 with (Qn 999). apply Qn_le. lia. }
  destruct (H 0%nat r0 d0 eq_refl eq_refl) as [L0 D0]. cbn [Nat.eqb tl hd] in D0. fold f in D0. cbn zeta in D0.
  cbn [map]. apply tame_bounds with (B0 := 100000 * f + 1).
  - exact FP.
  - rewrite map_length. congruence.
  - intros v Hv. unfold uniformly_random, new_category in Hv. cbn [cvalues] in Hv.
    apply (Permutation_in _ (sort_desc_perm _)) in Hv. apply in_map_iff in Hv. destruct Hv as (x & <- & Hx).
    specialize (D0 x Hx). assert (X := py_round_near x). rewrite MV. lra.
  - rewrite MV. lra.
  - assert (X : (100000 * f + 1) * Qn r0 == 100000 * Qn (nsum recipe) + Qn r0).
    { rewrite <- FE. ring. }
    intros r Hr. rewrite X. assert (Y := Qn_nonneg (nsum recipe)). cbn [tl] in Hr.
    assert (R1 : 1 <= Qn r) by (change 1 with (Qn 1); apply Qn_le; inversion FP as [|? ? ? F2]; subst; rewrite Forall_forall in F2; apply F2; exact Hr). lra.
  - intros c v Hc Hv. apply in_map_iff in Hc. destruct Hc as (d & <- & Hd). apply In_nth_error in Hd. destruct Hd as (i & Hi).
    assert (Li : (i < length draws)%nat) by (apply nth_error_Some; congruence).
    destruct (nth_error recipe i) as [r|] eqn:Er; [|apply nth_error_None in Er; lia].
    destruct (H (S i) r d Er Hi) as [_ D]. cbn [Nat.eqb] in D.
    unfold uniformly_random, new_category in Hv. cbn [cvalues] in Hv.
    apply (Permutation_in _ (sort_desc_perm _)) in Hv. apply in_map_iff in Hv. destruct Hv as (x & <- & Hx).
    specialize (D x Hx). assert (X := py_round_near x). rewrite MV. lra.
  - unfold csize, uniformly_random, new_category. cbn [cvalues]. rewrite (Permutation_length (sort_desc_perm _)), map_length, L0.
    apply Nat.mul_le_mono_r. rewrite Forall_forall in HN. specialize (HN n (nth_error_In _ _ Hn)). unfold default_max_iterations. lia.
  - change (sorted_market (map (uniformly_random "agent") (d0 :: draws))).
    apply Forall_forall. intros c Hc. apply in_map_iff in Hc. destruct Hc as (d & <- & _). apply sort_desc_desc.
Qed.
