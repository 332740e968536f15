(** * Trade reduction on a market without spare agents: a walk whose order does not depend on the values *)

From Coq Require Import String List Arith Lia QArith Lqa Permutation Sorted Bool.
From Verif Require Import Base Model_Agents Model_Trade Model_Prices Model_Market Model_Ascending Model_TradeReduction
  Spec_Market Spec_Trade Spec_Ascending Spec_TradeReduction Proof_Market Proof_Trade Proof_Prices Proof_Ascending
  Proof_Ascending2 Proof_Strategy Proof_Ascending3 Proof_Ascending4 Proof_Deals Proof_TR Proof_TR2 Proof_TR3 Proof_TR4 Proof_TR5 Proof_TR6 Proof_TR7 Proof_TR11.
Import ListNotations.
Open Scope Q_scope.

Lemma positive_of : forall recipe, all_positive recipe -> positive recipe.
Proof. intros recipe H j Hj. unfold all_positive in H. rewrite Forall_forall in H. apply H. apply nth_In. exact Hj. Qed.

(** The scarcest category of the sorted market. *)
Definition scarce (m : market) (recipe : list nat) (s j : nat) : Prop :=
  enough s m recipe /\ (j < length recipe)%nat /\ (0 < nth j recipe 0)%nat /\ length (vals m j) = (s * nth j recipe 0)%nat.

Lemma no_spare_scarce : forall m recipe, length recipe = length m -> no_spare m recipe -> exists s j, scarce (clone_market m) recipe s j.
Proof.
  intros m recipe Hl [s [H1 [i [c [r [Hc [Hr [Hp Hz]]]]]]]]. exists s, i.
  assert (Hi : (i < length recipe)%nat) by (apply nth_error_Some; congruence).
  assert (En : nth i recipe 0%nat = r) by (apply nth_error_nth; assumption).
  split; [|split; [exact Hi|split; [lia|]]].
  - intros j c' r' Hc' Hr'. assert (Hj : (j < length m)%nat) by (rewrite <- Hl; apply nth_error_Some; congruence).
    destruct (nth_error m j) as [d|] eqn:Ed; [|apply nth_error_None in Ed; lia].
    rewrite (clone_nth' m j d Ed) in Hc'. injection Hc' as <-. specialize (H1 j d r' Ed Hr').
    unfold clone, csize, new_category. cbn [cvalues]. unfold csize in H1. rewrite sort_desc_length. exact H1.
  - unfold vals. rewrite (nth_error_nth _ _ _ (clone_nth' m i c Hc)). unfold clone, new_category. cbn [cvalues].
    rewrite sort_desc_length, En. exact Hz.
Qed.

Lemma scarce_sizes : forall ma mb recipe s j, length recipe = length ma -> length recipe = length mb ->
  (forall i, length (vals ma i) = length (vals mb i)) -> scarce ma recipe s j -> scarce mb recipe s j.
Proof.
  intros ma mb recipe s j La Lb H [E [Hj [Hp Hz]]]. split; [|split; [exact Hj|split; [exact Hp|rewrite <- H; exact Hz]]].
  apply (enough_nth s mb recipe Lb). intros i Hi. rewrite <- H. apply (proj1 (enough_nth s ma recipe La) E i Hi).
Qed.

Lemma walk_valid : forall M m recipe z o ns i ns', valid m recipe o ns -> walk M m recipe z o ns = Some (i, ns') ->
  (i < length m)%nat /\ (0 < nth i recipe 0)%nat /\ (0 < nth i ns' 0)%nat.
Proof.
  intros M m recipe z. induction o as [|a o IH]; intros ns i ns' V H; cbn [walk] in H; [discriminate|].
  cbn [valid] in V. destruct V as [V1 [V2 [V3 V4]]]. destruct (accepts z (psum M m recipe (dec a ns))).
  - injection H as <- <-. auto.
  - apply (IH (dec a ns)); assumption.
Qed.

Lemma walk_length : forall M m recipe z o ns i ns', walk M m recipe z o ns = Some (i, ns') -> length ns' = length ns.
Proof.
  intros M m recipe z. induction o as [|a o IH]; intros ns i ns' H; cbn [walk] in H; [discriminate|].
  destruct (accepts z (psum M m recipe (dec a ns))); [injection H as <- <-; reflexivity|].
  apply IH in H. rewrite dec_length in H. exact H.
Qed.

(** What trade reduction does after the walk. *)
Definition front (M : Q) (m : market) (recipe : list nat) (t : trade) (w : option (nat * list nat)) : Prop :=
  match w with
  | None => num_of_deals t = 0%nat
  | Some (i, ns) =>
      sizes_ok m ns /\ supports (shrink m ns) recipe (num_of_deals t)
      /\ (forall n, supports (shrink m ns) recipe n -> (n <= num_of_deals t)%nat)
      /\ ((0 < num_of_deals t)%nat -> exists P, Forall2 cat_eq (tcats t) (shrink m ns) /\ trecipe t = recipe /\ tprices t = Some P
            /\ qeq P (final_prices M m recipe ns (Some i)))
  end.

(** Starting at a higher block changes nothing. *)
Lemma walk_blocks : forall M m recipe z k cap s u, length recipe = length m -> sorted_market m -> values_at_least (- M) m ->
  cap_suffices cap m recipe -> stops_at cap k m recipe true -> enough s m recipe -> tr_blocks k u m recipe -> (u <= s)%nat ->
  walk M m recipe z (tr_order s recipe) (at_block s recipe) = walk M m recipe z (tr_order u recipe) (at_block u recipe).
Proof.
  intros M m recipe z k cap s u Hl Hs Hv Hcap Hst Hen Hu Hks.
  destruct (Nat.eq_dec u s) as [->|Hk]; [reflexivity|].
  replace s with ((s - u) + u)%nat at 1 2 by lia. rewrite tr_order_split, walk_app.
  rewrite walk_reject; [rewrite decs_order; reflexivity|].
  intros ns' L Hn Ha. rewrite decs_order in Hn.
  assert (E : u = S k /\ enough (S k) m recipe).
  { destruct Hu as [[A ->]|[A ->]]; [split; [reflexivity|assumption]|]. exfalso. apply A. eapply enough_le; [|exact Hen]. lia. }
  destruct E as [-> He].
  assert (Q := later_unacceptable cap k m recipe true Hs Hcap Hst k (le_n _) He). simpl in Q.
  assert (B : psum M m recipe ns' <= ps_gain m recipe k).
  { apply psum_le_gain; try assumption. intros j Hj Hr. specialize (Hn j). rewrite at_block_nth in Hn. lia. }
  apply acceptable_nonneg in Ha. lra.
Qed.

Lemma enough_dec : forall n m recipe, length recipe = length m -> {enough n m recipe} + {~ enough n m recipe}.
Proof.
  intros n m recipe Hl. destruct (forallb (fun j => n * nth j recipe 0 <=? length (vals m j))%nat (seq 0 (length recipe))) eqn:E.
  - left. apply (enough_nth n m recipe Hl). rewrite forallb_forall in E. intros j Hj. apply Nat.leb_le. apply E. apply in_seq. lia.
  - right. intros H. assert (X := proj1 (enough_nth n m recipe Hl) H).
    assert (Y : forallb (fun j => n * nth j recipe 0 <=? length (vals m j))%nat (seq 0 (length recipe)) = true).
    { apply forallb_forall. intros j Hj. apply in_seq in Hj. apply Nat.leb_le. apply X. lia. }
    congruence.
Qed.

Theorem tr_front : forall M cap m recipe z t s j0 o1, 0 < M -> values_small M recipe m ->
  cap_suffices cap m recipe -> trade_reduction_M M cap m recipe z = Ok t ->
  let m' := clone_market m in scarce m' recipe s j0 -> decs o1 (sizes0 m') = at_block s recipe ->
  length recipe = length m' /\ has_positive_entry recipe /\
  front M m' recipe t (walk M m' recipe z (o1 ++ tr_order s recipe) (sizes0 m')).
Proof.
  intros M cap m recipe z t s j0 o1 HM Hsm Hcap Ht m' [Hen [Hj0 [Hr0 Hz]]] Ho.
  destruct (tr_errors M cap m recipe z) as [[_ [Hl Hp]]|[X _]]; [|congruence].
  assert (Hp' := Hp). apply has_positive in Hp.
  assert (Hl' : length recipe = length m') by (unfold m'; rewrite clone_length; assumption).
  split; [exact Hl'|]. split; [exact Hp'|].
  assert (Hv : values_at_least (- M) m) by apply Hsm.
  destruct (tr_spec M cap m recipe z Hl Hp Hv) as [k [deals [rem [t' [Eo [Ek [Hst [Et [Hnt Hres]]]]]]]]].
  assert (t' = t) by congruence. subst t'. fold m' in Hst.
  assert (Hs' : sorted_market m') by apply clone_sorted.
  assert (Hv' : values_at_least (- M) m') by (apply values_at_least_clone; assumption).
  assert (Hcap' : cap_suffices cap m' recipe) by (apply cap_clone; assumption).
  assert (Hsm' : values_small M recipe m') by (apply small_clone; assumption).
  assert (Hmax : forall n, enough n m' recipe -> (n <= s)%nat).
  { intros n Hn. assert (X := proj1 (enough_nth n m' recipe Hl') Hn j0 Hj0). rewrite Hz in X. apply Nat.mul_le_mono_pos_r in X; assumption. }
  rewrite walk_app, walk_reject.
  2:{ intros ns' Hlen Hn Ha. rewrite Ho in Hn. apply acceptable_nonneg in Ha.
      assert (X := psum_full M m' recipe ns' j0 HM Hl' Hsm' Hj0 Hr0).
      specialize (Hn j0). rewrite at_block_nth in Hn. specialize (X ltac:(lia)). lra. }
  rewrite Ho.
  destruct (deals_max _ _ _ _ Hnt) as [_ [D1 D2]]. fold (num_of_deals t) in D1, D2.
  unfold tr_result in Hres. fold m' in Hres.
  destruct Hres as [[E0 Et0]|[E0 [u [Hu Hw]]]].
  - assert (D0 : num_of_deals t = 0%nat) by (rewrite Et0; reflexivity).
    assert (Hu : exists u, tr_blocks k u m' recipe /\ enough u m' recipe).
    { destruct (enough_dec 1 m' recipe Hl') as [A|A].
      - exists 1%nat. split; [left; rewrite E0; auto|exact A].
      - exists 0%nat. split; [right; rewrite E0; auto|]. intros i c r _ _. lia. }
    destruct Hu as [u [Hu Heu]].
    rewrite (walk_blocks M m' recipe z k cap s u); try assumption; [|apply Hmax; exact Heu].
    destruct (walk M m' recipe z (tr_order u recipe) (at_block u recipe)) as [[i ns]|] eqn:EW; [|exact D0].
    cbn [front]. rewrite D0.
    assert (Hok : sizes_ok m' ns).
    { assert (B := block_sizes_ok m' recipe u Hl' Heu). assert (Lw := walk_length _ _ _ _ _ _ _ _ EW).
      destruct (walk_last _ _ _ _ _ _ _ _ EW) as [_ [_ W]]. split; [rewrite Lw; apply B|].
      intros j. specialize (W j). assert (Y := proj2 B j). lia. }
    split; [exact Hok|]. split; [intros i' c r _ _; lia|]. split; [|intros X; lia].
    intros n Hn. destruct n as [|n]; [lia|exfalso].
    rewrite supports_shrink in Hn by assumption.
    destruct Hu as [[A ->]|[_ ->]]; rewrite E0 in *; [|unfold tr_order in EW; cbn [repeat concat walk] in EW; discriminate EW].
    destruct (walk_last _ _ _ _ _ _ _ _ EW) as [A1 _].
    assert (Q := later_unacceptable cap 0 m' recipe true Hs' Hcap' Hst 0 (le_n _) A). simpl in Q.
    assert (B : psum M m' recipe (dec i ns) <= ps_gain m' recipe 0).
    { apply psum_le_gain; try assumption. intros j Hj Hr. specialize (Hn j Hj).
      destruct (Nat.eq_dec i j) as [<-|N]; [rewrite nth_dec_same; nia|rewrite nth_dec_other by assumption; nia]. }
    apply acceptable_nonneg in A1. lra.
  - assert (Henu : enough u m' recipe).
    { destruct Hu as [[A ->]|[_ ->]]; [assumption|apply (proj1 (proj2 Hst))]. }
    rewrite (walk_blocks M m' recipe z k cap s u); try assumption; [|apply Hmax; exact Henu].
    destruct Hw as [[Ew Et0]|[i [ns [P [Ew [Hcat [Er [EP [HPq [Ha [Hra [Hna [Hb Hacc]]]]]]]]]]]]]; rewrite Ew.
    + rewrite Et0. reflexivity.
    + cbn [front]. split; [apply (below_ok m' recipe _ Hl' (block_sizes_ok m' recipe u Hl' Henu) ns Hb)|].
      split; [eapply supports_cat_eq; eassumption|].
      split; [intros n Hn; apply D2; eapply supports_cat_eq; [apply Forall2_cat_sym|]; eassumption|].
      intros _. exists P. repeat (split; [assumption|]). assumption.
Qed.
