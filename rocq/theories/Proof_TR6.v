(** * Trade reduction with an all-ones recipe: the same walk as the ascending auction; truthfulness *)

From Coq Require Import String List Arith Lia QArith Lqa Permutation Sorted Bool.
From Verif Require Import Base Model_Agents Model_Trade Model_Prices Model_Market Model_Ascending Model_TradeReduction
  Spec_Market Spec_Trade Spec_Ascending Spec_TradeReduction Proof_Market Proof_Trade Proof_Prices Proof_Ascending
  Proof_Ascending2 Proof_Strategy Proof_Ascending3 Proof_Ascending4 Proof_Deals Proof_TR Proof_TR2 Proof_TR3 Proof_TR4 Proof_TR5.
Import ListNotations.
Open Scope Q_scope.

(** The order in which the ascending auction looks at the categories; it depends on sizes only. *)
Fixpoint path (fuel : nat) (recipe ns : list nat) : list nat :=
  match fuel with
  | O => []
  | S f => match choice recipe ns with
           | Ok main => if (nth main ns 0 =? 0)%nat then [] else main :: path f recipe (dec main ns)
           | _ => []
           end
  end.

Lemma Qle_accepts : forall q, Qle_bool 0 q = accepts true q.
Proof. intros q. apply eq_true_iff_eq. rewrite accepts_iff, Qle_bool_iff. reflexivity. Qed.

Lemma abs_loop_walk : forall M m recipe fuel ns ns' stop, abs_loop M fuel m recipe ns = Ok (ns', stop) ->
  match stop with
  | Some i => walk M m recipe true (path fuel recipe ns) ns = Some (i, ns')
  | None => walk M m recipe true (path fuel recipe ns) ns = None
  end.
Proof.
  intros M m recipe. induction fuel as [|fuel IH]; intros ns ns' stop H; [discriminate|].
  cbn [abs_loop path] in *. destruct (choice recipe ns) as [main|e|]; try discriminate. cbn [bind] in H.
  destruct (nth main ns 0 =? 0)%nat; [inversion H; subst; reflexivity|].
  cbn [walk]. rewrite <- Qle_accepts. destruct (Qle_bool 0 (psum M m recipe (dec main ns))).
  - inversion H; subst. reflexivity.
  - apply IH. assumption.
Qed.

(** ** The path for all-ones recipes *)

Lemma argmax_from_first : forall key pre x post b, key b < key x -> (forall y, In y pre -> key y < key x) ->
  (forall y, In y post -> key y <= key x) -> argmax_from key b (pre ++ x :: post) = x.
Proof.
  intros key. induction pre as [|a pre IH]; intros x post b Hb Hpre Hpost; cbn [app argmax_from].
  - destruct (Qlt_bool_reflect (key b) (key x)); [|contradiction]. clear - Hpost. induction post as [|p post IH]; [reflexivity|].
    cbn [argmax_from]. destruct (Qlt_bool_reflect (key x) (key p)) as [H|H].
    + assert (X := Hpost p (or_introl eq_refl)). lra.
    + apply IH. intros y Hy. apply Hpost. right. assumption.
  - destruct (Qlt_bool (key b) (key a)); apply IH; auto; try (apply Hpre; left; reflexivity); intros y Hy; apply Hpre; right; assumption.
Qed.

Lemma argmax_first : forall key pre x post, (forall y, In y pre -> key y < key x) ->
  (forall y, In y post -> key y <= key x) -> argmax key (pre ++ x :: post) = Ok x.
Proof.
  intros key [|a pre] x post Hpre Hpost; cbn [app argmax]; f_equal.
  - clear Hpre. induction post as [|p post IH]; [reflexivity|].
    cbn [argmax_from]. destruct (Qlt_bool_reflect (key x) (key p)) as [H|H].
    + assert (X := Hpost p (or_introl eq_refl)). lra.
    + apply IH. intros y Hy. apply Hpost. right. assumption.
  - apply argmax_from_first; [apply Hpre; left; reflexivity| |assumption]. intros y Hy. apply Hpre. right. assumption.
Qed.

Lemma ones_relevant : forall recipe, all_ones recipe -> relevant_indices recipe = seq 0 (length recipe).
Proof.
  intros recipe H. unfold relevant_indices.
  assert (G : forall l, (forall i, In i l -> (i < length recipe)%nat) ->
    filter (fun i => Nat.ltb 0 (nth i recipe 0%nat)) l = l).
  { induction l as [|i l IH]; intros Hl; [reflexivity|]. simpl. rewrite (all_ones_nth recipe i H) by (apply Hl; left; reflexivity).
    simpl. f_equal. apply IH. intros x Hx. apply Hl. right. assumption. }
  apply G. intros i Hi. apply in_seq in Hi. lia.
Qed.

Lemma ones_ratio : forall recipe ns j, all_ones recipe -> (j < length recipe)%nat -> ratio recipe ns j == Qn (nth j ns 0%nat).
Proof. intros recipe ns j H Hj. unfold ratio. rewrite (all_ones_nth recipe j H Hj). rewrite Qn_1. field. Qed.

Lemma ones_choice : forall recipe ns i, all_ones recipe -> (i < length recipe)%nat ->
  (forall j, (j < i)%nat -> (nth j ns 0 < nth i ns 0)%nat) -> (forall j, (j < length recipe)%nat -> (nth j ns 0 <= nth i ns 0)%nat) ->
  choice recipe ns = Ok i.
Proof.
  intros recipe ns i H Hi Hlt Hle. unfold choice. rewrite ones_relevant by assumption.
  replace (seq 0 (length recipe)) with (seq 0 i ++ i :: seq (S i) (length recipe - S i)).
  - apply argmax_first.
    + intros y Hy. apply in_seq in Hy. rewrite !ones_ratio by (assumption || lia). apply Qn_lt. apply Hlt. lia.
    + intros y Hy. apply in_seq in Hy. rewrite !ones_ratio by (assumption || lia). apply Qn_le. apply Hle. lia.
  - change (i :: seq (S i) (length recipe - S i)) with (seq i (S (length recipe - S i))).
    rewrite <- seq_app. f_equal. lia.
Qed.

Lemma choice_ok : forall recipe ns, all_ones recipe -> recipe <> [] -> exists i, choice recipe ns = Ok i.
Proof.
  intros recipe ns H Hne. unfold choice. rewrite ones_relevant by assumption.
  destruct recipe as [|r recipe]; [congruence|]. simpl. eauto.
Qed.

Lemma ones_block : forall s recipe j, all_ones recipe -> (j < length recipe)%nat -> nth j (at_block s recipe) 0%nat = s.
Proof. intros s recipe j H Hj. rewrite at_block_nth, (all_ones_nth recipe j H Hj). lia. Qed.

Lemma path_reach : forall recipe s, all_ones recipe -> recipe <> [] -> forall fuel ns, length ns = length recipe ->
  (forall j, (j < length recipe)%nat -> (s <= nth j ns 0)%nat) -> (nsum ns <= fuel)%nat ->
  exists o1 f, path fuel recipe ns = o1 ++ path f recipe (at_block s recipe) /\ decs o1 ns = at_block s recipe
    /\ (nsum (at_block s recipe) <= f)%nat.
Proof.
  intros recipe s H1 Hne. induction fuel as [|fuel IH]; intros ns Hl Hs Hf.
  - assert (E : ns = at_block s recipe).
    { apply list_nat_ext; [unfold at_block; rewrite map_length; assumption|]. intros j.
      destruct (le_lt_dec (length recipe) j) as [L|L].
      - rewrite !nth_overflow; [reflexivity|unfold at_block; rewrite map_length; assumption|lia].
      - rewrite ones_block by assumption. specialize (Hs j L). assert (X : (nth j ns 0 <= nsum ns)%nat).
        { clear. revert j. induction ns as [|a ns IH]; intros [|j]; simpl; try lia. specialize (IH j). lia. }
        lia. }
    exists [], 0%nat. rewrite <- E. split; [reflexivity|]. split; [reflexivity|assumption].
  - destruct (list_eq_dec Nat.eq_dec ns (at_block s recipe)) as [E|E].
    { exists [], (S fuel). rewrite <- E. split; [reflexivity|]. split; [reflexivity|assumption]. }
    assert (X : exists j, (j < length recipe)%nat /\ (s < nth j ns 0)%nat).
    { destruct (existsb (fun j => s <? nth j ns 0)%nat (seq 0 (length recipe))) eqn:Ex.
      - apply existsb_exists in Ex. destruct Ex as [j [Hj Hlt]]. apply in_seq in Hj. apply Nat.ltb_lt in Hlt. exists j. split; [lia|assumption].
      - exfalso. apply E. apply list_nat_ext; [unfold at_block; rewrite map_length; assumption|]. intros j.
        destruct (le_lt_dec (length recipe) j) as [L|L].
        + rewrite !nth_overflow; [reflexivity|unfold at_block; rewrite map_length; assumption|lia].
        + rewrite ones_block by assumption. specialize (Hs j L).
          assert (Y : (s <? nth j ns 0)%nat = false).
          { destruct (s <? nth j ns 0)%nat eqn:Z; [|reflexivity]. rewrite <- Ex. symmetry. apply existsb_exists. exists j. split; [apply in_seq; lia|assumption]. }
          apply Nat.ltb_ge in Y. lia. }
    destruct X as [j [Hj Hlt]].
    destruct (choice_ok recipe ns H1 Hne) as [main Hc].
    assert (C := choice_spec recipe ns main Hc). destruct C as [C1 [C2 C3]].
    specialize (C3 j Hj ltac:(rewrite (all_ones_nth recipe j H1 Hj); lia)).
    rewrite !(all_ones_nth recipe) in C3 by assumption.
    assert (Hm : (s < nth main ns 0)%nat) by lia.
    cbn [path]. rewrite Hc. destruct (Nat.eqb_spec (nth main ns 0%nat) 0); [lia|].
    destruct (IH (dec main ns)) as [o1 [f [P1 [P2 P3]]]].
    + rewrite dec_length. assumption.
    + intros j' Hj'. destruct (Nat.eq_dec main j') as [<-|N]; [rewrite nth_dec_same; lia|rewrite nth_dec_other by assumption; apply Hs; assumption].
    + assert (D := dec_sum main ns ltac:(lia)). lia.
    + exists (main :: o1), f. rewrite P1. split; [reflexivity|]. split; assumption.
Qed.

Lemma ones_pivots : forall recipe a, all_ones recipe -> pivot_categories_from a recipe = seq a (length recipe).
Proof.
  induction recipe as [|r recipe IH]; intros a H; [reflexivity|]. inversion H; subst. simpl. f_equal. apply IH. assumption.
Qed.

(** State inside a block: the first [i] categories have lost an agent. *)
Lemma path_block_from : forall recipe l, all_ones recipe -> forall n i ns fuel, (i + n = length recipe)%nat ->
  length ns = length recipe ->
  (forall j, (j < i)%nat -> nth j ns 0%nat = l) -> (forall j, (i <= j < length recipe)%nat -> nth j ns 0%nat = S l) -> (n <= fuel)%nat ->
  path fuel recipe ns = seq i n ++ path (fuel - n) recipe (at_block l recipe).
Proof.
  intros recipe l H1. induction n as [|n IH]; intros i ns fuel Hin Hl Hlo Hhi Hf.
  - simpl. rewrite Nat.sub_0_r. f_equal. apply list_nat_ext; [unfold at_block; rewrite map_length; assumption|].
    intros j. destruct (le_lt_dec (length recipe) j) as [L|L].
    + rewrite !nth_overflow; [reflexivity|unfold at_block; rewrite map_length; assumption|lia].
    + rewrite ones_block by assumption. apply Hlo. lia.
  - destruct fuel as [|fuel]; [lia|]. cbn [path seq app].
    assert (Ei := Hhi i ltac:(lia)).
    rewrite (ones_choice recipe ns i H1).
    + rewrite Ei. cbn [Nat.eqb]. cbn [Nat.sub]. f_equal. apply IH; [lia|rewrite dec_length; assumption| | |lia].
      * intros j Hj. destruct (Nat.eq_dec i j) as [<-|N]; [rewrite nth_dec_same; lia|].
        rewrite nth_dec_other by assumption. apply Hlo. lia.
      * intros j Hj. rewrite nth_dec_other by lia. apply Hhi. lia.
    + lia.
    + intros j Hj. rewrite Ei, (Hlo j Hj). lia.
    + intros j Hj. rewrite Ei. destruct (le_lt_dec i j); [rewrite Hhi by lia; lia|rewrite Hlo by assumption; lia].
Qed.

Lemma nsum_at_block : forall s recipe, all_ones recipe -> nsum (at_block s recipe) = (s * length recipe)%nat.
Proof.
  intros s recipe H. unfold at_block. induction H as [|r recipe Hr H IH]; simpl; [lia|]. rewrite IH, Hr. lia.
Qed.

Lemma path_blocks : forall recipe, all_ones recipe -> recipe <> [] -> forall s fuel, (nsum (at_block s recipe) <= fuel)%nat ->
  path fuel recipe (at_block s recipe) = tr_order s recipe.
Proof.
  intros recipe H1 Hne. induction s as [|s IH]; intros fuel Hf.
  - destruct fuel as [|fuel]; [reflexivity|]. cbn [path].
    destruct (choice_ok recipe (at_block 0 recipe) H1 Hne) as [i ->]. rewrite at_block_nth. reflexivity.
  - rewrite nsum_at_block in Hf by assumption.
    rewrite (path_block_from recipe s H1 (length recipe) 0).
    + change (tr_order (S s) recipe) with (pivot_categories recipe ++ tr_order s recipe).
      unfold pivot_categories. rewrite ones_pivots by assumption. f_equal.
      apply IH. rewrite nsum_at_block by assumption. simpl in Hf. lia.
    + lia.
    + unfold at_block. rewrite map_length. reflexivity.
    + intros j Hj. lia.
    + intros j Hj. apply ones_block; [assumption|lia].
    + simpl in Hf. lia.
Qed.

(** ** Common walk *)

Lemma smallest_size : forall (m : market) recipe, length recipe = length m -> recipe <> [] -> all_ones recipe ->
  exists s, enough s m recipe /\ exists j, (j < length m)%nat /\ length (vals m j) = s.
Proof.
  intros m recipe Hl Hne H1. destruct (min_list (map csize m)) as [s|] eqn:E.
  - assert (X := min_list_spec (map csize m)). rewrite E in X. destruct X as [X1 X2].
    exists s. split.
    + intros i c r Hc Hr. assert (r = 1%nat).
      { unfold all_ones in H1. rewrite Forall_forall in H1. apply H1. apply nth_error_In in Hr. assumption. }
      subst r. rewrite Nat.mul_1_r. apply X2. apply in_map. apply nth_error_In in Hc. assumption.
    + apply in_map_iff in X1. destruct X1 as [c [Ec Hc]]. apply In_nth with (d := dcat) in Hc. destruct Hc as [j [Hj Ej]].
      exists j. split; [assumption|]. unfold vals. rewrite Ej. exact Ec.
  - assert (X := min_list_spec (map csize m)). rewrite E in X. destruct m; [|discriminate].
    destruct recipe; [congruence|discriminate].
Qed.

Lemma small_at_least : forall M recipe m, values_small M recipe m -> (0 < nsum recipe)%nat -> values_at_least (- M) m.
Proof. intros M recipe m [H _] _. exact H. Qed.

Lemma small_clone : forall M recipe m, values_small M recipe m -> values_small M recipe (clone_market m).
Proof. exact small_clone_market. Qed.

(** While a category still has all its agents, the price-sum is negative. *)
Lemma psum_full : forall M m recipe ns j, 0 < M -> length recipe = length m -> values_small M recipe m ->
  (j < length recipe)%nat -> (0 < nth j recipe 0)%nat -> (length (vals m j) <= nth j ns 0)%nat -> psum M m recipe ns < 0.
Proof. intros M m recipe ns j HM Hl Hs Hj Hr Hf. apply (untouched_negative M m recipe Hl ns j Hs Hj Hr Hf). Qed.

Lemma ones_positive : forall recipe, all_ones recipe -> recipe <> [] -> exists j, (j < length recipe)%nat /\ (0 < nth j recipe 0)%nat.
Proof.
  intros recipe H Hne. exists 0%nat. destruct recipe as [|r recipe]; [congruence|].
  split; [simpl; lia|]. rewrite all_ones_nth; [lia|assumption|simpl; lia].
Qed.

(** The walk along the path of the ascending auction, for any acceptance rule, is the walk of trade
    reduction: the additional rounds at the start are all rejected. *)
Lemma full_walk : forall M m recipe z k cap fuel, 0 < M -> length recipe = length m -> recipe <> [] -> sorted_market m ->
  all_ones recipe -> values_small M recipe m -> cap_suffices cap m recipe -> stops_at cap k m recipe true ->
  (nsum (sizes0 m) <= fuel)%nat ->
  walk M m recipe z (path fuel recipe (sizes0 m)) (sizes0 m) = walk M m recipe z (tr_order k recipe) (at_block k recipe).
Proof.
  intros M m recipe z k cap fuel HM Hl Hne Hs H1 Hsm Hcap Hst Hf.
  assert (Hpos := ones_positive recipe H1 Hne).
  assert (Hv : values_at_least (- M) m).
  { apply (small_at_least M recipe); [assumption|]. destruct Hpos as [j [_ Hj]]. apply (nsum_pos recipe j). assumption. }
  destruct (smallest_size m recipe Hl Hne H1) as [s [Hen [j0 [Hj0 Es]]]].
  assert (L0 : length (sizes0 m) = length recipe) by (unfold sizes0; rewrite map_length; auto).
  assert (Hsj : forall j, (j < length recipe)%nat -> (s <= nth j (sizes0 m) 0)%nat).
  { intros j Hj. rewrite sizes0_nth. assert (X := proj1 (enough_nth s m recipe Hl) Hen j Hj). rewrite (all_ones_nth recipe j H1 Hj) in X. lia. }
  destruct (path_reach recipe s H1 Hne fuel (sizes0 m) L0 Hsj Hf) as [o1 [f [E1 [E2 E3]]]].
  rewrite E1, (path_blocks recipe H1 Hne s f E3), walk_app.
  assert (Hks : (k <= s)%nat).
  { assert (X := proj1 (enough_nth k m recipe Hl) (proj1 (proj2 Hst)) j0 ltac:(lia)). rewrite (all_ones_nth recipe j0 H1) in X by lia. lia. }
  rewrite walk_reject.
  - rewrite E2. destruct (Nat.eq_dec k s) as [->|Hk]; [reflexivity|].
    apply (walk_from_block M m recipe z k cap s); try assumption. lia.
  - intros ns' Hlen Hn Ha. rewrite E2 in Hn. apply acceptable_nonneg in Ha.
    assert (X := psum_full M m recipe ns' j0 HM Hl Hsm ltac:(lia) ltac:(rewrite (all_ones_nth recipe j0 H1) by lia; lia)).
    specialize (Hn j0). rewrite (ones_block s recipe j0 H1) in Hn by lia.
    specialize (X ltac:(lia)). lra.
Qed.

(** What trade reduction returns, in terms of the common walk. *)
Theorem tr_ones : forall M cap m recipe z t fuel, 0 < M -> all_ones recipe -> values_small M recipe m ->
  cap_suffices cap m recipe -> trade_reduction_M M cap m recipe z = Ok t -> (total_agents m <= fuel)%nat ->
  let m' := clone_market m in
  length recipe = length m' /\ recipe <> [] /\ new_trade (tcats t) recipe (tprices t) = Ok t /\
  match walk M m' recipe z (path fuel recipe (sizes0 m')) (sizes0 m') with
  | None => num_of_deals t = 0%nat /\ (forall c, In c (tcats t) -> cvalues c = [])
  | Some (i, ns) => exists P, sizes_ok m' ns /\ Forall2 cat_eq (tcats t) (shrink m' ns) /\ trecipe t = recipe /\ tprices t = Some P
      /\ qeq P (final_prices M m' recipe ns (Some i))
      /\ (i < length m')%nat /\ (0 < nth i recipe 0)%nat /\ (0 < nth i ns 0)%nat
  end.
Proof.
  intros M cap m recipe z t fuel HM H1 Hsm Hcap Ht Hf m'.
  destruct (tr_errors M cap m recipe z) as [[_ [Hl Hp]]|[X _]]; [|congruence].
  apply has_positive in Hp.
  assert (Hl' : length recipe = length m') by (unfold m'; rewrite clone_length; assumption).
  assert (Hne : recipe <> []) by (destruct Hp as [j [Hj _]]; destruct recipe; [simpl in Hj; lia|discriminate]).
  assert (Hv : values_at_least (- M) m).
  { apply (small_at_least M recipe); [assumption|]. destruct Hp as [j [_ Hj]]. apply (nsum_pos recipe j). assumption. }
  destruct (tr_spec M cap m recipe z Hl Hp Hv) as [k [deals [rem [t' [Eo [Ek [Hst [Et [Hnt Hres]]]]]]]]].
  assert (t' = t) by congruence. subst t'. fold m' in Hst.
  assert (Hs' : sorted_market m') by apply clone_sorted.
  assert (Hv' : values_at_least (- M) m') by (apply values_at_least_clone; assumption).
  assert (Hcap' : cap_suffices cap m' recipe) by (apply cap_clone; assumption).
  split; [assumption|]. split; [assumption|]. split; [assumption|].
  rewrite (full_walk M m' recipe z k cap fuel); try assumption.
  2:{ apply small_clone. assumption. }
  2:{ unfold m'. rewrite nsum_sizes0_clone. assumption. }
  unfold tr_result in Hres. fold m' in Hres.
  destruct Hres as [[E0 Et0]|[E0 [u [Hu Hw]]]].
  - rewrite E0. change (tr_order 0 recipe) with (@nil nat). cbn [walk]. rewrite Et0. split; [reflexivity|]. cbn [tcats]. apply empty_cats.
  - rewrite (ones_walk M m' recipe z k cap u) in Hw; try assumption.
    destruct Hw as [[Ew Et0]|[i [ns [P [Ew [Hcat [Er [EP [HPq [Ha [Hra [Hna [Hb Hacc]]]]]]]]]]]]]; rewrite Ew.
    + rewrite Et0. split; [reflexivity|]. cbn [tcats]. apply empty_cats.
    + assert (Henu : enough u m' recipe).
      { destruct Hu as [[A ->]|[_ ->]]; [assumption|apply (proj1 (proj2 Hst))]. }
      exists P. split; [apply (below_ok m' recipe _ Hl' (block_sizes_ok m' recipe u Hl' Henu) ns Hb)|].
      repeat (split; [assumption|]). assumption.
Qed.

(** ** C54: the same result as the ascending auction *)

Lemma deals_cat_eq : forall cats cats' recipe P P' t t', Forall2 cat_eq cats cats' ->
  new_trade cats recipe P = Ok t -> new_trade cats' recipe P' = Ok t' -> num_of_deals t = num_of_deals t'.
Proof.
  intros cats cats' recipe P P' t t' H Ht Ht'.
  destruct (deals_max _ _ _ _ Ht) as [_ [S1 M1]]. destruct (deals_max _ _ _ _ Ht') as [_ [S2 M2]].
  apply Nat.le_antisymm.
  - apply M2. eapply supports_cat_eq; eassumption.
  - apply M1. eapply supports_cat_eq; [apply Forall2_cat_sym|]; eassumption.
Qed.

Theorem tr_ascending : forall M cap fuel m recipe t ta, 0 < M -> all_ones recipe -> values_small M recipe m ->
  cap_suffices cap m recipe -> trade_reduction_M M cap m recipe true = Ok t -> ascending_auction_M M fuel m recipe = Ok ta ->
  num_of_deals t = num_of_deals ta
  /\ ((0 < num_of_deals t)%nat -> Forall2 cat_eq (tcats t) (tcats ta)
      /\ exists P Pa, tprices t = Some P /\ tprices ta = Some Pa /\ Forall2 Qeq P Pa).
Proof.
  intros M cap fuel m recipe t ta HM H1 Hsm Hcap Ht Hta.
  assert (Hta' : ascending_auction_M M (fuel + total_agents m) m recipe = Ok ta).
  { unfold ascending_auction_M in *. destruct (length recipe =? length m)%nat; [|discriminate].
    apply bind_Ok in Hta. destruct Hta as [s [Hs Hta]]. rewrite (ascending_loop_mono _ (total_agents m) _ _ _ Hs). exact Hta. }
  destruct (auction_outcome _ _ _ _ _ Hta') as [Hl [Hp [ns [stop [Ho [Ha [Eta [Hsup Hmax]]]]]]]].
  destruct (tr_ones M cap m recipe true t (fuel + total_agents m) HM H1 Hsm Hcap Ht ltac:(lia)) as [_ [Hne [Hnt Hw]]].
  set (m' := clone_market m) in *.
  assert (W := abs_loop_walk _ _ _ _ _ _ _ Ha).
  assert (Hok := proj1 (outcome_inv M m' recipe HM Hl Hp ns stop Ho)).
  destruct stop as [i|].
  - rewrite W in Hw. destruct Hw as [P [_ [Hcat [_ [EP [HPq _]]]]]].
    assert (Ec : tcats ta = shrink m' ns) by (rewrite Eta; reflexivity).
    assert (D : num_of_deals t = num_of_deals ta).
    { destruct (deals_max _ _ _ _ Hnt) as [_ [S1 M1]]. fold (num_of_deals t) in S1, M1. apply Nat.le_antisymm.
      - apply Hmax. eapply supports_cat_eq; eassumption.
      - apply M1. eapply supports_cat_eq; [apply Forall2_cat_sym|]; eassumption. }
    split; [assumption|]. intros _. rewrite Ec. split; [assumption|].
    exists P, (final_prices M m' recipe ns (Some i)). split; [assumption|]. split; [rewrite Eta; reflexivity|assumption].
  - rewrite W in Hw. destruct Hw as [D _]. rewrite D.
    assert (D0 : num_of_deals ta = 0%nat).
    { destruct (num_of_deals ta) as [|d] eqn:E; [reflexivity|exfalso].
      destruct (deals_zero_stop M m' recipe ns None (S d) HM Hl Hp Ho Hsup ltac:(lia)) as [main X]. discriminate. }
    split; [auto|]. intros X. lia.
Qed.
