(** * Trade reduction: budget balance, no exceptions, rationality, number of deals *)

From Coq Require Import String List Arith Lia QArith Lqa Permutation Sorted Bool.
From Verif Require Import Base Model_Agents Model_Trade Model_Prices Model_Market Model_Ascending Model_TradeReduction
  Spec_Market Spec_Trade Spec_Ascending Proof_Market Proof_Trade Proof_Prices Proof_Ascending
  Proof_Ascending2 Proof_Ascending3 Proof_Ascending4 Proof_Deals Proof_TR Proof_TR2 Proof_TR3.
Import ListNotations.
Open Scope Q_scope.

(** ** The loop never raises and keeps the balance, whatever the values *)

Record tr_inv (m : market) (recipe : list nat) (s : tr_state) : Prop := {
  inv_len : length (tr_remaining s) = length m;
  inv_ne : forall c, In c (tr_remaining s) -> cvalues c <> [];
  inv_names : map cname (tr_traders s) = map cname m;
  inv_prices : match tr_prices s with
               | None => forall c, In c (tr_traders s) -> cvalues c = []
               | Some P => length P = length recipe /\ dot P recipe == 0
               end }.

Lemma In_set_nth : forall A i (x y : A) l, In y (set_nth i x l) -> y = x \/ In y l.
Proof.
  induction i; intros x y [|a l] H; simpl in *; try tauto.
  - destruct H; auto.
  - destruct H as [H|H]; auto. apply IHi in H. tauto.
Qed.

Lemma names_length : forall (m : market) cats, map cname cats = map cname m -> length cats = length m.
Proof. intros m cats H. rewrite <- (map_length cname cats), H, map_length. reflexivity. Qed.

Lemma append_nonempty : forall c v, cvalues (append c v) <> [].
Proof.
  intros c v E. unfold append in E. cbn [cvalues] in E. assert (X := f_equal (@length Q) E).
  rewrite sort_desc_length, app_length in X. simpl in X. lia.
Qed.

Lemma append_names : forall (m : market) tr i v, (i < length tr)%nat -> map cname tr = map cname m ->
  map cname (set_nth i (append (nth i tr dcat) v) tr) = map cname m.
Proof.
  intros m tr i v Hi H. rewrite <- H. apply (map_set_nth _ _ cname i _ tr dcat); [assumption|reflexivity].
Qed.

Lemma balanced_prices : forall i v best recipe r, length best = length recipe -> nth_error best i = Some v ->
  nth_error recipe i = Some r -> (0 < r)%nat ->
  exists P, calculate_prices i v best recipe = Ok P /\ length P = length recipe /\ dot P recipe == 0.
Proof.
  intros i v best recipe r Hl Hb Hr Hp. unfold calculate_prices, get. rewrite Hr. cbn [bind].
  destruct (Nat.eqb_spec r 0); [lia|]. eexists. split; [reflexivity|].
  split; [rewrite set_nth_length; assumption|].
  rewrite (dot_set_nth i _ best recipe r v Hb Hr). assert (X := Qn_pos _ Hp). field. lra.
Qed.

Lemma tr_step_inv : forall m recipe z s i v, length recipe = length m -> tr_inv m recipe s ->
  (i < length m)%nat -> (0 < nth i recipe 0)%nat ->
  exists s', tr_step recipe z s (i, v) = Ok s' /\ tr_inv m recipe s'.
Proof.
  intros m recipe z s i v Hl [I1 I2 I3 I4] Hi Hr.
  assert (Lt := names_length _ _ I3).
  assert (K : forall P, length P = length recipe -> dot P recipe == 0 ->
    exists s', tr_keep' (mkTR (tr_remaining s) (tr_traders s) (Some P)) i v = Ok s' /\ tr_inv m recipe s').
  { intros P P1 P2. unfold tr_keep'. cbn [tr_traders tr_remaining tr_prices].
    rewrite append_trader_ok by lia. eexists. split; [reflexivity|]. constructor; cbn [tr_traders tr_remaining tr_prices].
    - assumption.
    - assumption.
    - apply append_names; [lia|assumption].
    - split; assumption. }
  unfold tr_step. destruct (tr_prices s) as [P|] eqn:EP.
  - destruct s as [rem tr p]. simpl in *. subst p. apply K; apply I4.
  - unfold best_containing_PS. rewrite best_from_spec by assumption. cbn [bind].
    set (best := map _ _).
    assert (Lb : length best = length recipe) by (unfold best; rewrite map_length, seq_length; lia).
    destruct (Qlt_bool 0 (dot best recipe) || (z && Qeq_bool (dot best recipe) 0)).
    + destruct (balanced_prices i v best recipe (nth i recipe 0%nat)) as [P [P1 [P2 P3]]].
      * assumption.
      * unfold best. rewrite nth_error_map_seq by lia. simpl. rewrite Nat.eqb_refl. reflexivity.
      * apply nth_error_nth'. lia.
      * assumption.
      * rewrite P1. cbn [bind]. apply K; assumption.
    + rewrite append_trader_ok by lia. cbn [bind]. eexists. split; [reflexivity|].
      constructor; cbn [tr_traders tr_remaining tr_prices].
      * rewrite set_nth_length. assumption.
      * intros c Hc. apply In_set_nth in Hc. destruct Hc as [->|Hc]; [apply append_nonempty|auto].
      * assumption.
      * assumption.
Qed.

Lemma tr_fold_inv : forall m recipe z pl s, length recipe = length m -> tr_inv m recipe s ->
  Forall (fun p => (fst p < length m)%nat /\ (0 < nth (fst p) recipe 0)%nat) pl ->
  exists s', fold_result (tr_step recipe z) pl s = Ok s' /\ tr_inv m recipe s'.
Proof.
  intros m recipe z pl s Hl Hi Hp. revert s Hi. induction Hp as [|[i v] pl [H1 H2] Hp IH]; intros s Hi.
  - exists s. split; [reflexivity|assumption].
  - destruct (tr_step_inv m recipe z s i v Hl Hi H1 H2) as [s' [E Hi']].
    destruct (IH s' Hi') as [s'' [E' Hi'']]. exists s''. split; [|assumption].
    cbn [fold_result]. rewrite E. exact E'.
Qed.

Lemma valid_indices : forall m recipe o ns pl, valid m recipe o ns -> Forall2 piv_eq pl (stream m o ns) ->
  Forall (fun p => (fst p < length m)%nat /\ (0 < nth (fst p) recipe 0)%nat) pl.
Proof.
  intros m recipe o. induction o as [|i o IH]; intros ns pl Hv Hp; simpl in *; inversion Hp as [|q q' pl' str Hp1 Hp2]; subst;
    constructor.
  - destruct Hp1 as [E _]. simpl in E. rewrite E. tauto.
  - apply (IH (dec i ns)); [tauto|assumption].
Qed.

Lemma empty_deals_any : forall cats recipe prices t, length recipe = length cats ->
  (exists j, (j < length recipe)%nat /\ (0 < nth j recipe 0)%nat) -> (forall c, In c cats -> cvalues c = []) ->
  new_trade cats recipe prices = Ok t -> num_of_deals t = 0%nat.
Proof.
  intros cats recipe prices t Hl [j [Hj Hr]] He H. destruct (deals_max _ _ _ _ H) as [_ [Hs _]].
  specialize (Hs j (nth j cats dcat) (nth j recipe 0%nat)).
  assert (C : csize (nth j cats dcat) = 0%nat).
  { unfold csize. rewrite He; [reflexivity|]. apply nth_In. lia. }
  rewrite C in Hs. specialize (Hs ltac:(apply nth_error_nth'; lia) ltac:(apply nth_error_nth'; assumption)).
  unfold num_of_deals. nia.
Qed.

Lemma repeat_zero_dot : forall n recipe, dot (repeat 0 n) recipe == 0.
Proof. induction n; intros [|r recipe]; simpl; try reflexivity. rewrite IHn. ring. Qed.

Lemma empty_cats : forall m c, In c (empty_agent_categories m) -> cvalues c = [].
Proof.
  intros m c H. unfold empty_agent_categories in H. apply in_map_iff in H. destruct H as [c0 [<- _]]. reflexivity.
Qed.

Lemma names_empty : forall m, map cname (empty_agent_categories m) = map cname m.
Proof. intros m. unfold empty_agent_categories. rewrite map_map. reflexivity. Qed.

Lemma clone_names : forall m, map cname (clone_market m) = map cname m.
Proof. intros m. unfold clone_market. rewrite map_map. reflexivity. Qed.

(** Trade reduction always returns a balanced trade. *)
Theorem tr_total : forall M cap m recipe z, length recipe = length m ->
  (exists j, (j < length recipe)%nat /\ (0 < nth j recipe 0)%nat) ->
  exists t, trade_reduction_M M cap m recipe z = Ok t
    /\ new_trade (tcats t) recipe (tprices t) = Ok t
    /\ map cname (tcats t) = map cname m
    /\ match tprices t with
       | Some P => length P = length recipe /\ dot P recipe == 0
       | None => num_of_deals t = 0%nat /\ forall c, In c (tcats t) -> cvalues c = []
       end.
Proof.
  intros M cap m recipe z Hl Hpos.
  destruct (tr_unfold M cap m recipe z Hl Hpos) as [k [deals [rem [Eo [Ek [Hst Hcase]]]]]].
  set (m' := clone_market m) in *.
  assert (Hl' : length recipe = length m') by (unfold m'; rewrite clone_length; assumption).
  destruct Hcase as [[E0 E]|[E0 [u [pl [Hu [Henu [Hpl E]]]]]]]; rewrite E.
  - destruct (new_trade_pos (empty_agent_categories m) recipe (Some (repeat 0 (length recipe)))) as [d Ed].
    { unfold empty_agent_categories. rewrite map_length. auto. }
    { assumption. }
    eexists. split; [exact Ed|]. cbn [tcats tprices]. split; [exact Ed|]. split; [apply names_empty|].
    split; [apply repeat_length|apply repeat_zero_dot].
  - destruct (tr_fold_inv m recipe z pl (mkTR (add_dummies M (drop_ps u m' recipe)) (empty_agent_categories m) None) Hl) as [s [Es [I1 I2 I3 I4]]].
    + constructor; cbn [tr_remaining tr_traders tr_prices].
      * unfold add_dummies. rewrite map_length, drop_length by assumption. unfold m'. apply clone_length.
      * intros c Hc. unfold add_dummies in Hc. apply in_map_iff in Hc. destruct Hc as [c0 [<- _]].
        destruct (Nat.eqb_spec (csize c0) 0) as [X|X]; [apply append_nonempty|].
        intros Y. apply X. unfold csize. rewrite Y. reflexivity.
      * apply names_empty.
      * apply empty_cats.
    + eapply Forall_impl; [|apply (valid_indices m' recipe _ _ _ (valid_order m' recipe u Hl') Hpl)].
      intros p [H1 H2]. unfold m' in H1. rewrite clone_length in H1. split; assumption.
    + rewrite Es. cbn [bind]. assert (Lt := names_length _ _ I3).
      destruct (new_trade_pos (tr_traders s) recipe (tr_prices s)) as [d Ed]; [lia|assumption|].
      exists (mkTrade (tr_traders s) recipe (tr_prices s) d). split; [assumption|]. cbn [tcats tprices].
      split; [assumption|]. split; [assumption|].
      destruct (tr_prices s) as [P|]; [assumption|]. split; [|assumption].
      apply (empty_deals_any (tr_traders s) recipe None); [lia|assumption|assumption|assumption].
Qed.

(** ** Recipes without a positive entry *)

Lemma zero_recipe_highest : forall m recipe, length recipe = length m -> (forall r, In r recipe -> r = 0%nat) ->
  get_highest_agents m recipe = Ok (Some []).
Proof.
  induction m as [|c m IH]; intros [|r recipe] Hl H; simpl in Hl; try discriminate; [reflexivity|].
  cbn [get_highest_agents]. assert (r = 0%nat) by (apply H; left; reflexivity). subst r. simpl.
  rewrite IH; [reflexivity|lia|]. intros r Hr. apply H. right. assumption.
Qed.

Lemma zero_recipe_pivots : forall recipe a, (forall r, In r recipe -> r = 0%nat) -> pivot_indexes_from a recipe = [].
Proof.
  induction recipe as [|r recipe IH]; intros a H; [reflexivity|]. simpl.
  assert (r = 0%nat) by (apply H; left; reflexivity). subst r. simpl. apply IH. intros r Hr. apply H. right. assumption.
Qed.

Lemma fold_tr_ps_zero : forall recipe z l s, (forall r, In r recipe -> r = 0%nat) ->
  fold_result (tr_ps recipe z) l s = Ok s.
Proof.
  intros recipe z l s H. induction l as [|ps l IH]; [reflexivity|]. cbn [fold_result].
  unfold tr_ps at 1, pivot_indexes. rewrite zero_recipe_pivots by assumption. cbn [fold_result bind]. exact IH.
Qed.

Lemma zero_new_trade : forall cats recipe prices, (forall r, In r recipe -> r = 0%nat) ->
  new_trade cats recipe prices = Raise ValueError.
Proof.
  intros cats recipe prices H. apply new_trade_error. intros [i [c [r [_ [Hr Hp]]]]].
  apply nth_error_In in Hr. apply H in Hr. lia.
Qed.

Theorem tr_errors : forall M cap m recipe z,
  ((exists t, trade_reduction_M M cap m recipe z = Ok t) /\ length recipe = length m /\ has_positive_entry recipe)
  \/ (trade_reduction_M M cap m recipe z = Raise ValueError
      /\ (length recipe <> length m \/ ~ has_positive_entry recipe)).
Proof.
  intros M cap m recipe z. destruct (Nat.eq_dec (length recipe) (length m)) as [Hl|Hl].
  - destruct (has_positive_dec recipe) as [Hp|Hp].
    + left. split; [|split; assumption]. apply has_positive in Hp.
      destruct (tr_total M cap m recipe z Hl Hp) as [t [E _]]. eauto.
    + right. split; [|right; assumption].
      assert (Z : forall r, In r recipe -> r = 0%nat).
      { intros r Hr. apply In_nth_error in Hr. destruct Hr as [i Hr]. destruct r; [reflexivity|].
        exfalso. apply Hp. exists i, (S r). split; [assumption|lia]. }
      unfold trade_reduction_M. rewrite Hl, Nat.eqb_refl.
      destruct (optimal_trade_errors cap m recipe true) as [[[deals rem] [E _]]|[_ E]]; [|contradiction].
      destruct (conservation cap m recipe true deals rem E) as [_ [_ [_ [Lr _]]]].
      rewrite E. cbn [bind]. destruct deals as [|d deals]; [apply zero_new_trade; assumption|].
      rewrite zero_recipe_highest by (congruence || assumption). cbn [bind].
      rewrite fold_tr_ps_zero by assumption. cbn [bind]. apply zero_new_trade. assumption.
  - right. split; [|left; assumption]. unfold trade_reduction_M.
    destruct (Nat.eqb_spec (length recipe) (length m)); [contradiction|reflexivity].
Qed.

(** ** Facts about the walk *)

Lemma walk_last : forall M m recipe z o ns i ns', walk M m recipe z o ns = Some (i, ns') ->
  acceptable z (psum M m recipe (dec i ns')) /\ (ns' = ns \/ ~ acceptable z (psum M m recipe ns'))
  /\ (forall j, (nth j ns' 0 <= nth j ns 0)%nat).
Proof.
  intros M m recipe z. induction o as [|a o IH]; intros ns i ns' H; simpl in H; [discriminate|].
  destruct (accepts z (psum M m recipe (dec a ns))) eqn:E.
  - inversion H; subst. split; [apply accepts_iff; assumption|]. split; [left; reflexivity|intros; lia].
  - destruct (IH _ _ _ H) as [H1 [H2 H3]]. split; [assumption|]. split.
    + right. destruct H2 as [->|H2]; [|assumption]. intros X. apply accepts_iff in X. congruence.
    + intros j. specialize (H3 j). assert (X := nth_dec_le a j ns). lia.
Qed.

Lemma walk_app : forall M m recipe z o1 o2 ns,
  walk M m recipe z (o1 ++ o2) ns
  = match walk M m recipe z o1 ns with Some r => Some r | None => walk M m recipe z o2 (decs o1 ns) end.
Proof.
  intros M m recipe z. induction o1 as [|a o1 IH]; intros o2 ns; simpl; [reflexivity|].
  destruct (accepts z (psum M m recipe (dec a ns))); [reflexivity|apply IH].
Qed.

Lemma decs_le : forall o ns j, (nth j (decs o ns) 0 <= nth j ns 0)%nat.
Proof.
  induction o as [|a o IH]; intros ns j; simpl; [lia|]. specialize (IH (dec a ns) j). assert (X := nth_dec_le a j ns). lia.
Qed.

Lemma walk_above : forall M m recipe z o ns i ns', walk M m recipe z o ns = Some (i, ns') ->
  forall j, (nth j (decs o ns) 0 <= nth j ns' 0)%nat.
Proof.
  intros M m recipe z. induction o as [|a o IH]; intros ns i ns' H j; simpl in H; [discriminate|].
  destruct (accepts z (psum M m recipe (dec a ns))) eqn:E.
  - inversion H; subst. apply decs_le.
  - simpl. apply (IH _ _ _ H).
Qed.

(** A walk whose states all stay above [lo] never accepts if no such state is acceptable. *)
Lemma walk_reject : forall M m recipe z o ns,
  (forall ns', length ns' = length ns -> (forall j, (nth j (decs o ns) 0 <= nth j ns' 0 <= nth j ns 0)%nat) -> ~ acceptable z (psum M m recipe ns')) ->
  walk M m recipe z o ns = None.
Proof.
  intros M m recipe z. induction o as [|a o IH]; intros ns H; simpl; [reflexivity|].
  destruct (accepts z (psum M m recipe (dec a ns))) eqn:E.
  - exfalso. apply accepts_iff in E. revert E. apply H; [apply dec_length|].
    intros j. split; [apply (decs_le o (dec a ns))|apply nth_dec_le].
  - apply IH. intros ns' L H'. apply H; [rewrite L; apply dec_length|]. intros j. specialize (H' j). assert (X := nth_dec_le a j ns).
    simpl. lia.
Qed.

(** A walk that ends at an acceptable state stops. *)
Lemma walk_accept : forall M m recipe z o ns, o <> [] -> acceptable z (psum M m recipe (decs o ns)) ->
  exists r, walk M m recipe z o ns = Some r.
Proof.
  intros M m recipe z. induction o as [|a o IH]; intros ns Hne H; [congruence|]. simpl.
  destruct (accepts z (psum M m recipe (dec a ns))) eqn:E; [eauto|].
  destruct o as [|b o].
  - simpl in H. apply accepts_iff in H. congruence.
  - apply IH; [discriminate|assumption].
Qed.

(** ** Sums at whole blocks *)

Lemma wdot_block : forall m recipe t (f : nat -> Q), length recipe = length m -> enough (S t) m recipe ->
  (forall j x, (j < length recipe)%nat -> In x (block t (vals m j) (nth j recipe 0%nat)) -> f j <= x) ->
  wdot f recipe <= ps_gain m recipe t.
Proof.
  intros m recipe t f Hl He H. rewrite ps_gain_seq by assumption. unfold wdot.
  apply Qsum_map_le. intros j Hj. apply in_seq in Hj.
  assert (L : length (block t (vals m j) (nth j recipe 0%nat)) = nth j recipe 0%nat).
  { apply block_length. apply (proj1 (enough_nth _ m recipe Hl) He). lia. }
  rewrite Qmult_comm. rewrite <- L at 1. apply Qsum_lower. apply Forall_forall. intros x Hx. apply H; [lia|assumption].
Qed.

Lemma wdot_block_upper : forall m recipe t (f : nat -> Q), length recipe = length m -> enough (S t) m recipe ->
  (forall j x, (j < length recipe)%nat -> In x (block t (vals m j) (nth j recipe 0%nat)) -> x <= f j) ->
  ps_gain m recipe t <= wdot f recipe.
Proof.
  intros m recipe t f Hl He H. rewrite ps_gain_seq by assumption. unfold wdot.
  apply Qsum_map_le. intros j Hj. apply in_seq in Hj.
  assert (L : length (block t (vals m j) (nth j recipe 0%nat)) = nth j recipe 0%nat).
  { apply block_length. apply (proj1 (enough_nth _ m recipe Hl) He). lia. }
  rewrite (Qmult_comm (f j)). rewrite <- L at 2. apply Qsum_upper. apply Forall_forall. intros x Hx. apply H; [lia|assumption].
Qed.

Lemma In_block : forall t v r x d, In x (block t v r) -> (S t * r <= length v)%nat ->
  exists y, (t * r <= y < S t * r)%nat /\ x = nth y v d.
Proof.
  intros t v r x d H L. apply In_nth with (d := d) in H. destruct H as [y [Hy <-]].
  rewrite block_length in Hy by assumption. exists (t * r + y)%nat. split; [lia|]. apply block_nth. assumption.
Qed.

Lemma vals_nonneg : forall M m j x, values_at_least (- M) m -> In x (vals m j) -> - M <= x.
Proof.
  intros M m j x Hv H. unfold vals in H. destruct (le_lt_dec (length m) j) as [L|L].
  - rewrite nth_overflow in H by assumption. destruct H.
  - apply (Hv (nth j m dcat)); [apply nth_In; assumption|assumption].
Qed.

Lemma pr_le : forall M m ns j y, sorted_market m -> values_at_least (- M) m -> (y <= nth j ns 0)%nat ->
  (y < length (vals m j))%nat -> pr M m ns j <= nth y (vals m j) (- M).
Proof.
  intros M m ns j y Hs Hv Hy Hlen. unfold pr. destruct (le_lt_dec (length (vals m j)) (nth j ns 0%nat)) as [H|H].
  - rewrite (nth_overflow _ _ H). apply (vals_nonneg M m j); [assumption|]. apply nth_In. assumption.
  - apply desc_nth; [apply vals_desc; assumption|assumption|assumption].
Qed.

(** At a state with no agent of block [t] priced above ... : the price-sum is at most the gain of the block. *)
Lemma psum_le_gain : forall M m recipe t ns, length recipe = length m -> sorted_market m -> values_at_least (- M) m ->
  enough (S t) m recipe ->
  (forall j, (j < length recipe)%nat -> (0 < nth j recipe 0)%nat -> (S t * nth j recipe 0 - 1 <= nth j ns 0)%nat) ->
  psum M m recipe ns <= ps_gain m recipe t.
Proof.
  intros M m recipe t ns Hl Hs Hv He H. unfold psum. apply wdot_block; [assumption|assumption|].
  intros j x Hj Hx. assert (L := proj1 (enough_nth _ m recipe Hl) He j Hj).
  destruct (In_block t (vals m j) (nth j recipe 0%nat) x (- M) Hx L) as [y [Hy ->]].
  apply pr_le; [assumption|assumption| |lia]. specialize (H j Hj). lia.
Qed.

Lemma psum_at_block : forall M m recipe t, length recipe = length m -> sorted_market m -> enough (S t) m recipe ->
  ps_gain m recipe t <= psum M m recipe (at_block t recipe).
Proof.
  intros M m recipe t Hl Hs He. unfold psum. apply wdot_block_upper; [assumption|assumption|].
  intros j x Hj Hx. assert (L := proj1 (enough_nth _ m recipe Hl) He j Hj).
  destruct (In_block t (vals m j) (nth j recipe 0%nat) x (- M) Hx L) as [y [Hy ->]].
  unfold pr. rewrite at_block_nth. apply desc_nth; [apply vals_desc; assumption|lia|lia].
Qed.

Lemma acceptable_le : forall z a b, a <= b -> acceptable z a -> acceptable z b.
Proof. intros [|] a b H Ha; simpl in *; lra. Qed.

Lemma tr_order_split : forall a b recipe, tr_order (a + b) recipe = tr_order a recipe ++ tr_order b recipe.
Proof. intros. unfold tr_order. rewrite repeat_app, concat_app. reflexivity. Qed.

Lemma decs_order : forall a b recipe, decs (tr_order a recipe) (at_block (a + b) recipe) = at_block b recipe.
Proof.
  induction a as [|a IH]; intros b recipe; [reflexivity|]. unfold tr_order. cbn [repeat concat].
  rewrite decs_app. simpl (S a + b)%nat. rewrite at_block_step. apply IH.
Qed.

Lemma order_nonempty : forall a recipe, (0 < a)%nat -> (exists j, (j < length recipe)%nat /\ (0 < nth j recipe 0)%nat) ->
  tr_order a recipe <> [].
Proof.
  intros a recipe Ha [j [Hj Hr]] E. destruct a; [lia|]. unfold tr_order in E. cbn [repeat concat] in E.
  apply app_eq_nil in E. destruct E as [E _].
  assert (X := at_block_step 0 recipe). rewrite E in X. simpl in X.
  assert (Y := f_equal (fun l => nth j l 0%nat) X). simpl in Y. rewrite !at_block_nth in Y. lia.
Qed.

(** ** C19: how many deals *)

(** If the block [t] is acceptable the walk stops with at least [t] complete deals. *)
Lemma walk_lower : forall M m recipe z t u, length recipe = length m -> sorted_market m ->
  (exists j, (j < length recipe)%nat /\ (0 < nth j recipe 0)%nat) ->
  (S t <= u)%nat -> enough u m recipe -> acceptable z (ps_gain m recipe t) ->
  exists i ns, walk M m recipe z (tr_order u recipe) (at_block u recipe) = Some (i, ns)
    /\ forall j, (t * nth j recipe 0 <= nth j ns 0)%nat.
Proof.
  intros M m recipe z t u Hl Hs Hpos Hu He Ha.
  replace u with ((u - t) + t)%nat by lia. rewrite tr_order_split, walk_app.
  assert (Ed := decs_order (u - t) t recipe).
  destruct (walk_accept M m recipe z (tr_order (u - t) recipe) (at_block (u - t + t) recipe)) as [[i ns] W].
  - apply order_nonempty; [lia|assumption].
  - rewrite Ed. eapply acceptable_le; [|exact Ha]. apply psum_at_block; [assumption|assumption|].
    eapply enough_le; [|exact He]. lia.
  - rewrite W. exists i, ns. split; [reflexivity|]. intros j.
    assert (X := walk_above _ _ _ _ _ _ _ _ W j). rewrite Ed, at_block_nth in X. assumption.
Qed.

Lemma cat_eq_size : forall c c', cat_eq c c' -> csize c = csize c'.
Proof. intros c c' [_ H]. unfold csize. apply qeq_length. assumption. Qed.

Lemma Forall2_cat_nth : forall l l' i c, Forall2 cat_eq l l' -> nth_error l i = Some c ->
  exists c', nth_error l' i = Some c' /\ cat_eq c c'.
Proof.
  intros l l' i c H. revert i. induction H; intros [|i] E; simpl in *; try discriminate.
  - inversion E; subst. eauto.
  - apply IHForall2. assumption.
Qed.

Lemma Forall2_cat_sym : forall l l', Forall2 cat_eq l l' -> Forall2 cat_eq l' l.
Proof.
  intros l l' H. induction H as [|x y l l' [H1 H2] H IH]; constructor; [|assumption].
  split; [congruence|apply qeq_sym; assumption].
Qed.

Lemma supports_cat_eq : forall l l' recipe n, Forall2 cat_eq l l' -> supports l recipe n -> supports l' recipe n.
Proof.
  intros l l' recipe n H Hs i c r Hc Hr.
  destruct (Forall2_cat_nth l' l i c (Forall2_cat_sym _ _ H) Hc) as [c' [Hc' E]].
  rewrite (cat_eq_size _ _ E). apply (Hs i c' r Hc' Hr).
Qed.

Theorem tr_deals : forall M cap m recipe z t deals rem, cap_suffices cap m recipe -> values_at_least (- M) m ->
  trade_reduction_M M cap m recipe z = Ok t -> optimal_trade cap m recipe true = Ok (deals, rem) ->
  (num_of_deals t <= mt_num_of_deals deals)%nat
  /\ (forall dealsz remz, optimal_trade cap m recipe z = Ok (dealsz, remz) ->
        (mt_num_of_deals dealsz - 1 <= num_of_deals t)%nat).
Proof.
  intros M cap m recipe z t deals rem Hcap Hv Ht Eo.
  destruct (tr_errors M cap m recipe z) as [[_ [Hl Hp]]|[X _]]; [|congruence].
  apply has_positive in Hp.
  destruct (tr_spec M cap m recipe z Hl Hp Hv) as [k [deals' [rem' [t' [Eo' [Ek [Hst [Et [Hnt Hres]]]]]]]]].
  assert (t' = t) by congruence. subst t'. assert (deals' = deals) by congruence. subst deals'.
  rewrite Ek. set (m' := clone_market m) in *.
  assert (Hl' : length recipe = length m') by (unfold m'; rewrite clone_length; assumption).
  assert (Hs' : sorted_market m') by apply clone_sorted.
  assert (Hv' : values_at_least (- M) m') by (apply values_at_least_clone; assumption).
  assert (Hcap' : cap_suffices cap m' recipe) by (apply cap_clone; assumption).
  destruct (deals_max _ _ _ _ Hnt) as [_ [Hsup Hmax]]. fold (num_of_deals t) in Hsup, Hmax.
  (* number of deals of the optimal trade with flag z *)
  assert (LZ : forall dealsz remz, optimal_trade cap m recipe z = Ok (dealsz, remz) ->
     (mt_num_of_deals dealsz <= k)%nat /\ stops_at cap (mt_num_of_deals dealsz) m' recipe z).
  { intros dealsz remz E.
    destruct (optimal_trade_spec cap m recipe z Hl) as [kz [Ez Hz]]. fold m' in Ez, Hz.
    assert (X : mt_num_of_deals dealsz = kz).
    { rewrite E in Ez. inversion Ez. unfold mt_num_of_deals.
      rewrite (Permutation_length (sort_by_perm _ Qsum _)), map_length, seq_length. reflexivity. }
    rewrite X. split; [|assumption].
    destruct (le_lt_dec kz k) as [L|L]; [assumption|exfalso].
    apply (later_unacceptable cap k m' recipe true Hs' Hcap' Hst k (le_n _)).
    - eapply enough_le; [|apply (proj1 (proj2 Hz))]. lia.
    - assert (A := proj1 (proj2 (proj2 Hz)) k L). destruct z; simpl in *; lra. }
  unfold tr_result in Hres. fold m' in Hres. destruct Hres as [[E0 Et0]|[E0 [u [Hu Hw]]]].
  - assert (D0 : num_of_deals t = 0%nat) by (rewrite Et0; reflexivity).
    split; [lia|]. intros dealsz remz E. apply LZ in E. lia.
  - assert (Henu : enough u m' recipe).
    { destruct Hu as [[A ->]|[_ ->]]; [assumption|apply (proj1 (proj2 Hst))]. }
    assert (Hku : (k <= u)%nat) by (destruct Hu as [[_ ->]|[_ ->]]; lia).
    assert (Lower : forall dealsz remz, optimal_trade cap m recipe z = Ok (dealsz, remz) ->
      (2 <= mt_num_of_deals dealsz)%nat -> exists i ns, walk M m' recipe z (tr_order u recipe) (at_block u recipe) = Some (i, ns)
         /\ forall j, ((mt_num_of_deals dealsz - 1) * nth j recipe 0 <= nth j ns 0)%nat).
    { intros dealsz remz E H2. destruct (LZ _ _ E) as [L1 L2].
      apply walk_lower; [assumption|assumption|assumption|lia|assumption|].
      apply (proj1 (proj2 (proj2 L2))). lia. }
    destruct Hw as [[Ew Et0]|[i [ns [P [Ew [Hcat [_ [_ [_ [Hi [Hri [Hni [Hb Hacc]]]]]]]]]]]]].
    + assert (D0 : num_of_deals t = 0%nat) by (rewrite Et0; reflexivity).
      split; [lia|]. intros dealsz remz E.
      destruct (le_lt_dec 2 (mt_num_of_deals dealsz)) as [H2|H2]; [|lia].
      destruct (Lower _ _ E H2) as [i [ns [W _]]]. congruence.
    + assert (Hok : sizes_ok m' ns) by (apply (below_ok m' recipe _ Hl' (block_sizes_ok m' recipe u Hl' Henu) ns Hb)).
      split.
      * assert (S2 : supports (shrink m' ns) recipe (num_of_deals t)) by (eapply supports_cat_eq; eassumption).
        rewrite supports_shrink in S2 by assumption.
        destruct (le_lt_dec (num_of_deals t) k) as [L|L]; [assumption|exfalso].
        destruct Hu as [[A Eu]|[A Eu]].
        -- (* all sizes are at least (k+1) r_j: the state is the first one *)
           assert (Q := later_unacceptable cap k m' recipe true Hs' Hcap' Hst k (le_n _) A).
           assert (B : psum M m' recipe (dec i ns) <= ps_gain m' recipe k).
           { apply psum_le_gain; [assumption|assumption|assumption|assumption|].
             intros j Hj Hr. assert (X := S2 j Hj). assert (Y : (nth j ns 0 - 1 <= nth j (dec i ns) 0)%nat).
             { destruct (Nat.eq_dec i j) as [<-|Hne]; [rewrite nth_dec_same; lia|rewrite nth_dec_other by assumption; lia]. }
             assert (W : (S k * nth j recipe 0 <= num_of_deals t * nth j recipe 0)%nat) by (apply Nat.mul_le_mono_r; lia). lia. }
           simpl in Q. destruct z; simpl in Hacc; lra.
        -- apply A. apply enough_nth; [assumption|]. intros j Hj. assert (X := S2 j Hj). assert (Y := proj2 Hok j).
           assert (W : (S k * nth j recipe 0 <= num_of_deals t * nth j recipe 0)%nat) by (apply Nat.mul_le_mono_r; lia). lia.
      * intros dealsz remz E.
        destruct (le_lt_dec 2 (mt_num_of_deals dealsz)) as [H2|H2]; [|lia].
        destruct (Lower _ _ E H2) as [i' [ns' [W Hge]]].
        assert (ns' = ns) by congruence. subst ns'.
        apply Hmax. eapply supports_cat_eq; [apply Forall2_cat_sym; eassumption|].
        apply supports_shrink; [assumption|assumption|]. intros j _. apply Hge.
Qed.
