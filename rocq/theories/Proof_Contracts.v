(** * Proofs for the contracts of constructors and objects (C84) *)

From Coq Require Import String List Arith Lia QArith Lqa Bool.
From Verif Require Import Base Model_Agents Model_Trade Model_Market Model_Prices Model_RecipeTree Model_TreeAuction Model_IntPrices
  Model_Multibuyer Model_OldMulti Model_OldPrices Spec_OldMulti Spec_OldPrices Proof_Om2.
Import ListNotations.
Open Scope Q_scope.

Lemma forallb_lengths : forall (rs : list (list nat)) r0,
  forallb (fun r => length r =? length r0)%nat (r0 :: rs) = true <->
  forall r r', In r (r0 :: rs) -> In r' (r0 :: rs) -> length r = length r'.
Proof.
  intros rs r0. rewrite forallb_forall. split.
  - intros H r r' Hr Hr'. apply H, Nat.eqb_eq in Hr. apply H, Nat.eqb_eq in Hr'. congruence.
  - intros H r Hr. apply Nat.eqb_eq. apply H; [exact Hr|left; reflexivity].
Qed.

Definition same_lengths (rs : list (list nat)) : Prop := forall r r', In r rs -> In r' rs -> length r = length r'.

Lemma new_sim_prices_spec : forall rs p0,
  (rs <> [] /\ same_lengths rs /\ exists sp, new_sim_prices rs p0 = Ok sp /\ map_category_index_to_price sp = p0
     /\ sp_recipes sp = rs /\ sp_status sp = None)
  \/ ((rs = [] \/ ~ same_lengths rs) /\ new_sim_prices rs p0 = Raise ValueError).
Proof.
  intros [|r0 rs] p0; [right; split; [left; reflexivity|reflexivity]|].
  unfold new_sim_prices. destruct (forallb (fun r => length r =? length r0)%nat (r0 :: rs)) eqn:E.
  - left. split; [discriminate|]. split; [exact (proj1 (forallb_lengths rs r0) E)|]. eexists. repeat split.
  - right. split; [|reflexivity]. right. intros H. apply (proj2 (forallb_lengths rs r0)) in H. congruence.
Qed.

Lemma dot3_repeat : forall p r k n, (length r <= n)%nat ->
  dot3 (repeat p n) r k == p * Qn (nsum (map (fun x => (fst x * snd x)%nat) (combine r k))).
Proof.
  intros p r. induction r as [|x r IH]; intros k n Hn.
  - destruct n; simpl; rewrite Qn_0; ring.
  - destruct n as [|n]; [simpl in Hn; lia|]. cbn [repeat]. destruct k as [|y k]; [simpl; rewrite Qn_0; ring|].
    cbn [dot3 combine map fst snd]. rewrite IH by (simpl in Hn; lia).
    change (nsum ((x * y)%nat :: map (fun x0 => (fst x0 * snd x0)%nat) (combine r k)))
      with (x * y + nsum (map (fun x0 => (fst x0 * snd x0)%nat) (combine r k)))%nat.
    rewrite Qn_plus, Qn_mult. ring.
Qed.

Lemma new_int_vector_spec : forall recipe p counts,
  let iv := new_int_vector recipe p counts in
  length (iv_prices iv) = length recipe /\ Forall (fun q => q = p) (iv_prices iv)
  /\ (counts <> [] -> int_price_sum iv == p * Qn (nsum (map (fun x => (fst x * snd x)%nat) (combine recipe counts))))
  /\ (counts = [] -> int_price_sum iv == p * Qn (nsum recipe)).
Proof.
  intros recipe p counts iv. unfold iv, new_int_vector, new_int_vector_list, int_price_sum. cbn [iv_prices iv_recipe iv_counts].
  split; [apply repeat_length|]. split; [apply Forall_forall; intros q Hq; apply repeat_spec in Hq; exact Hq|]. split.
  - intros H. rewrite dot3_repeat by lia. destruct counts; [congruence|]. reflexivity.
  - intros ->. cbn [default_counts]. rewrite dot3_repeat by lia.
    assert (E : nsum (map (fun x => (fst x * snd x)%nat) (combine recipe (repeat 1%nat (length recipe)))) = nsum recipe).
    { clear. induction recipe as [|r l IH]; [reflexivity|]. cbn [length repeat combine map fst snd].
      change (r * 1 + nsum (map (fun x => (fst x * snd x)%nat) (combine l (repeat 1%nat (length l)))) = r + nsum l)%nat. rewrite IH. lia. }
    rewrite E. reflexivity.
Qed.

(** A category of some recipe with agent count 0 is raised. *)
Lemma count_increases : forall counts recipe incs, length recipe = length counts ->
  (forall i x, In (i, x) incs -> (i < length counts)%nat) ->
  int_count_increases counts recipe incs =
  if existsb (fun inc => (0 <? nth (fst inc) recipe 0) && (nth (fst inc) counts 0 =? 0))%nat incs
  then Raise ZeroDivisionError else Ok tt.
Proof.
  intros counts recipe incs HL. induction incs as [|[i x] incs IH]; intros H; [reflexivity|].
  cbn [int_count_increases existsb fst]. assert (Hi := H i x (or_introl eq_refl)).
  assert (IH' := IH (fun j y Hj => H j y (or_intror Hj))).
  rewrite (get_lt _ _ _ 0%nat) by lia. cbn [bind].
  destruct (0 <? nth i recipe 0)%nat eqn:E1; cbn [andb orb]; [|exact IH'].
  rewrite (get_lt _ _ _ 0%nat) by lia. cbn [bind].
  destruct (nth i counts 0 =? 0)%nat; [reflexivity|exact IH'].
Qed.

Lemma int_zero_count : forall sp incs b, (forall r, In r (isp_recipes sp) -> length r = length (isp_counts sp)) ->
  (forall i x, In (i, x) incs -> (i < length (isp_counts sp))%nat) ->
  (exists r i x, In r (isp_recipes sp) /\ In (i, x) incs /\ (0 < nth i r 0)%nat /\ nth i (isp_counts sp) 0%nat = 0%nat) ->
  int_increase_prices sp incs b = Raise ZeroDivisionError.
Proof.
  intros sp incs b HL HI (r & i & x & Hr & Hin & Hp & Hz). unfold int_increase_prices.
  assert (X : map_result (fun recipe => int_count_increases (isp_counts sp) recipe incs) (isp_recipes sp) = Raise ZeroDivisionError).
  { revert Hr HL. induction (isp_recipes sp) as [|r0 rs IH]; intros Hr HL; [destruct Hr|].
    cbn [map_result]. rewrite count_increases; [|apply HL; left; reflexivity|exact HI].
    destruct (existsb _ incs) eqn:E; [reflexivity|]. destruct Hr as [->|Hr].
    - exfalso. assert (T : existsb (fun inc => (0 <? nth (fst inc) r 0) && (nth (fst inc) (isp_counts sp) 0 =? 0))%nat incs = true); [|congruence].
      apply existsb_exists. exists (i, x). split; [exact Hin|]. cbn [fst]. rewrite Hz. apply Nat.ltb_lt in Hp. rewrite Hp. reflexivity.
    - cbn [bind]. rewrite IH; [reflexivity|exact Hr|]. intros r1 H1. apply HL. right. exact H1. }
  rewrite X. reflexivity.
Qed.

(** The price-sum of the old simultaneous vectors right after construction. *)
Lemma recipe_price_dot : forall r prices, recipe_price r prices == dot prices r.
Proof.
  induction r as [|x r IH]; intros [|p prices]; simpl; try reflexivity. rewrite IH. unfold Qn. ring.
Qed.

Lemma old_sum_initial : forall lp rs s v, old_new lp rs s = Ok v ->
  (forall prices, lp rs s = Some prices -> common_sum rs prices s) ->
  exists s', old_price_sum v = Ok s' /\ s' == s.
Proof.
  intros lp rs s v H HC. unfold old_new in H. destruct rs as [|r0 rs]; [discriminate|].
  destruct (forallb _ _) in H; [|discriminate]. destruct (lp (r0 :: rs) s) as [prices|] eqn:E; [|discriminate].
  injection H as <-. unfold old_price_sum. cbn [os_recipes get nth_error bind]. eexists. split; [reflexivity|].
  unfold price_sum, old_vector. cbn [pv_prices pv_recipe os_prices]. rewrite <- recipe_price_dot.
  apply (HC prices eq_refl). left. reflexivity.
Qed.

Lemma old_sum_common : forall v s, os_recipes v <> [] -> common_sum (os_recipes v) (os_prices v) s ->
  exists s', old_price_sum v = Ok s' /\ s' == s.
Proof.
  intros v s H HC. unfold old_price_sum. destruct (os_recipes v) as [|r0 rs] eqn:E; [congruence|]. cbn [get nth_error bind].
  eexists. split; [reflexivity|]. unfold price_sum, old_vector. cbn [pv_prices pv_recipe]. rewrite <- recipe_price_dot.
  apply HC. left. reflexivity.
Qed.

(** The multi-buyer trade object. *)
Lemma mb_object : forall buyers seller counts prices,
  let t := new_mb_trade buyers seller counts prices in
  let offered := csize seller in
  let demanded := units_demanded buyers counts in
  mb_deals t = Nat.min offered demanded
  /\ (mb_gain_from_trade t = Some 0 <-> (offered = 0 \/ demanded = 0)%nat)
  /\ (mb_repr t = Some true <-> (offered = 0 \/ demanded = 0)%nat)
  /\ (mb_repr t = Some false <-> (0 < demanded <= offered)%nat)
  /\ (mb_repr t = None <-> (0 < offered < demanded)%nat).
Proof.
  intros buyers seller counts prices t offered demanded. unfold t, new_mb_trade, mb_gain_from_trade, mb_repr.
  cbn [mb_deals mb_offered mb_demanded]. fold offered demanded. split; [reflexivity|].
  destruct (Nat.eqb_spec (Nat.min offered demanded) 0) as [E|E].
  - repeat split; intros; try reflexivity; try discriminate; try lia.
  - destruct (Nat.leb_spec demanded offered); repeat split; intros; try reflexivity; try discriminate; try lia.
Qed.

(** A recipe without a category of its own. *)
Lemma min_size_range : forall cats l, (forall i, In i l -> (i < length cats)%nat) -> l <> [] ->
  exists n, min_size cats l = Ok n.
Proof. intros cats l H Hl. destruct (min_size_ok cats l Hl H) as (x & E & _). exists x. exact E. Qed.

Lemma containing_In : forall rs c k, In k (containing rs c) <-> contains rs k c.
Proof.
  intros rs c k. unfold containing, contains. rewrite filter_In, in_seq, Nat.ltb_lt. split; intros [A B]; split; auto; lia.
Qed.

Lemma only_in_unshared : forall rs k c, only_in rs k c = true -> unshared rs k c.
Proof.
  intros rs k c H. unfold only_in in H. destruct (containing rs c) as [|r [|r2 l]] eqn:E; try discriminate.
  apply Nat.eqb_eq in H. subst r. split.
  - apply containing_In. rewrite E. left. reflexivity.
  - intros j Hj. apply containing_In in Hj. rewrite E in Hj. destruct Hj as [->|[]]. reflexivity.
Qed.

Lemma no_own_category : forall M cats rs prices k, (k < length rs)%nat -> (forall c, ~ unshared rs k c) ->
  new_multi_trade M cats rs prices = Raise ValueError.
Proof.
  intros M cats rs prices k Hk HU. unfold new_multi_trade, analyze_recipes.
  destruct (forallb _ _) ; [|reflexivity]. cbn [bind snd fst].
  assert (X : map_result (min_size cats) (map (fun r => filter (only_in rs r) (seq 0 (length cats))) (seq 0 (length rs))) = Raise ValueError).
  { assert (G : forall l, In k l -> map_result (min_size cats) (map (fun r => filter (only_in rs r) (seq 0 (length cats))) l) = Raise ValueError).
    { induction l as [|r l IH]; intros Hin; [destruct Hin|]. cbn [map map_result].
      destruct (filter (only_in rs r) (seq 0 (length cats))) as [|c l0] eqn:E; [reflexivity|].
      destruct (min_size_range cats (c :: l0)) as [n En]; [|discriminate|].
      { intros i Hi. rewrite <- E in Hi. apply filter_In in Hi. destruct Hi as [Hi _]. apply in_seq in Hi. lia. }
      rewrite En. cbn [bind]. destruct Hin as [->|Hin].
      - exfalso. apply (HU c). apply only_in_unshared. assert (Hc : In c (c :: l0)) by (left; reflexivity).
        rewrite <- E in Hc. apply filter_In in Hc. apply Hc.
      - rewrite IH by exact Hin. reflexivity. }
    apply G. apply in_seq. lia. }
  rewrite X. reflexivity.
Qed.
