(** * Changes of the unit of money: everything commutes with multiplication by a positive number (C93) *)

From Coq Require Import String List Arith NArith Lia QArith Qabs Lqa Bool.
From Verif Require Import Base Model_Agents Model_Trade Model_Prices Model_Market Model_Ascending Model_TradeReduction Model_McAfee
  Model_RecipeTree Model_TreeAuction Spec_Units.
Import ListNotations.
Open Scope Q_scope.

(** ** Calls *)
Lemma alike_bind : forall A A' B B' (R : A -> A' -> Prop) (S : B -> B' -> Prop) r r' f f', alike R r r' ->
  (forall a a', R a a' -> alike S (f a) (f' a')) -> alike S (bind r f) (bind r' f').
Proof. intros A A' B B' R S [a|e|] [a'|e'|] f f' H HF; cbn in *; try contradiction; auto. Qed.

Lemma alike_same : forall A B B' (S : B -> B' -> Prop) (r : result A) f f', (forall a, alike S (f a) (f' a)) -> alike S (bind r f) (bind r f').
Proof. intros A B B' S [a|e|] f f' H; cbn; auto. Qed.

Lemma alike_imp : forall A B (R S : A -> B -> Prop) r r', (forall a b, R a b -> S a b) -> alike R r r' -> alike S r r'.
Proof. intros A B R S [a|e|] [b|e'|] H; cbn; auto. Qed.

Lemma alike_get : forall A B (R : A -> B -> Prop) l l' i, Forall2 R l l' -> alike R (get l i) (get l' i).
Proof.
  intros A B R l l' i H. revert i. induction H as [|a b l l' HR H IH]; intros [|i]; cbn; try reflexivity; [exact HR|]. exact (IH i).
Qed.

Lemma alike_map : forall A A' B B' (R : A -> A' -> Prop) (S : B -> B' -> Prop) f f' l l', Forall2 R l l' ->
  (forall a a', R a a' -> alike S (f a) (f' a')) -> alike (Forall2 S) (map_result f l) (map_result f' l').
Proof.
  intros A A' B B' R S f f' l l' H HF. induction H as [|a a' l l' HR H IH]; cbn [map_result]; [constructor|].
  eapply alike_bind; [apply HF; exact HR|]. intros b b' HB. eapply alike_bind; [exact IH|]. intros bs bs' HS. constructor; assumption.
Qed.

Lemma alike_fold : forall A A' S S' (R : A -> A' -> Prop) (T : S -> S' -> Prop) f f' l l', Forall2 R l l' ->
  (forall s s' a a', T s s' -> R a a' -> alike T (f s a) (f' s' a')) ->
  forall s s', T s s' -> alike T (fold_result f l s) (fold_result f' l' s').
Proof.
  intros A A' S S' R T f f' l l' H HF. induction H as [|a a' l l' HR H IH]; intros s s' HT; cbn [fold_result]; [exact HT|].
  eapply alike_bind; [apply HF; [exact HT|exact HR]|]. exact IH.
Qed.

(** ** Lists *)
Lemma F2_len : forall A B (R : A -> B -> Prop) l l', Forall2 R l l' -> length l' = length l.
Proof. intros A B R l l' H. symmetry. eapply Forall2_length; exact H. Qed.

Lemma F2_set : forall A B (R : A -> B -> Prop) l l' i x x', Forall2 R l l' -> R x x' -> Forall2 R (set_nth i x l) (set_nth i x' l').
Proof. intros A B R l l' i x x' H HX. revert i. induction H as [|a b l l' HR H IH]; intros [|i]; cbn [set_nth]; constructor; auto. Qed.

Lemma F2_firstn : forall A B (R : A -> B -> Prop) n l l', Forall2 R l l' -> Forall2 R (firstn n l) (firstn n l').
Proof. intros A B R n. induction n as [|n IH]; intros l l' H; [constructor|]. inversion H; subst; cbn [firstn]; constructor; auto. Qed.

Lemma F2_map : forall A A' B B' (R : A -> A' -> Prop) (S : B -> B' -> Prop) f f' l l', Forall2 R l l' -> (forall a a', R a a' -> S (f a) (f' a')) ->
  Forall2 S (map f l) (map f' l').
Proof. intros A A' B B' R S f f' l l' H HF. induction H; cbn [map]; constructor; auto. Qed.

Lemma F2_filter : forall A B (R : A -> B -> Prop) f f' l l', Forall2 R l l' -> (forall a b, R a b -> f' b = f a) -> Forall2 R (filter f l) (filter f' l').
Proof.
  intros A B R f f' l l' H HF. induction H as [|a b l l' HR H IH]; cbn [filter]; [constructor|]. rewrite (HF a b HR).
  destruct (f a); [constructor; assumption|exact IH].
Qed.

Lemma F2_concat : forall A B (R : A -> B -> Prop) l l', Forall2 (Forall2 R) l l' -> Forall2 R (concat l) (concat l').
Proof. intros A B R l l' H. induction H; cbn [concat]; [constructor|]. apply Forall2_app; assumption. Qed.

Lemma F2_same : forall A (l : list A), Forall2 eq l l.
Proof. intros A l. induction l; constructor; auto. Qed.

Lemma F2_removelast : forall A B (R : A -> B -> Prop) l l', Forall2 R l l' -> Forall2 R (removelast l) (removelast l').
Proof.
  intros A B R l l' H. induction H as [|a b l l' HR H IH]; [constructor|]. cbn [removelast]. destruct H; [constructor|]. constructor; [exact HR|exact IH].
Qed.

Lemma F2_last : forall A B (R : A -> B -> Prop) l l' d d', Forall2 R l l' -> R d d' -> R (last l d) (last l' d').
Proof.
  intros A B R l l' d d' H HD. induction H as [|a b l l' HR H IH]; [exact HD|]. cbn [last]. destruct H; [exact HR|exact IH].
Qed.

Lemma F2_insert : forall A B (R : A -> B -> Prop) le le' x x' l l', R x x' -> Forall2 R l l' ->
  (forall a b a' b', R a a' -> R b b' -> le' a' b' = le a b) -> Forall2 R (insert le x l) (insert le' x' l').
Proof.
  intros A B R le le' x x' l l' HX H HL. induction H as [|a b l l' HR H IH]; cbn [insert]; [constructor; [exact HX|constructor]|].
  rewrite (HL _ _ _ _ HX HR). destruct (le x a); constructor; auto.
Qed.

Lemma F2_isort : forall A B (R : A -> B -> Prop) le le' l l', Forall2 R l l' ->
  (forall a b a' b', R a a' -> R b b' -> le' a' b' = le a b) -> Forall2 R (isort le l) (isort le' l').
Proof.
  intros A B R le le' l l' H HL. induction H as [|a b l l' HR H IH]; cbn [isort]; [constructor|]. apply F2_insert; assumption.
Qed.

(** ** Numbers *)
Section Conv.
Variable c : Q.
Hypothesis CP : 0 < c.

Lemma conv_le : forall a b a' b', conv c a a' -> conv c b b' -> Qle_bool a' b' = Qle_bool a b.
Proof.
  unfold conv. intros a b a' b' HA HB. destruct (Qle_bool a b) eqn:E.
  - apply Qle_bool_iff in E. apply Qle_bool_iff. rewrite HA, HB. nra.
  - apply Qle_bool_false in E. apply Qle_bool_false. rewrite HA, HB. nra.
Qed.

Lemma conv_lt : forall a b a' b', conv c a a' -> conv c b b' -> Qlt_bool a' b' = Qlt_bool a b.
Proof. intros. unfold Qlt_bool. f_equal. apply conv_le; assumption. Qed.

Lemma conv_eq : forall a b a' b', conv c a a' -> conv c b b' -> Qeq_bool a' b' = Qeq_bool a b.
Proof.
  unfold conv. intros a b a' b' HA HB. destruct (Qeq_bool a b) eqn:E.
  - apply Qeq_bool_iff in E. apply Qeq_bool_iff. rewrite HA, HB, E. reflexivity.
  - apply Qeq_bool_neq in E. apply not_true_is_false. intros X. apply Qeq_bool_iff in X. apply E. rewrite HA, HB in X. nra.
Qed.

Lemma conv_0 : conv c 0 0. Proof. unfold conv. ring. Qed.
Lemma conv_plus : forall a b a' b', conv c a a' -> conv c b b' -> conv c (a + b) (a' + b').
Proof. unfold conv. intros a b a' b' -> ->. ring. Qed.
Lemma conv_minus : forall a b a' b', conv c a a' -> conv c b b' -> conv c (a - b) (a' - b').
Proof. unfold conv. intros a b a' b' -> ->. ring. Qed.
Lemma conv_opp : forall a a', conv c a a' -> conv c (- a) (- a').
Proof. unfold conv. intros a a' ->. ring. Qed.
Lemma conv_times : forall a a' q, conv c a a' -> conv c (a * q) (a' * q).
Proof. unfold conv. intros a a' q ->. ring. Qed.
Lemma conv_times_l : forall a a' q, conv c a a' -> conv c (q * a) (q * a').
Proof. unfold conv. intros a a' q ->. ring. Qed.
Lemma conv_div : forall a a' q, conv c a a' -> conv c (a / q) (a' / q).
Proof. unfold conv, Qdiv. intros a a' q ->. ring. Qed.
Lemma conv_abs : forall a a', conv c a a' -> conv c (Qabs a) (Qabs a').
Proof. unfold conv. intros a a' ->. rewrite Qabs_Qmult. rewrite (Qabs_pos c) by lra. reflexivity. Qed.

Lemma conv_sum : forall l l', conv_list c l l' -> conv c (Qsum l) (Qsum l').
Proof. intros l l' H. unfold Qsum. induction H; cbn [fold_right]; [apply conv_0|apply conv_plus; assumption]. Qed.

Lemma conv_dot : forall l l' r, conv_list c l l' -> conv c (dot l r) (dot l' r).
Proof.
  intros l l' r H. revert r. induction H as [|a a' l l' HA H IH]; intros [|y r]; cbn [dot]; try apply conv_0.
  apply conv_plus; [apply conv_times; exact HA|apply IH].
Qed.

Lemma conv_repeat : forall a a' n, conv c a a' -> conv_list c (repeat a n) (repeat a' n).
Proof. intros a a' n H. induction n; constructor; assumption. Qed.

Lemma conv_sort : forall l l', conv_list c l l' -> conv_list c (sort_desc l) (sort_desc l').
Proof. intros l l' H. apply F2_isort; [exact H|]. intros. apply conv_le; assumption. Qed.

(** ** agents.py *)
Lemma conv_size : forall a a', conv_category c a a' -> csize a' = csize a.
Proof. intros a a' [_ H]. unfold csize. eapply F2_len; exact H. Qed.

Lemma conv_new : forall name l l', conv_list c l l' -> conv_category c (new_category name l) (new_category name l').
Proof. intros. split; [reflexivity|]. apply conv_sort. assumption. Qed.

Lemma conv_append : forall a a' v v', conv_category c a a' -> conv c v v' -> conv_category c (append a v) (append a' v').
Proof.
  intros a a' v v' [HN H] HV. split; [exact HN|]. apply conv_sort. apply Forall2_app; [exact H|]. constructor; [exact HV|constructor].
Qed.

Lemma conv_clone : forall a a', conv_category c a a' -> conv_category c (clone a) (clone a').
Proof. intros a a' [HN H]. unfold clone. rewrite HN. apply conv_new. exact H. Qed.

Lemma conv_highest : forall a a', conv_category c a a' -> alike (conv c) (highest_agent_value a) (highest_agent_value a').
Proof. intros a a' [_ H]. unfold highest_agent_value. destruct H; cbn; [reflexivity|assumption]. Qed.

Lemma conv_lowest : forall a a', conv_category c a a' -> alike (conv c) (lowest_agent_value a) (lowest_agent_value a').
Proof.
  intros a a' [_ H]. unfold lowest_agent_value. destruct H as [|x y l l' HX H]; cbn [alike]; [reflexivity|].
  apply F2_last; [constructor; assumption|apply conv_0].
Qed.

Lemma conv_remove_highest : forall a a' n, conv_category c a a' -> alike (conv_category c) (remove_highest_agents a n) (remove_highest_agents a' n).
Proof.
  intros a a' n. revert a a'. induction n as [|n IH]; intros a a' H; cbn [remove_highest_agents]; [exact H|].
  eapply alike_bind; [|intros; apply IH; eassumption]. destruct H as [HN H]. unfold remove_highest_agent. destruct H; cbn; [reflexivity|].
  split; cbn; assumption.
Qed.

Lemma conv_remove_lowest : forall a a', conv_category c a a' -> alike (conv_category c) (remove_lowest_agent a) (remove_lowest_agent a').
Proof.
  intros a a' [HN H]. unfold remove_lowest_agent. inversion H as [|x y l l' HX H' E E']; cbn [alike]; [reflexivity|].
  split; [exact HN|]. cbn [cvalues]. apply F2_removelast. constructor; assumption.
Qed.

(** ** markets.py *)
Lemma conv_clone_market : forall m m', conv_market c m m' -> conv_market c (clone_market m) (clone_market m').
Proof. intros m m' H. eapply F2_map; [exact H|]. apply conv_clone. Qed.

Lemma conv_empty : forall m m', conv_market c m m' -> conv_market c (empty_agent_categories m) (empty_agent_categories m').
Proof. intros m m' H. eapply F2_map; [exact H|]. intros a a' [HN _]. rewrite HN. split; [reflexivity|constructor]. Qed.

Lemma conv_append_trader : forall m m' i v v', conv_market c m m' -> conv c v v' -> alike (conv_market c) (append_trader m i v) (append_trader m' i v').
Proof.
  intros m m' i v v' H HV. unfold append_trader. eapply alike_bind; [apply alike_get; exact H|]. intros a a' HA. cbn [alike].
  apply F2_set; [exact H|]. apply conv_append; assumption.
Qed.

Definition conv_opt (o o' : option (list Q)) : Prop := conv_prices c o o'.

Lemma conv_highest_agents : forall m m' recipe, conv_market c m m' -> alike conv_opt (get_highest_agents m recipe) (get_highest_agents m' recipe).
Proof.
  intros m m' recipe H. revert recipe. induction H as [|a a' m m' HA H IH]; intros recipe; cbn [get_highest_agents]; [constructor|].
  destruct recipe as [|r recipe]; [reflexivity|]. rewrite (conv_size _ _ HA). destruct (csize a <? r)%nat; [exact I|].
  eapply alike_bind; [apply IH|]. intros [l|] [l'|] HL; cbn in *; try contradiction; [|exact I].
  apply Forall2_app; [|exact HL]. apply F2_firstn. apply HA.
Qed.

Lemma conv_market_remove : forall m m' recipe, conv_market c m m' -> alike (conv_market c) (market_remove_highest m recipe) (market_remove_highest m' recipe).
Proof.
  intros m m' recipe H. revert recipe. induction H as [|a a' m m' HA H IH]; intros recipe; cbn [market_remove_highest]; [constructor|].
  destruct recipe as [|r recipe]; [reflexivity|]. eapply alike_bind; [apply conv_remove_highest; exact HA|]. intros b b' HB.
  eapply alike_bind; [apply IH|]. intros l l' HL. constructor; assumption.
Qed.

Lemma conv_optimal_loop : forall it m m' recipe z acc acc', conv_market c m m' -> Forall2 (conv_list c) acc acc' ->
  alike (conv_optimal c) (optimal_loop it m recipe z acc) (optimal_loop it m' recipe z acc').
Proof.
  induction it as [|it IH]; intros m m' recipe z acc acc' H HA; cbn [optimal_loop]; [split; assumption|].
  eapply alike_bind; [apply conv_highest_agents; exact H|]. intros [l|] [l'|] HL; cbn [conv_opt conv_prices] in HL; try contradiction; [|split; assumption].
  cbn zeta. assert (S := conv_sum _ _ HL). rewrite (conv_lt _ _ _ _ S conv_0), (conv_eq _ _ _ _ S conv_0).
  destruct (Qlt_bool (Qsum l) 0 || Qeq_bool (Qsum l) 0 && negb z); [split; assumption|].
  eapply alike_bind; [apply conv_market_remove; exact H|]. intros b b' HB. apply IH; [exact HB|]. apply Forall2_app; [exact HA|].
  constructor; [exact HL|constructor].
Qed.

Theorem conv_optimal_trade : forall it m m' recipe z, conv_market c m m' ->
  alike (conv_optimal c) (optimal_trade it m recipe z) (optimal_trade it m' recipe z).
Proof.
  intros it m m' recipe z H. unfold optimal_trade. rewrite (F2_len _ _ _ _ _ H). destruct (length recipe =? length m)%nat; [|reflexivity].
  eapply alike_bind; [apply conv_optimal_loop; [apply conv_clone_market; exact H|constructor]|]. intros [d r] [d' r'] [HD HR]. cbn [alike fst snd] in *.
  split; [|exact HR]. cbn [fst]. apply F2_isort; [exact HD|]. intros. apply conv_le; apply conv_sum; assumption.
Qed.

Theorem conv_material_gain : forall d d', Forall2 (conv_list c) d d' -> mt_num_of_deals d' = mt_num_of_deals d /\ conv c (mt_gain_from_trade d) (mt_gain_from_trade d').
Proof.
  intros d d' H. split; [eapply F2_len; exact H|]. unfold mt_gain_from_trade. apply conv_sum. eapply F2_map; [exact H|]. apply conv_sum.
Qed.

(** ** trade.py *)
Lemma conv_potential : forall m m' recipe, conv_market c m m' -> potential_deals m' recipe = potential_deals m recipe.
Proof.
  intros m m' recipe H. unfold potential_deals. revert recipe. induction H as [|a a' m m' HA H IH]; intros [|r recipe]; cbn [combine filter map]; try reflexivity.
  cbn [snd]. destruct (0 <? r)%nat; cbn [map fst snd]; rewrite ?(conv_size _ _ HA), IH; reflexivity.
Qed.

Lemma conv_new_trade : forall m m' recipe p p', conv_market c m m' -> conv_prices c p p' -> alike (conv_trade c) (new_trade m recipe p) (new_trade m' recipe p').
Proof.
  intros m m' recipe p p' H HP. unfold new_trade. rewrite (conv_potential _ _ _ H). destruct (min_list (potential_deals m recipe)); [|reflexivity].
  split; [exact H|]. split; [reflexivity|]. split; [reflexivity|exact HP].
Qed.

Theorem conv_gain : forall t t' inc, conv_trade c t t' -> alike (conv c) (gain_from_trade t inc) (gain_from_trade t' inc).
Proof.
  intros t t' inc (HC & HR & HD & HP). unfold gain_from_trade. unfold num_of_deals in HD. rewrite HD. destruct (tdeals t =? 0)%nat; [apply conv_0|].
  generalize 0%nat as i. revert HC. generalize (tcats t'). generalize (tcats t). intros m m' H.
  induction H as [|a a' m m' HA H IH]; intros i; cbn [gain_loop]; [apply conv_0|].
  eapply alike_bind with (R := conv c).
  - unfold gain_of_category. rewrite HR. apply alike_same. intros r. rewrite HD, (conv_size _ _ HA). cbn zeta. destruct (csize a =? 0)%nat; [reflexivity|].
    eapply alike_bind with (R := conv c).
    + unfold price_at. unfold conv_prices in HP. destruct (tprices t), (tprices t'); try contradiction; [apply alike_get; exact HP|reflexivity].
    + intros p p' Hp. assert (X := conv_times _ _ (Qn (r * tdeals t) / Qn (csize a)) (conv_sum _ _ (proj2 HA))).
      destruct inc; cbn [alike]; [exact X|]. apply conv_minus; [exact X|]. apply conv_times. exact Hp.
  - intros g g' HG. eapply alike_bind; [apply IH|]. intros h h' HH. apply conv_plus; assumption.
Qed.

(** ** prices.py and ascending_auction_protocol.py *)
Definition conv_vector (p p' : price_vector) : Prop :=
  pv_recipe p' = pv_recipe p /\ conv_list c (pv_prices p) (pv_prices p') /\ pv_status p' = pv_status p.

Lemma conv_price_sum : forall p p', conv_vector p p' -> conv c (price_sum p) (price_sum p').
Proof. intros p p' (HR & HP & _). unfold price_sum. rewrite HR. apply conv_dot. exact HP. Qed.

Lemma conv_increase : forall p p' i v v' b b', conv_vector p p' -> conv c v v' -> conv c b b' ->
  alike conv_vector (increase_price_up_to_balance p i v b) (increase_price_up_to_balance p' i v' b').
Proof.
  intros p p' i v v' b b' HV H HB. assert (PS := conv_price_sum _ _ HV). destruct HV as (HR & HP & HS).
  unfold increase_price_up_to_balance, price_sum_without_category. rewrite HR. apply alike_same. intros r.
  eapply alike_bind with (R := conv c).
  - apply alike_same. intros r'. eapply alike_bind; [apply alike_get; exact HP|]. intros q q' HQ. cbn [alike].
    apply conv_minus; [exact PS|apply conv_times_l; exact HQ].
  - intros w w' HW. cbn zeta. assert (NS := conv_plus _ _ _ _ HW (conv_times_l _ _ (Qn r) H)). rewrite (conv_le _ _ _ _ HB NS).
    destruct (Qle_bool b (w + Qn r * v)).
    + destruct (r =? 0)%nat; [reflexivity|]. split; [reflexivity|]. split; [|reflexivity]. cbn [pv_prices]. apply F2_set; [exact HP|].
      apply conv_div. apply conv_minus; assumption.
    + split; [reflexivity|]. split; [|reflexivity]. cbn [pv_prices]. apply F2_set; assumption.
Qed.

Definition conv_state (s s' : asc_state) : Prop := conv_market c (fst s) (fst s') /\ conv_vector (snd s) (snd s').

Lemma conv_sizes : forall m m', conv_market c m m' -> map csize m' = map csize m.
Proof. intros m m' H. induction H as [|a a' m m' HA H IH]; cbn [map]; [reflexivity|]. rewrite IH, (conv_size _ _ HA). reflexivity. Qed.

Lemma conv_round : forall recipe s s', conv_state s s' ->
  alike (fun r r' => fst r' = fst r /\ conv_state (snd r) (snd r')) (ascending_round recipe s) (ascending_round recipe s').
Proof.
  intros recipe [m p] [m' p'] [HM HP]. cbn [fst snd] in HM, HP. unfold ascending_round.
  assert (E : argmax (fractional_potential_ps m' recipe) (relevant_indices recipe) = argmax (fractional_potential_ps m recipe) (relevant_indices recipe)).
  { unfold argmax, fractional_potential_ps. rewrite (conv_sizes _ _ HM). reflexivity. }
  rewrite E. apply alike_same. intros i. eapply alike_bind; [apply alike_get; exact HM|]. intros a a' HA. rewrite (conv_size _ _ HA).
  destruct (csize a =? 0)%nat; [split; [reflexivity|split; assumption]|].
  eapply alike_bind; [apply conv_lowest; exact HA|]. intros v v' HV.
  eapply alike_bind; [apply conv_increase; [exact HP|exact HV|apply conv_0]|]. intros q q' HQ. assert (ST : pv_status q' = pv_status q) by apply HQ. rewrite ST.
  assert (D : alike (fun r r' => fst r' = fst r /\ conv_state (snd r) (snd r'))
     (c' <- remove_lowest_agent a;; Ok (false, (set_nth i c' m, q))) (c' <- remove_lowest_agent a';; Ok (false, (set_nth i c' m', q')))).
  { eapply alike_bind; [apply conv_remove_lowest; exact HA|]. intros b b' HB. split; [reflexivity|]. split; [|exact HQ]. apply F2_set; assumption. }
  destruct (pv_status q) as [[|]|]; [exact D| |exact D]. split; [reflexivity|]. split; assumption.
Qed.

Lemma conv_loop : forall fuel recipe s s', conv_state s s' -> alike conv_state (ascending_loop fuel recipe s) (ascending_loop fuel recipe s').
Proof.
  induction fuel as [|fuel IH]; intros recipe s s' H; cbn [ascending_loop]; [exact I|].
  eapply alike_bind; [apply conv_round; exact H|]. intros [b r] [b' r'] [HB HR]. cbn [fst snd] in *. subst b'. destruct b; [exact HR|apply IH; exact HR].
Qed.

Theorem conv_ascending : forall M M' fuel m m' recipe, conv c M M' -> conv_market c m m' ->
  alike (conv_trade c) (ascending_auction_M M fuel m recipe) (ascending_auction_M M' fuel m' recipe).
Proof.
  intros M M' fuel m m' recipe HM H. unfold ascending_auction_M. rewrite (F2_len _ _ _ _ _ H). destruct (length recipe =? length m)%nat; [|reflexivity].
  eapply alike_bind.
  - apply conv_loop. split; [apply conv_clone_market; exact H|]. split; [reflexivity|]. split; [|reflexivity]. cbn [fst snd pv_prices ascending_start new_price_vector].
    apply conv_repeat. apply conv_opp. exact HM.
  - intros s s' (HS & _ & HP & _). apply conv_new_trade; [exact HS|exact HP].
Qed.

(** ** trade_reduction_protocol.py *)
Definition conv_tr (s s' : tr_state) : Prop :=
  conv_market c (tr_remaining s) (tr_remaining s') /\ conv_market c (tr_traders s) (tr_traders s') /\ conv_prices c (tr_prices s) (tr_prices s').

Lemma conv_keep : forall recipe s s' i v v', conv_tr s s' -> conv c v v' -> alike conv_tr (tr_keep recipe s i v) (tr_keep recipe s' i v').
Proof.
  intros recipe s s' i v v' (H1 & H2 & H3) HV. unfold tr_keep. apply alike_same. intros k. eapply alike_bind; [apply conv_append_trader; eassumption|].
  intros t t' HT. split; [exact H1|]. split; assumption.
Qed.

Lemma conv_best : forall m m' i k v v', conv_market c m m' -> conv c v v' ->
  alike (conv_list c) (best_containing_from i m k v) (best_containing_from i m' k v').
Proof.
  intros m m' i k v v' H HV. revert i. induction H as [|a a' m m' HA H IH]; intros i; cbn [best_containing_from]; [constructor|].
  eapply alike_bind with (R := conv c).
  - destruct (i =? k)%nat; [exact HV|apply conv_highest; exact HA].
  - intros w w' HW. eapply alike_bind; [apply IH|]. intros l l' HL. constructor; assumption.
Qed.

Lemma conv_calculate : forall i v v' b b' recipe, conv c v v' -> conv_list c b b' ->
  alike (conv_list c) (calculate_prices i v b recipe) (calculate_prices i v' b' recipe).
Proof.
  intros i v v' b b' recipe HV HB. unfold calculate_prices. apply alike_same. intros r. destruct (r =? 0)%nat; [reflexivity|]. cbn [alike].
  apply F2_set; [exact HB|]. apply conv_div. apply conv_minus; [apply conv_times; exact HV|apply conv_dot; exact HB].
Qed.

Lemma conv_pivot : forall recipe z ps ps' s s' i, conv_list c ps ps' -> conv_tr s s' -> alike conv_tr (tr_pivot recipe z ps s i) (tr_pivot recipe z ps' s' i).
Proof.
  intros recipe z ps ps' s s' i HPS HS. unfold tr_pivot. eapply alike_bind; [apply alike_get; exact HPS|]. intros v v' HV.
  assert (HS' := HS). destruct HS' as (H1 & H2 & H3). unfold conv_prices in H3. destruct (tr_prices s) as [p|] eqn:E, (tr_prices s') as [p'|] eqn:E'; try contradiction.
  - apply conv_keep; assumption.
  - cbn zeta. unfold best_containing_PS. eapply alike_bind; [apply conv_best; [exact H1|exact HV]|]. intros b b' HB.
    assert (D := conv_dot _ _ recipe HB). rewrite (conv_lt _ _ _ _ conv_0 D), (conv_eq _ _ _ _ D conv_0).
    destruct (Qlt_bool 0 (dot b recipe) || z && Qeq_bool (dot b recipe) 0).
    + eapply alike_bind; [apply conv_calculate; eassumption|]. intros q q' HQ. apply conv_keep; [|exact HV]. split; [exact H1|]. split; assumption.
    + eapply alike_bind; [apply conv_append_trader; eassumption|]. intros r r' HR. split; [exact HR|]. split; [exact H2|]. cbn [tr_prices]. exact I.
Qed.

Lemma conv_dummies : forall M M' m m', conv c M M' -> conv_market c m m' -> conv_market c (add_dummies M m) (add_dummies M' m').
Proof.
  intros M M' m m' HM H. unfold add_dummies. eapply F2_map; [exact H|]. intros a a' HA. rewrite (conv_size _ _ HA).
  destruct (csize a =? 0)%nat; [|exact HA]. apply conv_append; [exact HA|apply conv_opp; exact HM].
Qed.

Theorem conv_trade_reduction : forall M M' it m m' recipe z, conv c M M' -> conv_market c m m' ->
  alike (conv_trade c) (trade_reduction_M M it m recipe z) (trade_reduction_M M' it m' recipe z).
Proof.
  intros M M' it m m' recipe z HM H. unfold trade_reduction_M. rewrite (F2_len _ _ _ _ _ H). destruct (length recipe =? length m)%nat; [|reflexivity].
  eapply alike_bind; [apply conv_optimal_trade; exact H|]. intros [d r] [d' r'] [HD HR]. cbn [fst snd] in HD, HR.
  inversion HD as [|x x' l l' HX HL E E'].
  - apply conv_new_trade; [apply conv_empty; exact H|]. cbn [conv_prices]. apply conv_repeat. apply conv_0.
  - subst d d'. eapply alike_bind; [apply conv_highest_agents; exact HR|]. intros o o' HO.
    eapply alike_bind with (R := fun lr lr' => Forall2 (conv_list c) (fst lr) (fst lr') /\ conv_market c (snd lr) (snd lr')).
    + assert (D : Forall2 (conv_list c) (x :: l) (x' :: l') /\ conv_market c r r') by (split; assumption).
      unfold conv_opt, conv_prices in HO. destruct o as [o|], o' as [o'|]; try contradiction; [|exact D].
      inversion HO as [|y y' k k' HY HK F F']; [exact D|]. subst o o'.
      eapply alike_bind; [apply conv_market_remove; exact HR|]. intros b b' HB. split; [|exact HB]. constructor; [exact HO|exact HD].
    + intros [ps rem] [ps' rem'] [HP HREM]. cbn [fst snd] in HP, HREM. eapply alike_bind.
      * apply alike_fold with (R := conv_list c) (T := conv_tr); [exact HP| |].
        -- intros s s' q q' HS HQ. unfold tr_ps. apply alike_fold with (R := eq) (T := conv_tr); [apply F2_same| |exact HS].
           intros u u' i i' HU <-. apply conv_pivot; assumption.
        -- split; [apply conv_dummies; assumption|]. split; [apply conv_empty; exact H|exact I].
      * intros s s' (H1 & H2 & H3). apply conv_new_trade; assumption.
Qed.

(** ** mcafee_protocol.py *)
Lemma conv_good : forall p p' ps ps', conv c p p' -> conv_list c ps ps' -> is_price_good_for_ps p' ps' = is_price_good_for_ps p ps.
Proof.
  intros p p' ps ps' HP H. unfold is_price_good_for_ps. induction H as [|x x' ps ps' HX H IH]; cbn [forallb]; [reflexivity|].
  rewrite IH, (conv_le _ _ _ _ conv_0 HX), (conv_lt _ _ _ _ HX HP), (conv_le _ _ _ _ HX conv_0), (conv_lt _ _ _ _ HX (conv_opp _ _ HP)). reflexivity.
Qed.

Lemma conv_add_ps : forall n i ps ps' t t', conv_list c ps ps' -> conv_market c t t' ->
  alike (conv_market c) (mcafee_add_ps i n ps t) (mcafee_add_ps i n ps' t').
Proof.
  induction n as [|n IH]; intros i ps ps' t t' HP HT; cbn [mcafee_add_ps]; [exact HT|].
  eapply alike_bind; [apply alike_get; exact HP|]. intros v v' HV. eapply alike_bind; [apply conv_append_trader; eassumption|]. intros. apply IH; assumption.
Qed.

Definition conv_one (o o' : option Q) : Prop := match o, o' with Some q, Some q' => conv c q q' | None, None => True | _, _ => False end.

Theorem conv_mcafee : forall M M' it m m' recipe h, conv c M M' -> conv_market c m m' ->
  alike (conv_trade c) (mcafee_M M it m recipe h) (mcafee_M M' it m' recipe h).
Proof.
  intros M M' it m m' recipe h HM H. unfold mcafee_M. rewrite (F2_len _ _ _ _ _ H). destruct (negb (length recipe =? length m)%nat); [reflexivity|].
  destruct (negb (forallb (fun r => (r =? 1)%nat) recipe)); [reflexivity|].
  eapply alike_bind; [apply conv_optimal_trade; exact H|]. intros [d r] [d' r'] [HD HR]. cbn [fst snd] in HD, HR. cbn zeta.
  eapply alike_bind; [apply conv_highest_agents; apply conv_dummies; eassumption|]. intros o o' HO.
  eapply alike_bind with (R := conv_one).
  - destruct h; [|exact I]. unfold conv_opt, conv_prices in HO. destruct o as [o|], o' as [o'|]; try contradiction; [|reflexivity].
    unfold price_candidate. rewrite (F2_len _ _ _ _ _ HO). destruct (length o =? 0)%nat; [reflexivity|]. cbn [bind alike conv_one].
    apply conv_div. apply conv_sum. eapply F2_map; [exact HO|]. apply conv_abs.
  - intros k k' HK. inversion HD as [|x x' l l' HX HL E E'].
    + apply conv_new_trade; [apply conv_empty; exact H|]. apply conv_repeat. apply conv_0.
    + subst d d'. cbn zeta.
      assert (EA : match k' with Some q => is_price_good_for_ps q x' | None => false end = match k with Some q => is_price_good_for_ps q x | None => false end).
      { unfold conv_one in HK. destruct k, k'; try contradiction; [apply conv_good; assumption|reflexivity]. }
      rewrite EA. set (acc := match k with Some q => is_price_good_for_ps q x | None => false end).
      eapply alike_bind with (R := conv_list c).
      * destruct acc; [|exact HX]. unfold conv_one in HK. destruct k as [q|], k' as [q'|]; try contradiction; [|reflexivity]. cbn [alike].
        eapply F2_map; [apply F2_firstn; exact HX|]. intros a a' HA. rewrite (conv_lt _ _ _ _ HA conv_0). destruct (Qlt_bool a 0); apply conv_times; exact HK.
      * intros p p' HP. eapply alike_bind.
        -- apply alike_fold with (R := conv_list c) (T := conv_market c); [|intros; apply conv_add_ps; assumption|apply conv_empty; exact H].
           destruct acc; assumption.
        -- intros t t' HT. apply conv_new_trade; [exact HT|exact HP].
Qed.
End Conv.
