(** * Proofs for C93, continued: the auction for recipes with several agents per category *)

From Coq Require Import String List Arith QArith Qabs Lqa.
From Verif Require Import Base Model_Agents Model_Trade Model_Prices Model_Market Model_RecipeTree Model_TreeAuction.
From Verif Require Import Model_IntPrices Model_IntTree Model_IntAuction.
From Verif Require Import Proof_Tree Spec_Units Proof_Units Proof_Units2.
Import ListNotations.
Open Scope Q_scope.

Lemma map_result_ext : forall A B (f g : A -> result B) l, Forall (fun a => f a = g a) l -> map_result f l = map_result g l.
Proof. intros A B f g l H. induction H as [|a l E H IH]; cbn [map_result]; [reflexivity|]. rewrite E, IH. reflexivity. Qed.

Lemma F2_app : forall A B (R : A -> B -> Prop) l l' k k', Forall2 R l l' -> Forall2 R k k' -> Forall2 R (l ++ k) (l' ++ k').
Proof. intros A B R l l' k k' H HK. induction H; cbn [app]; [exact HK|constructor; assumption]. Qed.

Section Conv.
Variable c : Q.
Hypothesis CP : 0 < c.

Lemma conv_groups : forall n k k' l l', conv_list c k k' -> conv_list c l l' -> Forall2 (conv_list c) (groups_from n k l) (groups_from n k' l').
Proof.
  intros n k k' l l' HK H. revert k k' HK. induction H as [|v v' l l' HV H IH]; intros k k' HK; cbn [groups_from]; [constructor|]. cbn zeta.
  assert (HA : conv_list c (k ++ [v]) (k' ++ [v'])) by (apply F2_app; [exact HK|constructor; [exact HV|constructor]]).
  rewrite (F2_len _ _ _ _ _ HA). destruct (length (k ++ [v]) =? n)%nat; [constructor; [exact HA|apply IH; constructor]|apply IH; exact HA].
Qed.

Lemma conv_value_groups : forall m m' counts i, conv_market c m m' -> Forall2 (conv_list c) (value_groups m counts i) (value_groups m' counts i).
Proof. intros m m' counts i H. apply conv_groups; [constructor|]. apply conv_sort; [exact CP|]. apply (conv_cat_at c _ _ i H). Qed.

Lemma conv_zip_app : forall x x' y y', Forall2 (conv_list c) x x' -> Forall2 (conv_list c) y y' -> Forall2 (conv_list c) (zip_app x y) (zip_app x' y').
Proof.
  intros x x' y y' H. revert y y'. induction H as [|a a' x x' HA H IH]; intros y y' HY; cbn [zip_app]; [constructor|].
  destruct HY as [|b b' y y' HB HY]; [constructor|]. constructor; [apply F2_app; assumption|apply IH; exact HY].
Qed.

Lemma conv_sort_sets : forall l l', Forall2 (conv_list c) l l' -> Forall2 (conv_list c) (sort_by_desc Qsum l) (sort_by_desc Qsum l').
Proof. intros l l' H. unfold sort_by_desc. apply F2_isort; [exact H|]. intros. apply (conv_le c CP); apply conv_sum; assumption. Qed.

Lemma conv_combined_sets : forall m m' counts t, conv_market c m m' -> Forall2 (conv_list c) (combined_sets m counts t) (combined_sets m' counts t).
Proof.
  intros m m' counts t H. induction t as [i ch IH] using rtree_ind'. cbn [combined_sets]. cbn zeta.
  assert (HO := conv_sort_sets _ _ (conv_value_groups m m' counts i H)). destruct ch as [|t0 ch]; [exact HO|].
  apply conv_zip_app; [exact HO|]. apply conv_sort_sets. apply F2_concat. apply F2_map_in. exact IH.
Qed.

Lemma conv_detailed_sets : forall m m' counts t, conv_market c m m' -> Forall2 (conv_list c) (detailed_sets m counts t) (detailed_sets m' counts t).
Proof.
  intros m m' counts [i ch] H. cbn [detailed_sets]. cbn zeta. assert (HO := conv_value_groups m m' counts i H). destruct ch as [|t0 ch]; [exact HO|].
  apply conv_zip_app; [exact HO|]. apply conv_sort_sets. apply F2_concat. apply F2_map_in. apply Forall_forall. intros t _. apply conv_combined_sets. exact H.
Qed.

Theorem conv_int_gft : forall m m' counts t, conv_market c m m' -> conv c (int_optimal_trade_GFT m counts t) (int_optimal_trade_GFT m' counts t).
Proof.
  intros m m' counts t H. unfold int_optimal_trade_GFT. apply conv_sum. eapply F2_map; [|apply conv_sum].
  apply F2_filter; [apply conv_combined_sets; exact H|]. intros. apply (conv_le c CP); [apply conv_0|apply conv_sum; assumption].
Qed.

Theorem conv_int_optimal : forall m m' counts t, conv_market c m m' ->
  Forall2 (conv_list c) (fst (fst (int_optimal_trade m counts t))) (fst (fst (int_optimal_trade m' counts t)))
  /\ snd (fst (int_optimal_trade m' counts t)) = snd (fst (int_optimal_trade m counts t))
  /\ conv c (snd (int_optimal_trade m counts t)) (snd (int_optimal_trade m' counts t)).
Proof.
  intros m m' counts t H. unfold int_optimal_trade. cbn [fst snd].
  assert (HF : Forall2 (conv_list c) (filter (fun d => Qle_bool 0 (Qsum d)) (detailed_sets m counts t)) (filter (fun d => Qle_bool 0 (Qsum d)) (detailed_sets m' counts t))).
  { apply F2_filter; [apply conv_detailed_sets; exact H|]. intros. apply (conv_le c CP); [apply conv_0|apply conv_sum; assumption]. }
  split; [exact HF|]. split; [eapply F2_len; exact HF|]. apply conv_sum. apply F2_concat. exact HF.
Qed.

Lemma conv_size_at : forall m m' i, conv_market c m m' -> csize (cat_at m' i) = csize (cat_at m i).
Proof. intros m m' i H. apply (conv_size c). apply conv_cat_at. exact H. Qed.

Lemma conv_int_largest : forall m m' counts t, conv_market c m m' -> int_largest_categories m' counts t = int_largest_categories m counts t.
Proof.
  intros m m' counts t H. induction t as [i ch IH] using rtree_ind'. cbn [int_largest_categories].
  unfold size_ratio. rewrite (conv_size_at _ _ i H).
  rewrite (map_result_ext _ _ (fun t0 => size_ceil m' counts (tindex t0)) (fun t0 => size_ceil m counts (tindex t0)) ch).
  2:{ apply Forall_forall. intros t _. unfold size_ceil. rewrite (conv_size_at _ _ _ H). reflexivity. }
  rewrite (map_result_ext _ _ _ _ _ IH). reflexivity.
Qed.

Lemma conv_int_explained : forall m m' counts p p' t, conv_market c m m' -> conv_list c p p' -> int_deals_explained m' counts p' t = int_deals_explained m counts p t.
Proof.
  intros m m' counts p p' t H HP. induction t as [i ch IH] using rtree_ind'. cbn [int_deals_explained].
  unfold size_floor. rewrite (conv_size_at _ _ i H).
  assert (G := alike_get _ _ _ _ _ i HP).
  destruct ch as [|t0 ch]; [|rewrite (map_result_ext _ _ _ _ _ IH)]; destruct (get p i), (get p' i); cbn [alike] in G; try contradiction; try (subst; reflexivity); reflexivity.
Qed.

(** ** prices_integer.py *)
Definition conv_ivec (p p' : int_vector) : Prop :=
  iv_recipe p' = iv_recipe p /\ iv_counts p' = iv_counts p /\ conv_list c (iv_prices p) (iv_prices p') /\ iv_status p' = iv_status p.
Definition conv_isim (s s' : int_sim_prices) : Prop :=
  isp_recipes s' = isp_recipes s /\ isp_counts s' = isp_counts s /\ conv_ivec (isp_vector s) (isp_vector s') /\ isp_status s' = isp_status s.

Lemma conv_dot3 : forall l l' r k, conv_list c l l' -> conv c (dot3 l r k) (dot3 l' r k).
Proof.
  intros l l' r k H. revert r k. induction H as [|a a' l l' HA H IH]; intros [|y r] [|z k]; cbn [dot3]; try apply conv_0.
  apply conv_plus; [apply conv_times; apply conv_times; exact HA|apply IH].
Qed.

Lemma conv_initial : forall b b' n d rs p p', conv c b b' -> conv_list c p p' -> alike (conv_list c) (initial_loop b n d rs p) (initial_loop b' n d rs p').
Proof.
  intros b b' n d rs p p' HB. revert p p'. induction rs as [|r rs IH]; intros p p' HP; cbn [initial_loop]; [exact HP|].
  apply alike_same. intros [j|]; [|apply IH; exact HP]. apply alike_same. intros k. eapply alike_bind; [apply alike_get; exact HP|]. intros q q' HQ.
  rewrite (conv_eq c CP _ _ _ _ HQ HB). destruct (Qeq_bool q b); [|reflexivity]. apply IH. apply F2_set; [exact HP|]. apply conv_div. apply conv_times. exact HB.
Qed.

Lemma conv_new_isim : forall rs b b' counts, conv c b b' -> alike conv_isim (new_int_sim_prices rs b counts) (new_int_sim_prices rs b' counts).
Proof.
  intros rs b b' counts HB. unfold new_int_sim_prices. destruct rs as [|r0 rs]; [reflexivity|]. destruct (forallb _ _); [|reflexivity]. cbn zeta.
  eapply alike_bind.
  - unfold int_initial_prices. cbn zeta. apply conv_initial; [exact HB|]. apply conv_repeat. exact HB.
  - intros p p' HP. split; [reflexivity|]. split; [reflexivity|]. split; [|reflexivity]. split; [reflexivity|]. split; [reflexivity|]. split; [exact HP|reflexivity].
Qed.

Lemma conv_count_increases : forall k r l l', Forall2 (conv_inc c) l l' -> int_count_increases k r l' = int_count_increases k r l.
Proof.
  intros k r l l' H. induction H as [|[i v] [i' v'] l l' [HI HV] H IH]; cbn [int_count_increases]; [reflexivity|]. cbn [fst] in HI. subst i'. rewrite IH. reflexivity.
Qed.

Lemma conv_int_raise : forall k d d' l l' p p', conv c d d' -> Forall2 (conv_inc c) l l' -> conv_list c p p' ->
  alike (conv_list c) (int_raise_prices k d l p) (int_raise_prices k d' l' p').
Proof.
  intros k d d' l l' p p' HD H. revert p p'. induction H as [|[i v] [i' v'] l l' [HI HV] H IH]; intros p p' HP; cbn [int_raise_prices]; [exact HP|]. cbn [fst] in HI. subst i'.
  eapply alike_bind; [apply alike_get; exact HP|]. intros q q' HQ. apply alike_same. intros n. apply IH. apply F2_set; [exact HP|]. apply conv_plus; [exact HQ|].
  apply conv_times. exact HD.
Qed.

Lemma conv_int_increase : forall s s' l l' b b', conv_isim s s' -> Forall2 (conv_inc c) l l' -> conv c b b' ->
  alike conv_isim (int_increase_prices s l b) (int_increase_prices s' l' b').
Proof.
  intros s s' l l' b b' (HR & HK & HV & HS) HL HB. unfold int_increase_prices. rewrite HR, HK.
  rewrite (map_result_ext _ _ (fun recipe => int_count_increases (isp_counts s) recipe l') (fun recipe => int_count_increases (isp_counts s) recipe l)).
  2:{ apply Forall_forall. intros r _. apply conv_count_increases. exact HL. }
  apply alike_same. intros _. cbn zeta. destruct HV as (V1 & V2 & V3 & V4).
  eapply alike_bind with (R := conv_list c).
  - apply alike_result with (R := conv_inc c); [exact HL|]. intros a a' [HI HA]. rewrite HI. eapply alike_bind; [apply alike_get; apply V3|].
    intros q q' HQ. apply conv_minus; assumption.
  - intros ds ds' HD. eapply alike_bind; [apply (conv_qmin c CP); exact HD|]. intros x x' HX.
    assert (HU : conv c (b - int_price_sum (isp_vector s)) (b' - int_price_sum (isp_vector s'))).
    { apply conv_minus; [exact HB|]. unfold int_price_sum. rewrite V1, V2. apply conv_dot3. exact V3. }
    rewrite (conv_lt c CP _ _ _ _ HU HX).
    assert (HI : conv c (if Qlt_bool (b - int_price_sum (isp_vector s)) x then b - int_price_sum (isp_vector s) else x)
                        (if Qlt_bool (b - int_price_sum (isp_vector s)) x then b' - int_price_sum (isp_vector s') else x')) by (destruct (Qlt_bool _ _); assumption).
    rewrite (conv_eq c CP _ _ _ _ HI HU). eapply alike_bind; [apply conv_int_raise; eassumption|].
    intros q q' HQ. cbn [alike]. split; [reflexivity|]. split; [reflexivity|]. split; [|reflexivity]. split; [exact V1|]. split; [exact V2|]. split; [exact HQ|exact V4].
Qed.

(** ** ascending_auction_recipetree_integer_protocol.py *)
Definition conv_is (s s' : int_state) : Prop := conv_market c (fst s) (fst s') /\ conv_isim (snd s) (snd s').

Lemma conv_int_round : forall M M' counts t s s', conv c M M' -> conv_is s s' ->
  alike (fun r r' => fst r' = fst r /\ conv_is (snd r) (snd r')) (int_round M counts t s) (int_round M' counts t s').
Proof.
  intros M M' counts t [m p] [m' p'] HM [H HP]. cbn [fst snd] in H, HP. unfold int_round. rewrite (conv_int_largest _ _ counts t H).
  apply alike_same. intros [[x n] ids]. cbn zeta. cbn [fst snd]. destruct (Qeq_bool n 0); [split; [reflexivity|split; assumption]|].
  eapply alike_bind; [apply conv_planned; eassumption|]. intros l l' HL.
  eapply alike_bind; [apply conv_int_increase; [exact HP|exact HL|apply conv_0]|]. intros q q' HQ.
  assert (ST : isp_status q' = isp_status q) by apply HQ. rewrite ST.
  assert (D : alike (fun r r' => fst r' = fst r /\ conv_is (snd r) (snd r'))
    (cats' <- remove_beaten m (iv_prices (isp_vector q));; Ok (false, (cats', q))) (cats' <- remove_beaten m' (iv_prices (isp_vector q'));; Ok (false, (cats', q')))).
  { eapply alike_bind; [apply (conv_beaten c CP); [exact H|apply HQ]|]. intros b b' HB. split; [reflexivity|]. split; assumption. }
  destruct (isp_status q) as [[|]|]; [exact D| |exact D]. split; [reflexivity|]. split; assumption.
Qed.

Lemma conv_int_loop : forall M M' counts fuel t s s', conv c M M' -> conv_is s s' -> alike conv_is (int_loop M counts fuel t s) (int_loop M' counts fuel t s').
Proof.
  intros M M' counts fuel t s s' HM. revert s s'. induction fuel as [|fuel IH]; intros s s' H; cbn [int_loop]; [exact I|].
  eapply alike_bind; [apply conv_int_round; eassumption|]. intros [b r] [b' r'] [HB HR]. cbn [fst snd] in *. subst b'. destruct b; [exact HR|apply IH; exact HR].
Qed.

Theorem conv_int_auction : forall M M' fuel m m' st counts, conv c M M' -> conv_market c m m' ->
  alike (conv_tree_trade c) (int_auction M fuel m st counts) (int_auction M' fuel m' st counts).
Proof.
  intros M M' fuel m m' st counts HM H. unfold int_auction. cbn zeta.
  assert (HC := conv_clone_market c CP _ _ H). assert (HL := F2_len _ _ _ _ _ HC).
  assert (EN : new_int_tree (clone_market m') counts st = new_int_tree (clone_market m) counts st) by (unfold new_int_tree; rewrite HL; reflexivity).
  rewrite EN, HL. apply alike_same. intros t. apply alike_same. intros rs.
  eapply alike_bind; [apply conv_new_isim; apply conv_opp; exact HM|].
  intros sp sp' HSP. eapply alike_bind; [apply conv_int_loop; [exact HM|split; assumption]|]. intros [m1 s1] [m1' s1'] [HM1 HS1]. cbn [fst snd] in HM1, HS1 |- *.
  unfold new_int_trade. assert (V : conv_list c (iv_prices (isp_vector s1)) (iv_prices (isp_vector s1'))) by apply HS1.
  rewrite (conv_int_explained _ _ counts _ _ t HM1 V). apply alike_same. intros r.
  split; [exact HM1|]. split; [reflexivity|]. split; [exact V|]. split; [reflexivity|]. split; [reflexivity|]. split; [reflexivity|]. apply conv_int_gft. exact HM1.
Qed.
End Conv.
