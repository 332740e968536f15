(** * Proofs for C93, continued: recipe trees *)

From Coq Require Import String List Arith QArith Qabs Lqa.
From Verif Require Import Base Model_Agents Model_Trade Model_Prices Model_Market Model_RecipeTree Model_TreeAuction.
From Verif Require Import Proof_Tree Spec_Units Proof_Units.
Import ListNotations.
Open Scope Q_scope.

Lemma alike_result : forall A A' B B' (R : A -> A' -> Prop) (S : B -> B' -> Prop) f f' l l', Forall2 R l l' ->
  (forall a a', R a a' -> alike S (f a) (f' a')) -> alike (Forall2 S) (map_result f l) (map_result f' l').
Proof.
  intros A A' B B' R S f f' l l' H HF. induction H as [|a a' l l' HA H IH]; cbn [map_result]; [constructor|].
  eapply alike_bind; [apply HF; exact HA|]. intros b b' HB. eapply alike_bind; [exact IH|]. intros bs bs' HBS. constructor; assumption.
Qed.

Lemma F2_nth : forall A B (R : A -> B -> Prop) l l' d d' i, Forall2 R l l' -> R d d' -> R (nth i l d) (nth i l' d').
Proof. intros A B R l l' d d' i H HD. revert i. induction H; intros [|i]; cbn [nth]; auto. Qed.

Lemma F2_map_in : forall A B B' (S : B -> B' -> Prop) f f' (l : list A), Forall (fun a => S (f a) (f' a)) l -> Forall2 S (map f l) (map f' l).
Proof. intros A B B' S f f' l H. induction H; constructor; assumption. Qed.

Section Conv.
Variable c : Q.
Hypothesis CP : 0 < c.

Lemma conv_cat_at : forall m m' i, conv_market c m m' -> conv_category c (cat_at m i) (cat_at m' i).
Proof. intros m m' i H. unfold cat_at. apply F2_nth; [exact H|]. split; [reflexivity|constructor]. Qed.

Lemma conv_zip_add : forall x x' y y', conv_list c x x' -> conv_list c y y' -> conv_list c (zip_add x y) (zip_add x' y').
Proof.
  intros x x' y y' H. revert y y'. induction H as [|a a' x x' HA H IH]; intros y y' HY; cbn [zip_add]; [constructor|].
  destruct HY as [|b b' y y' HB HY]; [constructor|]. constructor; [apply conv_plus; assumption|apply IH; exact HY].
Qed.

Lemma conv_zip_cons : forall x x' y y', conv_list c x x' -> Forall2 (conv_list c) y y' -> Forall2 (conv_list c) (zip_cons x y) (zip_cons x' y').
Proof.
  intros x x' y y' H. revert y y'. induction H as [|a a' x x' HA H IH]; intros y y' HY; cbn [zip_cons]; [constructor|].
  destruct HY as [|b b' y y' HB HY]; [constructor|]. constructor; [constructor; assumption|apply IH; exact HY].
Qed.

Lemma conv_combined : forall m m' t, conv_market c m m' -> conv_list c (combined_values m t) (combined_values m' t).
Proof.
  intros m m' t H. induction t as [i ch IH] using rtree_ind'. destruct ch as [|t0 ch]; [apply (conv_cat_at _ _ i H)|].
  cbn [combined_values]. apply conv_zip_add; [apply (conv_cat_at _ _ i H)|]. apply conv_sort; [exact CP|]. apply F2_concat.
  apply F2_map_in. exact IH.
Qed.

Lemma conv_detailed : forall m m' t, conv_market c m m' -> Forall2 (conv_list c) (detailed_values m t) (detailed_values m' t).
Proof.
  intros m m' t H. induction t as [i ch IH] using rtree_ind'. destruct ch as [|t0 ch].
  - cbn [detailed_values]. eapply F2_map; [apply (conv_cat_at _ _ i H)|]. intros. constructor; [assumption|constructor].
  - cbn [detailed_values]. apply conv_zip_cons; [apply (conv_cat_at _ _ i H)|]. unfold sort_by_desc. apply F2_isort.
    + apply F2_concat. apply F2_map_in. exact IH.
    + intros. apply (conv_le c CP); apply conv_sum; assumption.
Qed.

Theorem conv_tree_gft : forall m m' t, conv_market c m m' -> conv c (optimal_trade_GFT m t) (optimal_trade_GFT m' t).
Proof.
  intros m m' t H. unfold optimal_trade_GFT. apply conv_sum. apply F2_filter; [apply conv_combined; exact H|].
  intros. apply (conv_le c CP); [apply conv_0|assumption].
Qed.

Theorem conv_tree_optimal : forall m m' t, conv_market c m m' ->
  alike (fun o o' => Forall2 (conv_list c) (fst (fst o)) (fst (fst o')) /\ snd (fst o') = snd (fst o) /\ conv c (snd o) (snd o'))
    (tree_optimal_trade m t) (tree_optimal_trade m' t).
Proof.
  intros m m' t H. unfold tree_optimal_trade. assert (HD := conv_detailed m m' t H).
  assert (HF : Forall2 (conv_list c) (filter (fun d => Qle_bool 0 (Qsum d)) (detailed_values m t)) (filter (fun d => Qle_bool 0 (Qsum d)) (detailed_values m' t))).
  { apply F2_filter; [exact HD|]. intros. apply (conv_le c CP); [apply conv_0|apply conv_sum; assumption]. }
  assert (D : alike (fun o o' => Forall2 (conv_list c) (fst (fst o)) (fst (fst o')) /\ snd (fst o') = snd (fst o) /\ conv c (snd o) (snd o'))
     (Ok (filter (fun d => Qle_bool 0 (Qsum d)) (detailed_values m t), length (filter (fun d => Qle_bool 0 (Qsum d)) (detailed_values m t)), Qsum (concat (filter (fun d => Qle_bool 0 (Qsum d)) (detailed_values m t)))))
     (Ok (filter (fun d => Qle_bool 0 (Qsum d)) (detailed_values m' t), length (filter (fun d => Qle_bool 0 (Qsum d)) (detailed_values m' t)), Qsum (concat (filter (fun d => Qle_bool 0 (Qsum d)) (detailed_values m' t)))))).
  { cbn [alike fst snd]. split; [exact HF|]. split; [eapply F2_len; exact HF|]. apply conv_sum. apply F2_concat. exact HF. }
  cbn zeta. destruct (tchildren t); [|exact D]. inversion HD as [E E'|x x' l l' HX HL E E']; rewrite <- ?E, <- ?E' in D; rewrite <- ?E, <- ?E'; [exact D|reflexivity].
Qed.

Lemma conv_largest : forall m m' t, conv_market c m m' -> largest_categories m' t = largest_categories m t.
Proof.
  intros m m' t H. induction t as [i ch IH] using rtree_ind'. cbn [largest_categories].
  assert (S : forall j, csize (cat_at m' j) = csize (cat_at m j)) by (intros j; apply (conv_size c); apply conv_cat_at; exact H).
  rewrite S. rewrite (map_ext (fun t0 => csize (cat_at m' (tindex t0))) (fun t0 => csize (cat_at m (tindex t0)))) by (intros; apply S).
  replace (map (largest_categories m') ch) with (map (largest_categories m) ch); [reflexivity|].
  induction IH as [|t0 ch E IH IHc]; cbn [map]; [reflexivity|]. rewrite IHc, E. reflexivity.
Qed.

Lemma conv_explained : forall m m' p p' t, conv_market c m m' -> conv_list c p p' -> deals_explained m' p' t = deals_explained m p t.
Proof.
  intros m m' p p' t H HP. induction t as [i ch IH] using rtree_ind'. cbn [deals_explained].
  assert (S : forall j, csize (cat_at m' j) = csize (cat_at m j)) by (intros j; apply (conv_size c); apply conv_cat_at; exact H).
  rewrite S. assert (G := alike_get _ _ _ _ _ i HP). destruct (get p i), (get p' i); cbn [alike] in G; try contradiction; [| |reflexivity].
  - cbn [bind]. destruct ch as [|t0 ch]; [reflexivity|].
    assert (E : map_result (deals_explained m' p') (t0 :: ch) = map_result (deals_explained m p) (t0 :: ch)).
    { induction IH as [|t1 ch1 E1 IH1 IHc]; cbn [map_result]; [reflexivity|]. rewrite E1, IHc. reflexivity. }
    change (bind (map_result (deals_explained m' p') (t0 :: ch)) (fun rs => match min_list (map (fun r => snd (fst r)) rs), max_list (map snd rs) with
          | Some kmin, Some kmax => Ok (Nat.min (nsum (map (fun r => fst (fst r)) rs)) (csize (cat_at m i)), kmin, kmax) | _, _ => Raise ValueError end)
      = bind (map_result (deals_explained m p) (t0 :: ch)) (fun rs => match min_list (map (fun r => snd (fst r)) rs), max_list (map snd rs) with
          | Some kmin, Some kmax => Ok (Nat.min (nsum (map (fun r => fst (fst r)) rs)) (csize (cat_at m i)), kmin, kmax) | _, _ => Raise ValueError end)).
    rewrite E. reflexivity.
  - cbn [bind]. rewrite G. reflexivity.
Qed.

Definition conv_sim (s s' : sim_prices) : Prop :=
  sp_recipes s' = sp_recipes s /\ conv_vector c (sp_vector s) (sp_vector s') /\ sp_status s' = sp_status s.
Definition conv_inc (a a' : nat * Q) : Prop := fst a' = fst a /\ conv c (snd a) (snd a').

Lemma conv_increases_in : forall r l l', Forall2 conv_inc l l' -> increases_in r l' = increases_in r l.
Proof.
  intros r l l' H. induction H as [|[i v] [i' v'] l l' [HI HV] H IH]; cbn [increases_in]; [reflexivity|]. cbn [fst] in HI. subst i'. rewrite IH. reflexivity.
Qed.

Lemma conv_qmin : forall l l', conv_list c l l' -> alike (conv c) (qmin l) (qmin l').
Proof.
  intros l l' H. destruct H as [|a a' l l' HA H]; [reflexivity|]. cbn [qmin alike]. revert a a' HA. induction H as [|b b' l l' HB H IH]; intros a a' HA; cbn [qmin_from]; [exact HA|].
  apply IH. rewrite (conv_lt c CP _ _ _ _ HB HA). destruct (Qlt_bool b a); assumption.
Qed.

Lemma conv_raise : forall d d' l l' p p', conv c d d' -> Forall2 conv_inc l l' -> conv_list c p p' -> alike (conv_list c) (raise_prices d l p) (raise_prices d' l' p').
Proof.
  intros d d' l l' p p' HD H. revert p p'. induction H as [|[i v] [i' v'] l l' [HI HV] H IH]; intros p p' HP; cbn [raise_prices]; [exact HP|]. cbn [fst] in HI. subst i'.
  eapply alike_bind; [apply alike_get; exact HP|]. intros q q' HQ. apply IH. apply F2_set; [exact HP|]. apply conv_plus; assumption.
Qed.

Lemma conv_increase_prices : forall s s' l l' b b', conv_sim s s' -> Forall2 conv_inc l l' -> conv c b b' ->
  alike conv_sim (increase_prices s l b) (increase_prices s' l' b').
Proof.
  intros s s' l l' b b' (HR & HV & HS) HL HB. unfold increase_prices. rewrite HR.
  assert (E : map_result (fun recipe => increases_in recipe l') (sp_recipes s) = map_result (fun recipe => increases_in recipe l) (sp_recipes s)).
  { generalize (sp_recipes s) as rs0. intros rs0. induction rs0 as [|r rs IH]; cbn [map_result]; [reflexivity|]. rewrite IH, (conv_increases_in r _ _ HL). reflexivity. }
  rewrite E. apply alike_same. intros counts. destruct (existsb (fun n => negb (n =? 1)%nat) counts); [reflexivity|]. cbn zeta.
  eapply alike_bind with (R := conv_list c).
  - apply alike_result with (R := conv_inc); [exact HL|]. intros a a' [HI HA]. rewrite HI. eapply alike_bind; [apply alike_get; apply HV|].
    intros q q' HQ. apply conv_minus; assumption.
  - intros ds ds' HD. eapply alike_bind; [apply conv_qmin; exact HD|]. intros x x' HX.
    assert (HU : conv c (b - price_sum (sp_vector s)) (b' - price_sum (sp_vector s'))) by (apply conv_minus; [exact HB|apply conv_price_sum; exact HV]).
    rewrite (conv_lt c CP _ _ _ _ HU HX).
    assert (HI : conv c (if Qlt_bool (b - price_sum (sp_vector s)) x then b - price_sum (sp_vector s) else x)
                        (if Qlt_bool (b - price_sum (sp_vector s)) x then b' - price_sum (sp_vector s') else x')) by (destruct (Qlt_bool _ _); assumption).
    rewrite (conv_eq c CP _ _ _ _ HI HU). destruct HV as (V1 & V2 & V3). eapply alike_bind; [apply conv_raise; eassumption|].
    intros q q' HQ. cbn [alike]. split; [reflexivity|]. split; [|reflexivity]. split; [exact V1|]. split; [exact HQ|exact V3].
Qed.

Definition conv_ts (s s' : tree_state) : Prop := conv_market c (fst s) (fst s') /\ conv_sim (snd s) (snd s').

Lemma conv_planned : forall M M' m m' l, conv c M M' -> conv_market c m m' -> alike (Forall2 conv_inc) (planned_increases M m l) (planned_increases M' m' l).
Proof.
  intros M M' m m' l HM H. unfold planned_increases. apply alike_result with (R := eq); [apply F2_same|]. intros i i' <-.
  eapply alike_bind; [apply alike_get; exact H|]. intros a a' HA. rewrite (conv_size c _ _ HA). destruct (0 <? csize a)%nat.
  - eapply alike_bind; [apply conv_lowest; exact HA|]. intros v v' HV. split; [reflexivity|exact HV].
  - split; [reflexivity|exact HM].
Qed.

Lemma conv_beaten : forall m m' p p', conv_market c m m' -> conv_list c p p' -> alike (conv_market c) (remove_beaten m p) (remove_beaten m' p').
Proof.
  intros m m' p p' H. revert p p'. induction H as [|a a' m m' HA H IH]; intros p p' HP; cbn [remove_beaten]; [constructor|].
  destruct HP as [|q q' p p' HQ HP]; [reflexivity|]. rewrite (conv_size c _ _ HA). eapply alike_bind with (R := conv_category c).
  - destruct (0 <? csize a)%nat; [|exact HA]. eapply alike_bind; [apply conv_lowest; exact HA|]. intros v v' HV. rewrite (conv_le c CP _ _ _ _ HV HQ).
    destruct (Qle_bool v q); [apply conv_remove_lowest; assumption|exact HA].
  - intros b b' HB. eapply alike_bind; [apply IH; exact HP|]. intros r r' HR. constructor; assumption.
Qed.

Lemma conv_tree_round : forall M M' t s s', conv c M M' -> conv_ts s s' ->
  alike (fun r r' => fst r' = fst r /\ conv_ts (snd r) (snd r')) (tree_round M t s) (tree_round M' t s').
Proof.
  intros M M' t [m p] [m' p'] HM [H HP]. cbn [fst snd] in H, HP. unfold tree_round. rewrite (conv_largest _ _ t H).
  destruct (largest_categories m t) as [[x n] ids]. destruct (n =? 0)%nat; [split; [reflexivity|split; assumption]|].
  eapply alike_bind; [apply conv_planned; eassumption|]. intros l l' HL.
  eapply alike_bind; [apply conv_increase_prices; [exact HP|exact HL|apply conv_0]|]. intros q q' HQ.
  assert (ST : sp_status q' = sp_status q) by apply HQ. rewrite ST.
  assert (D : alike (fun r r' => fst r' = fst r /\ conv_ts (snd r) (snd r'))
    (cats' <- remove_beaten m (map_category_index_to_price q);; Ok (false, (cats', q))) (cats' <- remove_beaten m' (map_category_index_to_price q');; Ok (false, (cats', q')))).
  { eapply alike_bind; [apply conv_beaten; [exact H|apply HQ]|]. intros b b' HB. split; [reflexivity|]. split; assumption. }
  destruct (sp_status q) as [[|]|]; [exact D| |exact D]. split; [reflexivity|]. split; assumption.
Qed.

Lemma conv_tree_loop : forall M M' fuel t s s', conv c M M' -> conv_ts s s' -> alike conv_ts (tree_loop M fuel t s) (tree_loop M' fuel t s').
Proof.
  intros M M' fuel t s s' HM. revert s s'. induction fuel as [|fuel IH]; intros s s' H; cbn [tree_loop]; [exact I|].
  eapply alike_bind; [apply conv_tree_round; eassumption|]. intros [b r] [b' r'] [HB HR]. cbn [fst snd] in *. subst b'. destruct b; [exact HR|apply IH; exact HR].
Qed.

Theorem conv_tree_auction : forall M M' p p' fuel m m' st, conv c M M' -> conv_list c p p' -> conv_market c m m' ->
  alike (conv_tree_trade c) (tree_auction M p fuel m st) (tree_auction M' p' fuel m' st).
Proof.
  intros M M' p p' fuel m m' st HM HP H. unfold tree_auction. cbn zeta.
  assert (HC := conv_clone_market c CP _ _ H). assert (HL := F2_len _ _ _ _ _ HC).
  assert (EN : new_tree (clone_market m') st = new_tree (clone_market m) st) by (unfold new_tree; rewrite HL; reflexivity).
  rewrite EN, HL. apply alike_same. intros t. apply alike_same. intros rs. eapply alike_bind; [apply conv_tree_optimal; exact HC|]. intros _ _ _.
  eapply alike_bind with (R := conv_sim).
  - unfold new_sim_prices. destruct rs as [|r0 rs]; [reflexivity|]. destruct (forallb _ _); [|reflexivity]. split; [reflexivity|]. split; [|reflexivity].
    split; [reflexivity|]. split; [exact HP|reflexivity].
  - intros sp sp' HSP. eapply alike_bind; [apply conv_tree_loop; [exact HM|split; assumption]|]. intros [m1 s1] [m1' s1'] [HM1 HS1]. cbn [fst snd] in HM1, HS1 |- *.
    unfold new_tree_trade. unfold map_category_index_to_price. assert (V := proj1 (proj2 (proj1 (proj2 HS1)))). rewrite (conv_explained _ _ _ _ t HM1 V). apply alike_same. intros r.
    split; [exact HM1|]. split; [reflexivity|]. split; [exact V|]. split; [reflexivity|]. split; [reflexivity|]. split; [reflexivity|]. apply conv_tree_gft. exact HM1.
Qed.
End Conv.
