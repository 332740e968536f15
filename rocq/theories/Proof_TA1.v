(** * Multi-recipe price vectors *)

From Coq Require Import String List Arith Lia QArith Lqa Permutation Sorted Bool.
From Verif Require Import Base Model_Agents Model_Trade Model_Prices Model_Market Model_RecipeTree Model_TreeAuction
  Spec_Market Spec_RecipeTree Spec_TreeAuction Proof_Tree.
Import ListNotations.
Open Scope Q_scope.

Lemma dot_set_nth : forall p r i x, (i < length p)%nat -> length p = length r ->
  dot (set_nth i x p) r == dot p r + (x - nth i p 0) * Qn (nth i r 0%nat).
Proof.
  induction p as [|a p IH]; intros [|b r] i x Hi HL; simpl in Hi, HL; try lia.
  destruct i as [|i]; simpl.
  - ring.
  - rewrite IH by lia. ring.
Qed.

Lemma map_result_ok_all : forall A B (f : A -> result B) (g : A -> B) l,
  (forall a, In a l -> f a = Ok (g a)) -> map_result f l = Ok (map g l).
Proof.
  induction l as [|a l IH]; simpl; intros H; [reflexivity|].
  rewrite (H a (or_introl eq_refl)). simpl. rewrite IH by auto. reflexivity.
Qed.

Lemma map_result_length : forall A B (f : A -> result B) l l', map_result f l = Ok l' -> length l' = length l.
Proof.
  induction l as [|a l IH]; simpl; intros l' H; [injection H; intros <-; reflexivity|].
  apply bind_Ok in H. destruct H as [b [_ H]]. apply bind_Ok in H. destruct H as [bs [H1 H]].
  injection H; intros <-. simpl. f_equal. auto.
Qed.

Lemma increases_in_ok : forall recipe incs, (forall i x, In (i, x) incs -> (i < length recipe)%nat) ->
  increases_in recipe incs = Ok (categories_in recipe (map fst incs)).
Proof.
  intros recipe. induction incs as [|[i x] incs IH]; intros H; [reflexivity|].
  cbn [increases_in]. rewrite (get_lt _ _ _ 0%nat) by (eapply H; left; reflexivity). cbn [bind].
  rewrite IH by (intros; eapply H; right; eassumption). cbn [bind].
  unfold categories_in. cbn [map filter fst]. destruct (nth i recipe 0 =? 1)%nat; reflexivity.
Qed.

Lemma increases_in_range : forall recipe incs n, increases_in recipe incs = Ok n ->
  forall i x, In (i, x) incs -> (i < length recipe)%nat.
Proof.
  intros recipe. induction incs as [|[i x] incs IH]; intros n H j y Hj; [destruct Hj|].
  cbn [increases_in] in H. apply bind_Ok in H. destruct H as [r [Hr H]]. apply bind_Ok in H. destruct H as [k [Hk _]].
  destruct Hj as [E|Hj].
  - injection E; intros -> ->. apply get_Ok in Hr. apply nth_error_Some. congruence.
  - eapply IH; eassumption.
Qed.

Lemma qmin_from_spec : forall l m,
  (qmin_from m l = m \/ In (qmin_from m l) l) /\ qmin_from m l <= m /\ forall x, In x l -> qmin_from m l <= x.
Proof.
  induction l as [|a l IH]; simpl; intros m.
  - split; [left; reflexivity|]. split; [lra|]. intros x [].
  - destruct (IH (if Qlt_bool a m then a else m)) as (A & B & C).
    assert (D : (if Qlt_bool a m then a else m) <= m /\ (if Qlt_bool a m then a else m) <= a).
    { destruct (Qlt_bool_reflect a m); lra. }
    split; [|split].
    + destruct A as [A|A]; [|right; right; assumption]. rewrite A. destruct (Qlt_bool a m); auto.
    + lra.
    + intros x [<-|Hx]; [lra|auto].
Qed.

Lemma qmin_spec : forall l m, qmin l = Ok m -> In m l /\ forall x, In x l -> m <= x.
Proof.
  intros [|a l] m H; [discriminate|]. injection H; intros <-. destruct (qmin_from_spec l a) as (A & B & C).
  split; [destruct A as [->|A]; [left; reflexivity|right; assumption]|].
  intros x [<-|Hx]; auto.
Qed.

Lemma raise_prices_ok : forall d incs p, (forall i x, In (i, x) incs -> (i < length p)%nat) ->
  exists p', raise_prices d incs p = Ok p' /\ length p' = length p
    /\ (forall r, length r = length p ->
          dot p' r == dot p r + d * Qsum (map (fun i => Qn (nth i r 0%nat)) (map fst incs)))
    /\ (forall j, ~ In j (map fst incs) -> nth j p' 0 = nth j p 0)
    /\ (NoDup (map fst incs) -> forall j, In j (map fst incs) -> nth j p' 0 = nth j p 0 + d).
Proof.
  intros d. induction incs as [|[i x] incs IH]; intros p H.
  - exists p. split; [reflexivity|]. split; [reflexivity|]. split; [intros; simpl; ring|]. split; [reflexivity|]. intros _ j [].
  - assert (Hi : (i < length p)%nat) by (eapply H; left; reflexivity).
    cbn [raise_prices]. rewrite (get_lt _ _ _ 0) by assumption. cbn [bind].
    destruct (IH (set_nth i (nth i p 0 + d) p)) as (p' & E & L & D & N1 & N2).
    { intros j y Hj. rewrite set_nth_length. eapply H. right. eassumption. }
    exists p'. split; [exact E|]. rewrite set_nth_length in L. split; [exact L|]. split; [|split].
    + intros r Hr. rewrite D by (rewrite set_nth_length; assumption). rewrite dot_set_nth by (lia || congruence).
      cbn [map fst Qsum fold_right]. fold (Qsum (map (fun i0 => Qn (nth i0 r 0%nat)) (map fst incs))). ring.
    + intros j Hj. cbn [map fst] in Hj. rewrite N1 by (intros X; apply Hj; right; exact X).
      apply nth_set_nth_other. intros ->. apply Hj. left. reflexivity.
    + intros ND j Hj. cbn [map fst] in ND, Hj. inversion ND as [|? ? Hn ND']; subst. destruct Hj as [<-|Hj].
      * rewrite N1 by assumption. apply nth_set_nth_same. assumption.
      * rewrite N2 by assumption. f_equal. apply nth_set_nth_other. intros ->. contradiction.
Qed.

(** Weighted number of increases of a binary recipe. *)
Lemma categories_in_sum : forall n r l, binary_recipe n r ->
  Qsum (map (fun i => Qn (nth i r 0%nat)) l) == Qn (categories_in r l).
Proof.
  intros n r l [_ HB]. induction l as [|i l IH]; [reflexivity|].
  cbn [map]. rewrite Qsum_cons, IH. unfold categories_in. cbn [filter].
  assert (X : nth i r 0%nat = 0%nat \/ nth i r 0%nat = 1%nat).
  { destruct (lt_dec i (length r)) as [Hi|Hi]; [|left; apply nth_overflow; lia].
    rewrite Forall_forall in HB. apply HB. apply nth_In. assumption. }
  destruct X as [->| ->]; simpl.
  - rewrite Qn_0. ring.
  - rewrite Qn_1, Qn_S. ring.
Qed.

(** What [increase_prices] does when it returns. *)
Record increased (sp : sim_prices) (incs : list (nat * Q)) (bound : Q) (sp' : sim_prices) (d : Q) : Prop := mkIncr {
  inc_recipes : sp_recipes sp' = sp_recipes sp;
  inc_recipe : pv_recipe (sp_vector sp') = pv_recipe (sp_vector sp);
  inc_one : forall r, In r (sp_recipes sp) -> categories_in r (map fst incs) = 1%nat;
  inc_raise : raise_prices d incs (map_category_index_to_price sp) = Ok (map_category_index_to_price sp');
  inc_bound : d <= bound - price_sum (sp_vector sp);
  inc_target : forall i x, In (i, x) incs -> d <= x - nth i (map_category_index_to_price sp) 0;
  inc_min : d == bound - price_sum (sp_vector sp)
    \/ exists i x, In (i, x) incs /\ d == x - nth i (map_category_index_to_price sp) 0;
  inc_stop : sp_status sp' = Some STOPPED_AT_ZERO_SUM <-> d == bound - price_sum (sp_vector sp);
  inc_status : sp_status sp' = Some STOPPED_AT_ZERO_SUM \/ sp_status sp' = Some STOPPED_AT_AGENT_VALUE
}.

Lemma map_result_inv : forall A B (f : A -> result B) l l' b, map_result f l = Ok l' -> In b l' ->
  exists a, In a l /\ f a = Ok b.
Proof.
  induction l as [|a l IH]; simpl; intros l' b H Hb; [injection H; intros <-; destruct Hb|].
  apply bind_Ok in H. destruct H as [c [Hc H]]. apply bind_Ok in H. destruct H as [cs [Hcs H]].
  injection H; intros <-. destruct Hb as [<-|Hb]; [eauto|]. destruct (IH _ _ Hcs Hb) as [a' [A1 A2]]. eauto.
Qed.

Lemma map_result_fwd : forall A B (f : A -> result B) l l' a, map_result f l = Ok l' -> In a l ->
  exists b, f a = Ok b /\ In b l'.
Proof.
  induction l as [|a l IH]; simpl; intros l' x H Hx; [destruct Hx|].
  apply bind_Ok in H. destruct H as [c [Hc H]]. apply bind_Ok in H. destruct H as [cs [Hcs H]].
  injection H; intros <-. destruct Hx as [<-|Hx]; [exists c; split; [assumption|left; reflexivity]|].
  destruct (IH _ _ Hcs Hx) as [b [B1 B2]]. exists b. split; [assumption|right; assumption].
Qed.

Lemma increase_inv : forall sp incs bound sp', increase_prices sp incs bound = Ok sp' ->
  exists d, increased sp incs bound sp' d.
Proof.
  intros sp incs bound sp' H. unfold increase_prices in H.
  apply bind_Ok in H. destruct H as [counts [Hc H]].
  destruct (existsb (fun n => negb (n =? 1)%nat) counts) eqn:Ex; [discriminate|].
  apply bind_Ok in H. destruct H as [diffs [Hd H]]. apply bind_Ok in H. destruct H as [mn [Hm H]].
  set (B := bound - price_sum (sp_vector sp)) in *.
  set (d := if Qlt_bool B mn then B else mn) in *.
  apply bind_Ok in H. destruct H as [p' [Hp H]]. injection H; intros <-. clear H.
  assert (D1 : d <= B /\ d <= mn /\ (d = B \/ d = mn)).
  { unfold d. destruct (Qlt_bool_reflect B mn); split; try lra; split; try lra; auto. }
  destruct D1 as (D1 & D2 & D3). destruct (qmin_spec _ _ Hm) as [M1 M2].
  exists d. split; simpl.
  - reflexivity.
  - reflexivity.
  - intros r Hr. destruct (map_result_fwd _ _ _ _ _ _ Hc Hr) as [n [Hn Hn']].
    rewrite increases_in_ok in Hn by (eapply increases_in_range; eassumption). injection Hn; intros ->.
    apply not_true_iff_false in Ex. destruct (Nat.eqb_spec n 1); [assumption|]. exfalso. apply Ex.
    apply existsb_exists. exists n. split; [assumption|]. destruct (Nat.eqb_spec n 1); [contradiction|reflexivity].
  - exact Hp.
  - exact D1.
  - intros i x Hi. destruct (map_result_fwd _ _ _ _ _ _ Hd Hi) as [q [Hq Hq']]. cbn [fst snd] in Hq.
    apply bind_Ok in Hq. destruct Hq as [p [Hpp E]]. injection E; intros <-. apply get_Ok in Hpp.
    apply (nth_error_nth _ _ 0) in Hpp. unfold map_category_index_to_price. rewrite Hpp.
    specialize (M2 _ Hq'). lra.
  - destruct D3 as [E|E].
    + left. rewrite E. reflexivity.
    + right. destruct (map_result_inv _ _ _ _ _ _ Hd M1) as [[i x] [Hi Hq]]. cbn [fst snd] in Hq.
      apply bind_Ok in Hq. destruct Hq as [p [Hpp E']]. injection E'; intros E''. apply get_Ok in Hpp.
      apply (nth_error_nth _ _ 0) in Hpp. exists i, x. split; [assumption|]. unfold map_category_index_to_price.
      rewrite Hpp, E, <- E''. reflexivity.
  - destruct (Qeq_bool d B) eqn:E.
    + apply Qeq_bool_iff in E. tauto.
    + split; [discriminate|]. intros X. fold B in X. apply Qeq_bool_iff in X. rewrite X in E. discriminate E.
  - destruct (Qeq_bool d B); auto.
Qed.

(** When it returns. *)
Lemma increase_ok : forall sp incs bound, (forall i x, In (i, x) incs -> (i < length (map_category_index_to_price sp))%nat) ->
  sp_recipes sp <> [] -> (forall r, In r (sp_recipes sp) -> length r = length (map_category_index_to_price sp)) ->
  ((forall r, In r (sp_recipes sp) -> categories_in r (map fst incs) = 1%nat) <->
     exists sp', increase_prices sp incs bound = Ok sp')
  /\ ((exists r, In r (sp_recipes sp) /\ categories_in r (map fst incs) <> 1%nat) <->
     increase_prices sp incs bound = Raise ValueError).
Proof.
  intros sp incs bound HI HR HL.
  assert (C : map_result (fun recipe => increases_in recipe incs) (sp_recipes sp)
              = Ok (map (fun r => categories_in r (map fst incs)) (sp_recipes sp))).
  { apply map_result_ok_all. intros r Hr. apply increases_in_ok. intros i x Hi. rewrite (HL r Hr). eapply HI. eassumption. }
  assert (D : map_result (fun inc => p <- get (pv_prices (sp_vector sp)) (fst inc) ;; Ok (snd inc - p)) incs
              = Ok (map (fun inc => snd inc - nth (fst inc) (pv_prices (sp_vector sp)) 0) incs)).
  { apply map_result_ok_all. intros [i x] Hi. cbn [fst snd]. rewrite (get_lt _ _ _ 0) by (eapply HI; eassumption). reflexivity. }
  assert (X : existsb (fun n => negb (n =? 1)%nat) (map (fun r => categories_in r (map fst incs)) (sp_recipes sp)) = true
              <-> exists r, In r (sp_recipes sp) /\ categories_in r (map fst incs) <> 1%nat).
  { rewrite existsb_exists. split.
    - intros [n [Hn E]]. apply in_map_iff in Hn. destruct Hn as [r [<- Hr]]. exists r. split; [assumption|].
      destruct (Nat.eqb_spec (categories_in r (map fst incs)) 1); [discriminate E|assumption].
    - intros [r [Hr Hn]]. eexists. split; [apply in_map; exact Hr|]. apply Nat.eqb_neq in Hn. simpl. rewrite Hn. reflexivity. }
  unfold increase_prices. rewrite C. cbn [bind].
  destruct (existsb _ _) eqn:E.
  - assert (Y := proj1 X eq_refl). split; split.
    + intros H. destruct Y as [r [Hr Hn]]. exfalso. apply Hn. auto.
    + intros [sp' H]. discriminate.
    + reflexivity.
    + intros _. exact Y.
  - assert (Y : forall r, In r (sp_recipes sp) -> categories_in r (map fst incs) = 1%nat).
    { intros r Hr. destruct (Nat.eq_dec (categories_in r (map fst incs)) 1); [assumption|]. exfalso.
      assert (false = true) by (apply X; eauto). discriminate. }
    rewrite D. cbn [bind].
    destruct incs as [|[i x] incs].
    { exfalso. destruct (sp_recipes sp) as [|r l]; [congruence|]. specialize (Y r (or_introl eq_refl)). discriminate Y. }
    cbn [map qmin bind].
    match goal with |- context [raise_prices ?d _ _] => destruct (raise_prices_ok d ((i, x) :: incs) _ HI) as (p' & E' & _) end.
    unfold map_category_index_to_price in E'. rewrite E'. cbn [bind]. split; split.
    + intros _. eexists. reflexivity.
    + intros _. exact Y.
    + intros [r [Hr Hn]]. exfalso. auto.
    + discriminate.
Qed.

(** Sums after an increase. *)
Lemma increased_sums : forall sp incs bound sp' d n S, increased sp incs bound sp' d ->
  Forall (binary_recipe n) (sp_recipes sp) -> length (map_category_index_to_price sp) = n ->
  sp_recipes sp <> [] ->
  equal_sums (sp_recipes sp) (map_category_index_to_price sp) S ->
  equal_sums (sp_recipes sp) (map_category_index_to_price sp') (S + d)
  /\ length (map_category_index_to_price sp') = n.
Proof.
  intros sp incs bound sp' d n S HI HB HL HN HS.
  assert (R : forall i x, In (i, x) incs -> (i < length (map_category_index_to_price sp))%nat).
  { assert (X := inc_raise _ _ _ _ _ HI). clear -X.
    revert X. generalize (map_category_index_to_price sp), (map_category_index_to_price sp').
    induction incs as [|[i x] incs IH]; intros p p' H j y Hj; [destruct Hj|].
    cbn [raise_prices] in H. apply bind_Ok in H. destruct H as [q [Hq H]].
    destruct Hj as [E|Hj].
    - injection E; intros <- <-. apply get_Ok in Hq. apply nth_error_Some. congruence.
    - specialize (IH _ _ H j y Hj). rewrite set_nth_length in IH. exact IH. }
  destruct (raise_prices_ok d incs _ R) as (p' & E & L & D & _).
  rewrite (inc_raise _ _ _ _ _ HI) in E. injection E; intros <-. split; [|congruence].
  rewrite Forall_forall in HB. intros r Hr. specialize (HB r Hr).
  rewrite D by (destruct HB; congruence). rewrite (categories_in_sum n) by assumption.
  rewrite (inc_one _ _ _ _ _ HI r Hr), Qn_1, (HS r Hr). ring.
Qed.
