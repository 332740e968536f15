(** * The price vectors of prices_integer.py (C57) *)

From Coq Require Import String List Arith Lia QArith Lqa Permutation Sorted Bool.
From Verif Require Import Base Model_Agents Model_Trade Model_Prices Model_Market Model_RecipeTree Model_TreeAuction
  Model_IntPrices Model_IntTree Model_IntAuction
  Spec_Market Spec_RecipeTree Spec_TreeAuction Spec_Int Proof_Tree Proof_Tree2 Proof_Tree3 Proof_TA1 Proof_TA2.
Import ListNotations.
Open Scope Q_scope.

Lemma dot3_set_nth : forall p r c i x, (i < length p)%nat -> length p = length r -> length r = length c ->
  dot3 (set_nth i x p) r c == dot3 p r c + (x - nth i p 0) * Qn (nth i r 0%nat) * Qn (nth i c 0%nat).
Proof.
  induction p as [|a p IH]; intros [|b r] [|e c] i x Hi HL HL'; simpl in Hi, HL, HL'; try lia.
  destruct i as [|i]; simpl.
  - ring.
  - rewrite IH by lia. ring.
Qed.

Lemma int_without_ok : forall iv i, length (iv_prices iv) = length (iv_recipe iv) -> length (iv_counts iv) = length (iv_recipe iv) ->
  (i < length (iv_recipe iv))%nat ->
  int_price_sum_without iv i = Ok (int_price_sum iv - Qn (nth i (iv_recipe iv) 0%nat) * nth i (iv_prices iv) 0 * Qn (nth i (iv_counts iv) 0%nat)).
Proof.
  intros iv i H1 H2 Hi. unfold int_price_sum_without.
  rewrite (get_lt _ _ _ 0%nat) by lia. cbn [bind]. rewrite (get_lt _ _ _ 0) by lia. cbn [bind].
  rewrite (get_lt _ _ _ 0%nat) by lia. reflexivity.
Qed.

(** The sum as a sum over the categories. *)
Definition weighted_sum (prices : list Q) (recipe counts : list nat) : Q :=
  Qsum (map (fun i => nth i prices 0 * Qn (nth i recipe 0%nat) * Qn (nth i counts 0%nat)) (seq 0 (length recipe))).

Lemma dot3_weighted : forall r p c, length p = length r -> length c = length r -> dot3 p r c == weighted_sum p r c.
Proof.
  unfold weighted_sum. induction r as [|b r IH]; intros [|x p] [|e c] H1 H2; simpl in H1, H2; try lia; [reflexivity|].
  cbn [dot3 length seq map Qsum fold_right]. rewrite <- seq_shift, map_map. cbn [nth].
  rewrite (IH p c) by lia. reflexivity.
Qed.

Theorem int_price_sum_spec : forall iv, length (iv_prices iv) = length (iv_recipe iv) -> length (iv_counts iv) = length (iv_recipe iv) ->
  int_price_sum iv == Qsum (map (fun i => nth i (iv_prices iv) 0 * Qn (nth i (iv_recipe iv) 0%nat) * Qn (nth i (iv_counts iv) 0%nat))
                                (seq 0 (length (iv_recipe iv)))).
Proof. intros iv H1 H2. apply dot3_weighted; assumption. Qed.

Theorem int_sum_after_spec : forall iv i new, length (iv_prices iv) = length (iv_recipe iv) -> length (iv_counts iv) = length (iv_recipe iv) ->
  (i < length (iv_recipe iv))%nat ->
  exists s, int_price_sum_after iv i new = Ok s
    /\ s == int_price_sum (mkIV (iv_recipe iv) (iv_counts iv) (set_nth i new (iv_prices iv)) (iv_status iv)).
Proof.
  intros iv i new H1 H2 Hi. unfold int_price_sum_after. rewrite int_without_ok by assumption. cbn [bind].
  rewrite (get_lt _ _ _ 0%nat) by lia. cbn [bind]. rewrite (get_lt _ _ _ 0%nat) by lia. cbn [bind].
  eexists. split; [reflexivity|]. unfold int_price_sum at 2. cbn [iv_prices iv_recipe iv_counts].
  rewrite dot3_set_nth by lia. fold (int_price_sum iv). ring.
Qed.

Theorem int_up_to_balance_spec : forall iv i new bound, length (iv_prices iv) = length (iv_recipe iv) ->
  length (iv_counts iv) = length (iv_recipe iv) -> (i < length (iv_recipe iv))%nat ->
  let r := Qn (nth i (iv_recipe iv) 0%nat) in
  let c := Qn (nth i (iv_counts iv) 0%nat) in
  let w := int_price_sum iv - r * nth i (iv_prices iv) 0 * c in
  match int_increase_up_to_balance iv i new bound with
  | Ok iv' =>
      iv_recipe iv' = iv_recipe iv /\ iv_counts iv' = iv_counts iv /\ length (iv_prices iv') = length (iv_prices iv)
      /\ (forall j, j <> i -> nth j (iv_prices iv') 0 = nth j (iv_prices iv) 0)
      /\ ((bound <= w + r * new /\ iv_status iv' = Some STOPPED_AT_ZERO_SUM
           /\ nth i (iv_prices iv') 0 <= new
           /\ int_price_sum iv' == w + (bound - w) * c)
          \/ (w + r * new < bound /\ iv_status iv' = Some STOPPED_AT_AGENT_VALUE
              /\ nth i (iv_prices iv') 0 = new
              /\ int_price_sum iv' == w + r * new * c))
  | Raise e => e = ZeroDivisionError /\ nth i (iv_recipe iv) 0%nat = 0%nat /\ bound <= int_price_sum iv
  | Timeout => False
  end.
Proof.
  intros iv i new bound H1 H2 Hi r c w. unfold int_increase_up_to_balance.
  rewrite (get_lt _ _ _ 0%nat) by lia. cbn [bind]. rewrite int_without_ok by assumption. cbn [bind]. fold r c w.
  assert (SN : forall x st, int_price_sum (mkIV (iv_recipe iv) (iv_counts iv) (set_nth i x (iv_prices iv)) st) == w + r * x * c).
  { intros x st. unfold int_price_sum at 1. cbn [iv_prices iv_recipe iv_counts]. rewrite dot3_set_nth by lia.
    fold (int_price_sum iv). unfold w, r, c. ring. }
  destruct (Qle_bool_reflect bound (w + r * new)) as [L|L].
  - destruct (Nat.eqb_spec (nth i (iv_recipe iv) 0%nat) 0) as [Z|Z].
    + split; [reflexivity|]. split; [exact Z|]. unfold w, r in L. rewrite Z in L. rewrite Qn_0 in L. lra.
    + assert (R0 : 0 < r) by (apply Qn_pos; lia). cbn [iv_recipe iv_counts iv_prices iv_status].
      split; [reflexivity|]. split; [reflexivity|]. split; [apply set_nth_length|].
      split; [intros j Hj; apply nth_set_nth_other; congruence|]. left. split; [assumption|]. split; [reflexivity|].
      split.
      * rewrite nth_set_nth_same by lia. apply Qle_shift_div_r; [assumption|]. lra.
      * rewrite SN. assert (X : r * ((bound - w) / r) == bound - w) by (field; lra). rewrite X. reflexivity.
  - cbn [iv_recipe iv_counts iv_prices iv_status].
    split; [reflexivity|]. split; [reflexivity|]. split; [apply set_nth_length|].
    split; [intros j Hj; apply nth_set_nth_other; congruence|]. right. split; [lra|]. split; [reflexivity|].
    split; [apply nth_set_nth_same; lia|apply SN].
Qed.

(** ** Simultaneous increases *)

Lemma int_count_ok : forall counts recipe incs,
  (forall i x, In (i, x) incs -> (i < length recipe)%nat /\ (i < length counts)%nat /\ (0 < nth i counts 0)%nat) ->
  int_count_increases counts recipe incs = Ok tt.
Proof.
  intros counts recipe. induction incs as [|[i x] incs IH]; intros H; [reflexivity|].
  destruct (H i x (or_introl eq_refl)) as (A & B & C). cbn [int_count_increases].
  rewrite (get_lt _ _ _ 0%nat) by assumption. cbn [bind]. rewrite (get_lt _ counts _ 0%nat) by assumption. cbn [bind].
  destruct (Nat.eqb_spec (nth i counts 0%nat) 0); [lia|].
  rewrite IH by (intros; apply (H i0 x0); right; assumption). destruct (0 <? nth i recipe 0)%nat; reflexivity.
Qed.

Lemma int_raise_ok : forall counts d incs p, (forall i x, In (i, x) incs -> (i < length p)%nat /\ (i < length counts)%nat) ->
  exists p', int_raise_prices counts d incs p = Ok p' /\ length p' = length p
    /\ (forall r c, length r = length p -> length c = length p ->
          dot3 p' r c == dot3 p r c + d * Qsum (map (fun i => Qn (nth i counts 0%nat) * Qn (nth i r 0%nat) * Qn (nth i c 0%nat)) (map fst incs)))
    /\ (forall j, ~ In j (map fst incs) -> nth j p' 0 = nth j p 0)
    /\ (NoDup (map fst incs) -> forall j, In j (map fst incs) -> nth j p' 0 = nth j p 0 + d * Qn (nth j counts 0%nat)).
Proof.
  intros counts d. induction incs as [|[i x] incs IH]; intros p H.
  - exists p. split; [reflexivity|]. split; [reflexivity|]. split; [intros; simpl; ring|]. split; [reflexivity|]. intros _ j [].
  - destruct (H i x (or_introl eq_refl)) as [Hi Hc].
    cbn [int_raise_prices]. rewrite (get_lt _ _ _ 0) by assumption. cbn [bind].
    rewrite (get_lt _ _ _ 0%nat) by assumption. cbn [bind].
    destruct (IH (set_nth i (nth i p 0 + d * Qn (nth i counts 0%nat)) p)) as (p' & E & L & D & N1 & N2).
    { intros j y Hj. rewrite set_nth_length. eapply H. right. eassumption. }
    exists p'. split; [exact E|]. rewrite set_nth_length in L. split; [exact L|]. split; [|split].
    + intros r c Hr Hcc. rewrite D by (rewrite set_nth_length; assumption). rewrite dot3_set_nth by (lia || congruence).
      cbn [map fst]. rewrite Qsum_cons. ring.
    + intros j Hj. cbn [map fst] in Hj. rewrite N1 by (intros X; apply Hj; right; exact X).
      apply nth_set_nth_other. intros ->. apply Hj. left. reflexivity.
    + intros ND j Hj. cbn [map fst] in ND, Hj. inversion ND as [|? ? Hn ND']; subst. destruct Hj as [<-|Hj].
      * rewrite N1 by assumption. apply nth_set_nth_same. assumption.
      * rewrite N2 by assumption. f_equal. apply nth_set_nth_other. intros ->. contradiction.
Qed.

Definition int_prices (sp : int_sim_prices) : list Q := iv_prices (isp_vector sp).

Theorem int_increase_prices_spec : forall sp incs bound n, incs <> [] ->
  (forall r, In r (isp_recipes sp) -> length r = n) -> length (isp_counts sp) = n ->
  length (iv_prices (isp_vector sp)) = n ->
  NoDup (map fst incs) -> (forall i x, In (i, x) incs -> (i < n)%nat /\ (0 < nth i (isp_counts sp) 0)%nat) ->
  exists sp' d, int_increase_prices sp incs bound = Ok sp'
    /\ isp_recipes sp' = isp_recipes sp /\ isp_counts sp' = isp_counts sp
    /\ iv_recipe (isp_vector sp') = iv_recipe (isp_vector sp) /\ iv_counts (isp_vector sp') = iv_counts (isp_vector sp)
    /\ length (iv_prices (isp_vector sp')) = n
    /\ (forall i, ~ In i (map fst incs) -> nth i (iv_prices (isp_vector sp')) 0 = nth i (iv_prices (isp_vector sp)) 0)
    /\ (forall i, In i (map fst incs) -> nth i (iv_prices (isp_vector sp')) 0
          = nth i (iv_prices (isp_vector sp)) 0 + d * Qn (nth i (isp_counts sp) 0%nat))
    /\ (forall r c, length r = n -> length c = n -> dot3 (iv_prices (isp_vector sp')) r c == dot3 (iv_prices (isp_vector sp)) r c
          + d * Qsum (map (fun i => Qn (nth i (isp_counts sp) 0%nat) * Qn (nth i r 0%nat) * Qn (nth i c 0%nat)) (map fst incs)))
    /\ d <= bound - int_price_sum (isp_vector sp)
    /\ (forall i x, In (i, x) incs -> d <= x - nth i (iv_prices (isp_vector sp)) 0)
    /\ (d == bound - int_price_sum (isp_vector sp)
        \/ exists i x, In (i, x) incs /\ d == x - nth i (iv_prices (isp_vector sp)) 0)
    /\ (isp_status sp' = Some STOPPED_AT_ZERO_SUM <-> d == bound - int_price_sum (isp_vector sp))
    /\ (isp_status sp' = Some STOPPED_AT_AGENT_VALUE <-> d < bound - int_price_sum (isp_vector sp)).
Proof.
  intros sp incs bound n HN HR HC HL ND HI. unfold int_increase_prices.
  rewrite (map_result_ok_all _ _ _ (fun _ => tt)).
  2: { intros r Hr. apply int_count_ok. intros i x Hi. destruct (HI i x Hi). rewrite (HR r Hr), HC. auto. }
  cbn [bind]. set (iv := isp_vector sp) in *. set (B := bound - int_price_sum iv) in *.
  rewrite (map_result_ok_all _ _ _ (fun inc => snd inc - nth (fst inc) (iv_prices iv) 0)).
  2: { intros [i x] Hi. cbn [fst snd]. rewrite (get_lt _ _ _ 0) by (rewrite HL; apply (HI i x Hi)). reflexivity. }
  cbn [bind]. set (diffs := map (fun inc => snd inc - nth (fst inc) (iv_prices iv) 0) incs) in *.
  destruct (qmin diffs) as [mn|e|] eqn:Hm.
  2,3: destruct incs; [congruence|discriminate Hm].
  cbn [bind]. set (d := if Qlt_bool B mn then B else mn) in *.
  destruct (int_raise_ok (isp_counts sp) d incs (iv_prices iv)) as (p' & E & L & DD & N1 & N2).
  { intros i x Hi. rewrite HL, HC. destruct (HI i x Hi). auto. }
  rewrite E. cbn [bind].
  assert (D1 : d <= B /\ d <= mn /\ (d = B \/ d = mn)).
  { unfold d. destruct (Qlt_bool_reflect B mn); split; try lra; split; try lra; auto. }
  destruct D1 as (D1 & D2 & D3). destruct (qmin_spec _ _ Hm) as [M1 M2].
  eexists. exists d. split; [reflexivity|]. cbn [isp_recipes isp_counts isp_vector iv_recipe iv_counts iv_prices isp_status].
  split; [reflexivity|]. split; [reflexivity|]. split; [reflexivity|]. split; [reflexivity|]. split; [congruence|].
  split; [exact N1|]. split; [exact (N2 ND)|]. split; [intros; apply DD; congruence|]. split; [exact D1|]. split.
  { intros i x Hi. assert (X : In (x - nth i (iv_prices iv) 0) diffs) by (unfold diffs; apply in_map_iff; exists (i, x); auto).
    specialize (M2 _ X). lra. }
  split.
  { destruct D3 as [X|X]; [left; rewrite X; reflexivity|]. right. unfold diffs in M1. apply in_map_iff in M1.
    destruct M1 as [[i x] [Ei Hi]]. exists i, x. split; [assumption|]. cbn [fst snd] in Ei. rewrite X, Ei. reflexivity. }
  destruct (Qeq_bool d B) eqn:EB.
  - apply Qeq_bool_iff in EB. split; [tauto|]. split; [discriminate|]. intros X. lra.
  - assert (NB : ~ d == B) by (intros X; apply Qeq_bool_iff in X; congruence).
    split; [split; [discriminate|intros X; contradiction]|]. split; [intros _; lra|reflexivity].
Qed.

