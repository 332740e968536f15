(** * The old multi-buyer auction: the loops *)

From Coq Require Import String List Arith Lia QArith Lqa Bool.
From Verif Require Import Base Model_Agents Model_Trade Model_Market Model_Prices Model_RecipeTree Model_Ascending Model_Multibuyer
  Spec_Multibuyer Proof_Ascending Proof_TA1 Proof_Om1 Proof_Mb1.
Import ListNotations.
Open Scope Q_scope.

(** ** Every returned trade is empty *)

Lemma buyers_loop_empty : forall fuel target counts buyers pv s,
  buyers_loop fuel target counts buyers pv = Ok (true, s) -> units_demanded (fst s) counts = 0%nat.
Proof.
  induction fuel as [|fuel IH]; intros target counts buyers pv s H; cbn [buyers_loop] in H; [discriminate|].
  destruct (Nat.eqb_spec (units_demanded buyers counts) 0) as [E|E]; [injection H; intros <-; exact E|].
  destruct (units_demanded buyers counts <=? target)%nat; [discriminate|].
  destruct (map_result lowest_agent_value buyers) as [lows|?|]; cbn [bind] in H; try discriminate.
  destruct (map_result value_per_unit (combine lows counts)) as [pu|?|]; cbn [bind] in H; try discriminate.
  destruct (argmax _ _) as [i|?|]; cbn [bind] in H; try discriminate.
  destruct (get pu i) as [v|?|]; cbn [bind] in H; try discriminate.
  destruct (increase_price_up_to_balance pv 0 v 0) as [pv'|?|]; cbn [bind] in H; try discriminate.
  destruct (get buyers i) as [c|?|]; cbn [bind] in H; try discriminate.
  destruct (remove_lowest_agent c) as [c'|?|]; cbn [bind] in H; try discriminate. eapply IH. exact H.
Qed.

Lemma sellers_loop_empty : forall fuel target seller pv s, sellers_loop fuel target seller pv = Ok (true, s) -> csize (fst s) = 0%nat.
Proof.
  induction fuel as [|fuel IH]; intros target seller pv s H; cbn [sellers_loop] in H; [discriminate|].
  destruct (Nat.eqb_spec (csize seller) 0) as [E|E]; [injection H; intros <-; exact E|].
  destruct (csize seller <=? target)%nat; [discriminate|].
  destruct (lowest_agent_value seller) as [v|?|]; cbn [bind] in H; try discriminate.
  destruct (increase_price_up_to_balance pv 1 v 0) as [pv'|?|]; cbn [bind] in H; try discriminate.
  destruct (remove_lowest_agent seller) as [c'|?|]; cbn [bind] in H; try discriminate. eapply IH. exact H.
Qed.

Lemma multibuyer_loop_empty : forall fuel inner target counts buyers seller pv b s p,
  multibuyer_loop fuel inner target counts buyers seller pv = Ok (b, s, p) -> units_demanded b counts = 0%nat \/ csize s = 0%nat.
Proof.
  induction fuel as [|fuel IH]; intros inner target counts buyers seller pv b s p H; cbn [multibuyer_loop] in H; [discriminate|].
  destruct (buyers_loop inner target counts buyers pv) as [[e [b1 p1]]|?|] eqn:EB; cbn [bind] in H; try discriminate.
  destruct e; [injection H; intros; subst; left; apply (buyers_loop_empty _ _ _ _ _ _ EB)|].
  destruct (sellers_loop inner target seller p1) as [[e [s1 p2]]|?|] eqn:ES; cbn [bind] in H; try discriminate.
  destruct e; [injection H; intros; subst; right; apply (sellers_loop_empty _ _ _ _ _ ES)|]. eapply IH. exact H.
Qed.

Theorem multibuyer_no_deals : forall M fuel m rs t, multibuyer_auction M fuel m rs = Ok t -> mb_deals t = 0%nat.
Proof.
  intros M fuel m rs t H. unfold multibuyer_auction in H.
  destruct (convert_recipes_to_seller_counts rs (length m)) as [counts|?|]; cbn [bind] in H; try discriminate.
  destruct (clone_market m) as [|c0 l]; [discriminate|].
  destruct (multibuyer_loop _ _ _ _ _ _ _) as [[[b s] p]|?|] eqn:E; cbn [bind] in H; try discriminate.
  destruct (get (pv_prices p) 0) as [x|?|]; cbn [bind] in H; try discriminate.
  destruct (get (pv_prices p) 1) as [y|?|]; cbn [bind] in H; try discriminate.
  injection H; intros <-. unfold new_mb_trade. cbn [mb_deals]. destruct (multibuyer_loop_empty _ _ _ _ _ _ _ _ _ _ E) as [X|X]; rewrite X; lia.
Qed.

(** ** The prices *)

Definition okpv (pv : price_vector) : Prop :=
  pv_recipe pv = [1; 1]%nat /\ exists a b, pv_prices pv = [a; b] /\ a + b <= 0.

Lemma inc_ok : forall pv i v, okpv pv -> (i < 2)%nat -> exists pv', increase_price_up_to_balance pv i v 0 = Ok pv' /\ okpv pv'.
Proof.
  intros [r p st] i v [R (a & b & P & S)] Hi. cbn [pv_recipe pv_prices] in R, P. subst r p.
  assert (Q1 : Qn 1 == 1) by reflexivity.
  destruct i as [|[|i]]; [| |lia]; unfold increase_price_up_to_balance, price_sum_without_category, price_sum, get; cbn [pv_recipe pv_prices nth_error bind dot];
    rewrite ?Nat.eqb_refl; cbn [Nat.eqb].
  - destruct (Qle_bool _ _) eqn:E.
    + eexists. split; [reflexivity|]. split; [reflexivity|]. eexists. eexists. split; [reflexivity|]. rewrite ?Q1. field_simplify. lra.
    + eexists. split; [reflexivity|]. split; [reflexivity|]. eexists. eexists. split; [reflexivity|].
      rewrite <- not_true_iff_false, Qle_bool_iff in E. rewrite ?Q1 in E. lra.
  - destruct (Qle_bool _ _) eqn:E.
    + eexists. split; [reflexivity|]. split; [reflexivity|]. eexists. eexists. split; [reflexivity|]. rewrite ?Q1. field_simplify. lra.
    + eexists. split; [reflexivity|]. split; [reflexivity|]. eexists. eexists. split; [reflexivity|].
      rewrite <- not_true_iff_false, Qle_bool_iff in E. rewrite ?Q1 in E. lra.
Qed.

(** ** Demand *)

Open Scope nat_scope.

Definition sizes (buyers : list category) : nat := nsum (map csize buyers).

Lemma demanded_pos : forall buyers counts i, i < length buyers -> i < length counts ->
  0 < csize (nth i buyers (mkCat ""%string [])) -> 0 < nth i counts 0 -> 0 < units_demanded buyers counts.
Proof.
  induction buyers as [|c buyers IH]; intros [|k counts] i H1 H2 H3 H4; simpl in H1, H2; try lia.
  unfold units_demanded. cbn [combine map fst snd]. change (0 < csize c * k + units_demanded buyers counts).
  destruct i as [|i]; simpl in H3, H4.
  - assert (1 * 1 <= csize c * k) by (apply Nat.mul_le_mono; lia). lia.
  - assert (X := IH counts i ltac:(lia) ltac:(lia) H3 H4). lia.
Qed.

Lemma demanded_inv : forall buyers counts, 0 < units_demanded buyers counts ->
  exists i, i < length buyers /\ i < length counts /\ 0 < csize (nth i buyers (mkCat ""%string [])) /\ 0 < nth i counts 0.
Proof.
  induction buyers as [|c buyers IH]; intros [|k counts] H; try (exfalso; unfold units_demanded in H; simpl in H; lia).
  unfold units_demanded in H. cbn [combine map fst snd] in H. change (0 < csize c * k + units_demanded buyers counts) in H.
  destruct (Nat.eq_dec (csize c * k) 0) as [Z|Z].
  - destruct (IH counts ltac:(lia)) as (i & A & B & C & D). exists (S i). simpl. repeat split; try lia; assumption.
  - exists 0. simpl. destruct (csize c), k; simpl in Z; lia.
Qed.

Lemma lows_all : forall buyers, (forall c, In c buyers -> 0 < csize c) ->
  exists lows, map_result lowest_agent_value buyers = Ok lows /\ length lows = length buyers.
Proof.
  intros buyers H. assert (X : exists lows, map_result lowest_agent_value buyers = Ok lows).
  { induction buyers as [|c buyers IH]; [exists []; reflexivity|]. cbn [map_result].
    assert (Hc := H c (or_introl eq_refl)). unfold lowest_agent_value at 1. unfold csize in Hc.
    destruct (cvalues c) as [|v l]; [simpl in Hc; lia|]. cbn [bind].
    destruct IH as [lows E]; [intros; apply H; right; assumption|]. rewrite E. cbn [bind]. eauto. }
  destruct X as [lows E]. exists lows. split; [assumption|]. eapply map_result_length. exact E.
Qed.

Lemma lows_empty : forall buyers, (exists c, In c buyers /\ csize c = 0) -> map_result lowest_agent_value buyers = Raise IndexError.
Proof.
  intros buyers [c [Hc Z]]. induction buyers as [|c0 buyers IH]; [destruct Hc|]. cbn [map_result].
  unfold lowest_agent_value at 1. destruct (cvalues c0) as [|v l] eqn:E; [reflexivity|]. cbn [bind].
  destruct Hc as [->|Hc]; [unfold csize in Z; rewrite E in Z; simpl in Z; lia|]. rewrite (IH Hc). reflexivity.
Qed.

Lemma per_unit_all : forall lows counts, length lows = length counts -> Forall (fun k => 0 < k) counts ->
  exists pu, map_result value_per_unit (combine lows counts) = Ok pu /\ length pu = length counts.
Proof.
  intros lows counts HL F. assert (X : exists pu, map_result value_per_unit (combine lows counts) = Ok pu).
  { revert counts HL F. induction lows as [|v lows IH]; intros [|k counts] HL F; simpl in HL; try lia; [exists []; reflexivity|].
    inversion F as [|? ? Hk F']; subst. cbn [combine map_result]. unfold value_per_unit at 1. cbn [fst snd].
    destruct (Nat.eqb_spec k 0); [lia|]. cbn [bind]. destruct (IH counts ltac:(lia) F') as [pu E]. rewrite E. cbn [bind]. eauto. }
  destruct X as [pu E]. exists pu. split; [assumption|]. apply map_result_length in E. rewrite E, combine_length. lia.
Qed.

Lemma per_unit_zero : forall lows counts, length lows = length counts -> Exists (fun k => k = 0) counts ->
  map_result value_per_unit (combine lows counts) = Raise ZeroDivisionError.
Proof.
  intros lows counts HL F. revert lows HL. induction F as [k counts ->|k counts F IH]; intros [|v lows] HL; simpl in HL; try lia;
    cbn [combine map_result]; unfold value_per_unit at 1; cbn [fst snd]; [reflexivity|].
  destruct (Nat.eqb_spec k 0); [reflexivity|]. cbn [bind]. rewrite IH by lia. reflexivity.
Qed.

Lemma remove_ok : forall c, 0 < csize c -> exists c', remove_lowest_agent c = Ok c' /\ csize c' = csize c - 1 /\ cname c' = cname c.
Proof.
  intros c H. unfold remove_lowest_agent. unfold csize in *. destruct (cvalues c) as [|v l] eqn:E; [simpl in H; lia|].
  eexists. split; [reflexivity|]. cbn [cvalues cname]. split; [|reflexivity]. rewrite length_removelast. simpl. lia.
Qed.

Lemma sizes_set : forall buyers i c', i < length buyers -> csize c' = csize (nth i buyers (mkCat ""%string [])) - 1 ->
  0 < csize (nth i buyers (mkCat ""%string [])) -> S (sizes (set_nth i c' buyers)) = sizes buyers.
Proof.
  unfold sizes. induction buyers as [|c buyers IH]; intros [|i] c' H E P; simpl in H; try lia; cbn [set_nth map].
  - simpl in E, P |- *. lia.
  - cbn [nth] in E, P. change (S (csize c + nsum (map csize (set_nth i c' buyers))) = csize c + nsum (map csize buyers)).
    rewrite <- (IH i c') by (assumption || lia). lia.
Qed.

(** One removal, when no category is empty and no count is 0. *)
Lemma buyers_step : forall fuel target counts buyers pv, okpv pv -> length buyers = length counts ->
  0 < units_demanded buyers counts -> target < units_demanded buyers counts ->
  (forall c, In c buyers -> 0 < csize c) -> Forall (fun k => 0 < k) counts ->
  exists i c' pv', i < length buyers /\ remove_lowest_agent (nth i buyers (mkCat ""%string [])) = Ok c' /\ okpv pv'
    /\ buyers_loop (S fuel) target counts buyers pv = buyers_loop fuel target counts (set_nth i c' buyers) pv'.
Proof.
  intros fuel target counts buyers pv OP HL HD HT NE FC. cbn [buyers_loop].
  destruct (Nat.eqb_spec (units_demanded buyers counts) 0); [lia|]. destruct (Nat.leb_spec (units_demanded buyers counts) target); [lia|].
  destruct (lows_all buyers NE) as (lows & E1 & L1). rewrite E1. cbn [bind].
  destruct (per_unit_all lows counts ltac:(lia) FC) as (pu & E2 & L2). rewrite E2. cbn [bind].
  destruct (argmax_total (fun i => - nth i pu 0)%Q (seq 0 (length buyers))) as [[Z _]|[i E3]].
  { destruct (demanded_inv _ _ HD) as (i & Hi & _). destruct (length buyers); [lia|discriminate]. }
  rewrite E3. cbn [bind]. apply argmax_spec in E3. destruct E3 as [E3 _]. apply in_seq in E3.
  assert (Hi : i < length buyers) by lia. unfold get.
  destruct (nth_error pu i) as [v|] eqn:E4; [|apply nth_error_None in E4; lia]. cbn [bind].
  destruct (inc_ok pv 0 v OP ltac:(lia)) as (pv' & E5 & OP'). rewrite E5. cbn [bind].
  rewrite (nth_error_nth' buyers (mkCat ""%string []) Hi). cbn [bind].
  destruct (remove_ok (nth i buyers (mkCat ""%string []))) as (c' & E6 & _); [apply NE; apply nth_In; assumption|]. rewrite E6. cbn [bind].
  exists i, c', pv'. auto.
Qed.

(** Two or more buyer categories: the buyers are never all removed. *)
Lemma buyers_many : forall fuel target counts buyers pv, okpv pv -> length buyers = length counts -> 2 <= length buyers ->
  Forall (fun k => 0 < k) counts -> 0 < units_demanded buyers counts -> sizes buyers < fuel ->
  buyers_loop fuel target counts buyers pv = Raise IndexError
  \/ exists buyers' pv', buyers_loop fuel target counts buyers pv = Ok (false, (buyers', pv')) /\ okpv pv'
       /\ length buyers' = length counts /\ 0 < units_demanded buyers' counts <= target /\ sizes buyers' <= sizes buyers.
Proof.
  induction fuel as [|fuel IH]; intros target counts buyers pv OP HL H2 FC HD HF; [lia|].
  destruct (le_lt_dec (units_demanded buyers counts) target) as [LT|GT].
  - right. exists buyers, pv. cbn [buyers_loop]. destruct (Nat.eqb_spec (units_demanded buyers counts) 0); [lia|].
    destruct (Nat.leb_spec (units_demanded buyers counts) target); [|lia]. split; [reflexivity|]. split; [assumption|]. split; [assumption|]. lia.
  - destruct (existsb (fun c => csize c =? 0) buyers) eqn:EX.
    + left. apply existsb_exists in EX. destruct EX as [c [Hc Z]]. apply Nat.eqb_eq in Z. cbn [buyers_loop].
      destruct (Nat.eqb_spec (units_demanded buyers counts) 0); [lia|]. destruct (Nat.leb_spec (units_demanded buyers counts) target); [lia|].
      rewrite lows_empty by eauto. reflexivity.
    + assert (NE : forall c, In c buyers -> 0 < csize c).
      { intros c Hc. destruct (Nat.eq_dec (csize c) 0) as [Z|Z]; [|lia]. exfalso.
        assert (Y : existsb (fun c => csize c =? 0) buyers = true) by (apply existsb_exists; exists c; split; [assumption|apply Nat.eqb_eq; assumption]).
        congruence. }
      destruct (buyers_step fuel target counts buyers pv OP HL HD GT NE FC) as (i & c' & pv' & Hi & R & OP' & ->).
      assert (P := NE _ (nth_In buyers (mkCat ""%string []) Hi)). destruct (remove_ok _ P) as (c1 & R1 & S1 & _). rewrite R in R1. injection R1; intros <-.
      assert (SS := sizes_set buyers i c' Hi S1 P).
      assert (HD' : 0 < units_demanded (set_nth i c' buyers) counts).
      { assert (J : exists j, j <> i /\ j < length buyers) by (destruct (Nat.eq_dec i 0); [exists 1|exists 0]; lia). destruct J as (j & Nj & Hj).
        apply (demanded_pos _ _ j); [rewrite length_set_nth; assumption|lia| |].
        - rewrite nth_set_other by assumption. apply NE. apply nth_In. assumption.
        - rewrite Forall_forall in FC. apply FC. apply nth_In. lia. }
      destruct (IH target counts (set_nth i c' buyers) pv') as [E|(b & p & E & A & B & C & D)]; auto; try (rewrite length_set_nth; assumption); try lia.
      right. exists b, p. split; [assumption|]. split; [assumption|]. split; [assumption|]. lia.
Qed.

(** Some count is 0. *)
Lemma buyers_zero_count : forall fuel target counts buyers pv, length buyers = length counts ->
  Exists (fun k => k = 0) counts -> 0 < units_demanded buyers counts -> 0 < fuel ->
  buyers_loop fuel target counts buyers pv =
    if units_demanded buyers counts <=? target then Ok (false, (buyers, pv))
    else if existsb (fun c => csize c =? 0) buyers then Raise IndexError else Raise ZeroDivisionError.
Proof.
  intros [|fuel] target counts buyers pv HL EX HD HF; [lia|]. cbn [buyers_loop].
  destruct (Nat.eqb_spec (units_demanded buyers counts) 0); [lia|]. destruct (units_demanded buyers counts <=? target); [reflexivity|].
  destruct (existsb (fun c => csize c =? 0) buyers) eqn:E.
  - apply existsb_exists in E. destruct E as [c [Hc Z]]. apply Nat.eqb_eq in Z. rewrite lows_empty by eauto. reflexivity.
  - destruct (lows_all buyers) as (lows & E1 & L1).
    { intros c Hc. destruct (Nat.eq_dec (csize c) 0) as [Z|Z]; [|lia]. exfalso.
      assert (Y : existsb (fun c => csize c =? 0) buyers = true) by (apply existsb_exists; exists c; split; [assumption|apply Nat.eqb_eq; assumption]).
      congruence. }
    rewrite E1. cbn [bind]. rewrite per_unit_zero by (assumption || lia). reflexivity.
Qed.

(** One buyer category. *)
Lemma buyers_one : forall fuel target k c pv, okpv pv -> 0 < k -> csize c < fuel ->
  exists c' pv', okpv pv' /\ cname c' = cname c /\ csize c' <= csize c
    /\ ((buyers_loop fuel target [k] [c] pv = Ok (true, ([c'], pv')) /\ csize c' = 0)
        \/ (buyers_loop fuel target [k] [c] pv = Ok (false, ([c'], pv')) /\ 0 < csize c' /\ 0 < target)).
Proof.
  induction fuel as [|fuel IH]; intros target k c pv OP Hk HF; [lia|].
  assert (D : forall x, units_demanded [x] [k] = csize x * k) by (intros; unfold units_demanded; simpl; lia).
  destruct (Nat.eq_dec (csize c) 0) as [Z|Z].
  - exists c, pv. split; [assumption|]. split; [reflexivity|]. split; [lia|]. left. split; [|assumption]. cbn [buyers_loop]. rewrite D, Z. reflexivity.
  - assert (P : 1 * 1 <= csize c * k) by (apply Nat.mul_le_mono; lia).
    destruct (le_lt_dec (csize c * k) target) as [LT|GT].
    + exists c, pv. split; [assumption|]. split; [reflexivity|]. split; [lia|]. right. split; [|lia]. cbn [buyers_loop]. rewrite D.
      destruct (Nat.eqb_spec (csize c * k) 0); [lia|]. destruct (Nat.leb_spec (csize c * k) target); [|lia]. reflexivity.
    + destruct (buyers_step fuel target [k] [c] pv OP eq_refl) as (i & c1 & pv1 & Hi & R & OP1 & E).
      * rewrite D. lia.
      * rewrite D. assumption.
      * intros x [<-|[]]. lia.
      * constructor; [assumption|constructor].
      * simpl in Hi. assert (i = 0) by lia. subst i. cbn [nth set_nth] in R, E. rewrite E.
        destruct (remove_ok c ltac:(lia)) as (c2 & R2 & S2 & N2). rewrite R in R2. injection R2; intros <-.
        destruct (IH target k c1 pv1 OP1 Hk ltac:(lia)) as (c' & pv' & A & B & C & F). exists c', pv'. split; [assumption|]. split; [congruence|]. split; [lia|assumption].
Qed.

(** The sellers. *)
Lemma sellers_ok : forall fuel target seller pv, okpv pv -> 0 < target <= csize seller -> csize seller < fuel + target ->
  exists seller' pv', sellers_loop fuel target seller pv = Ok (false, (seller', pv')) /\ okpv pv' /\ csize seller' = target.
Proof.
  induction fuel as [|fuel IH]; intros target seller pv OP HT HF; [lia|]. cbn [sellers_loop].
  destruct (Nat.eqb_spec (csize seller) 0); [lia|]. destruct (Nat.leb_spec (csize seller) target) as [L|L].
  - exists seller, pv. split; [reflexivity|]. split; [assumption|lia].
  - assert (X : exists v, lowest_agent_value seller = Ok v).
    { unfold lowest_agent_value, csize in *. destruct (cvalues seller); [simpl in HT; lia|]. eauto. }
    destruct X as [v E1]. rewrite E1. cbn [bind]. destruct (inc_ok pv 1 v OP ltac:(lia)) as (pv' & E2 & OP'). rewrite E2. cbn [bind].
    destruct (remove_ok seller ltac:(lia)) as (s' & E3 & S3 & _). rewrite E3. cbn [bind]. apply IH; [assumption|lia|lia].
Qed.
