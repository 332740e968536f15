(** * The old multi-buyer auction: all outcomes *)

From Coq Require Import String List Arith Lia QArith Lqa Bool.
From Verif Require Import Base Model_Agents Model_Trade Model_Market Model_Prices Model_RecipeTree Model_Ascending Model_Multibuyer
  Spec_Multibuyer Proof_Market Proof_Ascending Proof_TA1 Proof_Om1 Proof_Mb1 Proof_Mb2.
Import ListNotations.
Open Scope nat_scope.

Lemma loop_many : forall fuel inner target counts buyers seller pv, okpv pv -> length buyers = length counts -> 2 <= length buyers ->
  Forall (fun k => 0 < k) counts -> 0 < units_demanded buyers counts -> sizes buyers < inner -> csize seller < inner ->
  target <= csize seller -> target < fuel ->
  multibuyer_loop fuel inner target counts buyers seller pv = Raise IndexError.
Proof.
  induction fuel as [|fuel IH]; intros inner target counts buyers seller pv OP HL H2 FC HD HB HS HT HF; [lia|]. cbn [multibuyer_loop].
  destruct (buyers_many inner target counts buyers pv OP HL H2 FC HD HB) as [E|(b & p & E & OP1 & L1 & D1 & S1)]; rewrite E; cbn [bind]; [reflexivity|].
  destruct (sellers_ok inner target seller p OP1 ltac:(lia) ltac:(lia)) as (s & p2 & E2 & OP2 & S2). rewrite E2. cbn [bind].
  apply IH; auto; lia.
Qed.

Lemma loop_zero : forall fuel inner target counts buyers seller pv, okpv pv -> length buyers = length counts ->
  Exists (fun k => k = 0) counts -> 0 < units_demanded buyers counts -> csize seller < inner ->
  target <= csize seller -> target < fuel ->
  multibuyer_loop fuel inner target counts buyers seller pv =
    Raise (if existsb (fun c => csize c =? 0) buyers then IndexError else ZeroDivisionError).
Proof.
  induction fuel as [|fuel IH]; intros inner target counts buyers seller pv OP HL EX HD HS HT HF; [lia|]. cbn [multibuyer_loop].
  rewrite buyers_zero_count by (assumption || lia). destruct (Nat.leb_spec (units_demanded buyers counts) target) as [LT|GT]; cbn [bind].
  - destruct (sellers_ok inner target seller pv OP ltac:(lia) ltac:(lia)) as (s & p2 & E2 & OP2 & S2). rewrite E2. cbn [bind]. apply IH; auto; lia.
  - destruct (existsb _ buyers); reflexivity.
Qed.

Lemma loop_one : forall fuel inner target k c seller pv, okpv pv -> 0 < k -> csize c < inner -> csize seller < inner ->
  target <= csize seller -> target < fuel ->
  exists c' s' p, multibuyer_loop fuel inner target [k] [c] seller pv = Ok ([c'], s', p) /\ okpv p /\ csize c' = 0 /\ cname c' = cname c.
Proof.
  induction fuel as [|fuel IH]; intros inner target k c seller pv OP Hk HB HS HT HF; [lia|]. cbn [multibuyer_loop].
  destruct (buyers_one inner target k c pv OP Hk HB) as (c' & pv' & OP' & N & S & [[E Z]|[E [P T]]]); rewrite E; cbn [bind].
  - exists c', seller, pv'. auto.
  - destruct (sellers_ok inner target seller pv' OP' ltac:(lia) ltac:(lia)) as (s & p2 & E2 & OP2 & S2). rewrite E2. cbn [bind].
    destruct (IH inner (target - 1) k c' s p2 OP2 Hk ltac:(lia) ltac:(lia) ltac:(lia) ltac:(lia)) as (c2 & s2 & p3 & A & B & C & D).
    exists c2, s2, p3. split; [assumption|]. split; [assumption|]. split; [assumption|congruence].
Qed.

(** ** The market: buyers and sellers *)

Lemma split_last : forall (l : list category) d, l <> [] -> l = removelast l ++ [last l d].
Proof. intros. apply app_removelast_last. assumption. Qed.

Lemma nsum_app : forall l l', nsum (l ++ l') = nsum l + nsum l'.
Proof. induction l as [|a l IH]; intros l'; [reflexivity|]. cbn [app]. change (a + nsum (l ++ l') = a + nsum l + nsum l'). rewrite IH. lia. Qed.

Lemma clone_sizes : forall m, map csize (clone_market m) = map csize m.
Proof.
  intros m. unfold clone_market. rewrite map_map. apply map_ext. intros c. unfold clone, new_category, csize. cbn [cvalues]. apply sort_desc_length.
Qed.

Lemma units_demand : forall m counts, length counts = length m - 1 -> units_demanded (removelast (clone_market m)) counts = demand m counts.
Proof.
  intros m counts HL. unfold demand. rewrite <- clone_sizes. rewrite <- (clone_length m) in *. generalize (clone_market m) HL. clear.
  intros l. revert counts. induction l as [|c l IH]; intros counts HL; [reflexivity|].
  destruct l as [|c1 l]; [reflexivity|]. destruct counts as [|k counts]; [simpl in HL; lia|].
  change (removelast (c :: c1 :: l)) with (c :: removelast (c1 :: l)). unfold units_demanded. cbn [combine map fst snd].
  change (csize c * k + units_demanded (removelast (c1 :: l)) counts =
          nsum (map (fun i => nth i (map csize (c :: c1 :: l)) 0 * nth i (k :: counts) 0) (seq 0 (length (c :: c1 :: l) - 1)))).
  assert (LS : length (c :: c1 :: l) - 1 = S (length (c1 :: l) - 1)) by (simpl; lia). rewrite LS. cbn [seq map]. rewrite <- seq_shift, map_map.
  change (csize c * k + units_demanded (removelast (c1 :: l)) counts =
          csize c * k + nsum (map (fun i => nth i (map csize (c1 :: l)) 0 * nth i counts 0) (seq 0 (length (c1 :: l) - 1)))).
  rewrite <- IH; [reflexivity|]. simpl in HL |- *. lia.
Qed.

Theorem multibuyer_outcome : forall M fuel m rs counts, (0 < M)%Q -> 0 < length m ->
  convert_recipes_to_seller_counts rs (length m) = Ok counts -> total_agents m < fuel ->
  (demand m counts = 0 -> exists t, multibuyer_auction M fuel m rs = Ok t /\ mb_cats t = clone_market m /\ mb_deals t = 0 /\ trade_prices counts t)
  /\ (0 < demand m counts -> length m = 2 ->
      exists t, multibuyer_auction M fuel m rs = Ok t /\ mb_deals t = 0 /\ trade_prices counts t
        /\ length (mb_cats t) = 2 /\ exists c, nth_error (mb_cats t) 0 = Some c /\ cvalues c = [])
  /\ (0 < demand m counts -> 2 < length m -> (exists c, In c (removelast m) /\ csize c = 0) -> multibuyer_auction M fuel m rs = Raise IndexError)
  /\ (0 < demand m counts -> 2 < length m -> Forall (fun k => 0 < k) counts -> multibuyer_auction M fuel m rs = Raise IndexError)
  /\ (0 < demand m counts -> 2 < length m -> (forall c, In c (removelast m) -> 0 < csize c) -> Exists (fun k => k = 0) counts ->
      multibuyer_auction M fuel m rs = Raise ZeroDivisionError).
Proof.
  intros M fuel m rs counts HM Hn HC HF. destruct (convert_spec (length m) rs Hn) as (_ & _ & CS). destruct (CS counts HC) as (LC & _).
  unfold multibuyer_auction. rewrite HC. cbn [bind].
  assert (LM := clone_length m). assert (NN : clone_market m <> []) by (intros X; rewrite X in LM; simpl in LM; lia).
  destruct (clone_market m) as [|c0 l0] eqn:EC; [congruence|]. rewrite <- EC in *. clear NN.
  set (buyers := removelast (clone_market m)). set (seller := last (clone_market m) c0).
  assert (SP : clone_market m = buyers ++ [seller]) by (apply split_last; rewrite EC; discriminate).
  assert (TA : total_agents m = sizes buyers + csize seller).
  { unfold total_agents, sizes. rewrite <- clone_sizes, SP, map_app, nsum_app. simpl. lia. }
  assert (LB : length buyers = length counts) by (unfold buyers; rewrite length_removelast; lia).
  assert (UD : units_demanded buyers counts = demand m counts) by (apply units_demand; assumption).
  set (target := Nat.min (units_demanded buyers counts) (csize seller)).
  assert (OP : okpv (new_price_vector [1; 1] (- M))).
  { split; [reflexivity|]. exists (- M)%Q, (- M)%Q. split; [reflexivity|lra]. }
  assert (HT : target <= csize seller) by (unfold target; lia).
  assert (EMPTY : forall d, (exists c, In c buyers /\ csize c = d) <-> (exists c, In c (removelast m) /\ csize c = d)).
  { intros d. unfold buyers. assert (G : map csize (removelast (clone_market m)) = map csize (removelast m)).
    { assert (X : forall l, map csize (removelast l) = removelast (map csize l)).
      { clear. induction l as [|c l IH]; [reflexivity|]. destruct l as [|c1 l]; [reflexivity|]. cbn [map] in *. change (removelast (c :: c1 :: l)) with (c :: removelast (c1 :: l)).
        cbn [map]. rewrite IH. reflexivity. }
      rewrite !X, clone_sizes. reflexivity. }
    split; intros [c [Hc E]].
    - assert (Y : In d (map csize (removelast m))) by (rewrite <- G, <- E; apply in_map; assumption). apply in_map_iff in Y. destruct Y as [x [? ?]]. eauto.
    - assert (Y : In d (map csize (removelast (clone_market m)))) by (rewrite G, <- E; apply in_map; assumption). apply in_map_iff in Y. destruct Y as [x [? ?]]. eauto. }
  split; [|split; [|split; [|split]]].
  - intros Z. destruct fuel as [|fuel]; [lia|]. cbn [multibuyer_loop buyers_loop]. rewrite UD, Z. cbn [Nat.eqb bind]. cbn.
    eexists. split; [reflexivity|]. cbn [new_mb_trade mb_cats mb_deals mb_prices]. rewrite UD, Z. split; [symmetry; assumption|]. split; [lia|].
    exists (- M)%Q, (- M)%Q. split; [reflexivity|lra].
  - intros HD L2. assert (LB1 : length buyers = 1) by lia. destruct buyers as [|c [|]] eqn:EB; simpl in LB1; try lia.
    destruct counts as [|k [|]] eqn:EK; simpl in LC; try lia.
    assert (Hk : 0 < k) by (unfold units_demanded in UD; simpl in UD; destruct k; lia).
    assert (SB : sizes [c] = csize c) by (unfold sizes; simpl; lia).
    destruct (loop_one fuel fuel target k c seller _ OP Hk) as (c' & s' & p & E & [OR (a & b & PP & PS)] & Z & _); try lia.
    rewrite E. cbn [bind]. rewrite PP. cbn [get nth_error bind]. eexists. split; [reflexivity|].
    cbn [new_mb_trade mb_cats mb_deals mb_prices]. split; [unfold units_demanded; simpl; lia|]. split; [exists a, b; split; [reflexivity|assumption]|].
    split; [reflexivity|]. exists c'. split; [reflexivity|]. unfold csize in Z. destruct (cvalues c'); [reflexivity|simpl in Z; lia].
  - intros HD L2 EX. destruct (Forall_Exists_dec (fun k => 0 < k) (fun k => lt_dec 0 k) counts) as [FC|NC].
    + rewrite loop_many; auto; lia.
    + assert (EZ : Exists (fun k => k = 0) counts) by (eapply Exists_impl; [|exact NC]; simpl; intros; lia).
      rewrite loop_zero; auto; try lia. assert (X : existsb (fun c => csize c =? 0) buyers = true).
      { apply existsb_exists. apply EMPTY in EX. destruct EX as [c [? ?]]. exists c. split; [assumption|]. apply Nat.eqb_eq. assumption. }
      rewrite X. reflexivity.
  - intros HD L2 FC. rewrite loop_many; auto; lia.
  - intros HD L2 NE EZ. rewrite loop_zero; auto; try lia.
    destruct (existsb (fun c => csize c =? 0) buyers) eqn:X; [|reflexivity]. exfalso. apply existsb_exists in X. destruct X as [c [Hc Z]].
    apply Nat.eqb_eq in Z. destruct (proj1 (EMPTY 0)) as [c1 [H1 H2]]; [eauto|]. specialize (NE c1 H1). lia.
Qed.
