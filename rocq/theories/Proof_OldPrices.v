From Coq Require Import List Arith Lia QArith Lqa Bool.
From Verif Require Import Base Model_Prices Model_OldPrices Spec_OldPrices Proof_Prices.
Import ListNotations.
Open Scope Q_scope.

Lemma recipe_price_dot : forall r ps, dot ps r == recipe_price r ps.
Proof. induction r; intros [|p ps]; simpl; try reflexivity. rewrite IHr. unfold Qn. ring. Qed.

(** ** The map *)

Definition used_before (l : list (list nat)) (j : nat) : bool := existsb (fun r => (0 <? nth j r 0)%nat) l.

Lemma old_map_row_spec : forall r ps acc, length r = length ps -> length acc = length ps ->
  (forall j q, nth_error acc j = Some (Some q) -> nth_error ps j = Some q) ->
  exists acc', old_map_row r ps acc = Ok acc' /\ length acc' = length ps /\
   forall j a, nth_error acc j = Some a ->
     nth_error acc' j = Some (if (0 <? nth j r 0)%nat then nth_error ps j else a).
Proof.
  induction r as [|x r IH]; intros [|p ps] [|a acc] L1 L2 H; simpl in L1, L2; try discriminate.
  - exists []. simpl. repeat split; auto. intros j b Hb. destruct j; discriminate.
  - injection L1 as L1. injection L2 as L2.
    destruct (IH ps acc L1 L2 (fun j q Hq => H (S j) q Hq)) as (acc' & E & L & Hacc).
    cbn [old_map_row]. rewrite E.
    destruct (0 <? x)%nat eqn:Ex.
    + assert (Ea : match a with None => Ok (Some p) | Some q => if Qeq_bool q p then Ok a else Raise ValueError end = Ok (Some p)).
      { destruct a as [q|]; [|reflexivity]. specialize (H 0%nat q eq_refl). simpl in H. injection H as ->.
        rewrite (proj2 (Qeq_bool_iff q q) (Qeq_refl q)). reflexivity. }
      rewrite Ea. simpl. exists (Some p :: acc'). simpl. split; [reflexivity|]. split; [congruence|].
      intros [|j] b Hb; simpl in *; [rewrite Ex; reflexivity|apply Hacc; assumption].
    + simpl. exists (a :: acc'). simpl. split; [reflexivity|]. split; [congruence|].
      intros [|j] b Hb; simpl in *; [rewrite Ex; congruence|apply Hacc; assumption].
Qed.

Lemma old_map_rows_spec : forall rs ps acc, (forall r, In r rs -> length r = length ps) -> length acc = length ps ->
  (forall j q, nth_error acc j = Some (Some q) -> nth_error ps j = Some q) ->
  exists acc', old_map_rows rs ps acc = Ok acc' /\ length acc' = length ps /\
   forall j a, nth_error acc j = Some a ->
     nth_error acc' j = Some (if used_before rs j then nth_error ps j else a).
Proof.
  induction rs as [|r rs IH]; intros ps acc L1 L2 H.
  - exists acc. simpl. repeat split; auto.
  - destruct (old_map_row_spec r ps acc (L1 r (or_introl eq_refl)) L2 H) as (acc1 & E1 & Le1 & H1).
    assert (Hps : forall j, (j < length ps)%nat -> exists p, nth_error ps j = Some p).
    { intros j Hj. destruct (nth_error ps j) eqn:E; eauto. apply nth_error_None in E. lia. }
    destruct (IH ps acc1 (fun r' Hr => L1 r' (or_intror Hr)) Le1) as (acc2 & E2 & Le2 & H2).
    { intros j q Hq.
      assert (Hj : (j < length acc)%nat) by (rewrite L2, <- Le1; apply nth_error_Some; congruence).
      destruct (nth_error acc j) as [a|] eqn:Ea; [|apply nth_error_None in Ea; lia].
      rewrite (H1 j a Ea) in Hq. destruct (0 <? nth j r 0)%nat; [congruence|]. apply H. congruence. }
    exists acc2. cbn [old_map_rows]. rewrite E1. simpl. split; [assumption|]. split; [assumption|].
    intros j a Ha. rewrite (H2 j _ (H1 j a Ha)). simpl. destruct (0 <? nth j r 0)%nat; simpl; [|reflexivity].
    destruct (used_before rs j); reflexivity.
Qed.

Lemma old_map_spec : forall v, well_formed (os_recipes v) (os_prices v) ->
  exists l, old_map v = Ok l /\ length l = length (os_prices v) /\
   forall j p, nth_error (os_prices v) j = Some p ->
     ((exists r, In r (os_recipes v) /\ (0 < nth j r 0)%nat) -> nth_error l j = Some (Some p))
     /\ (~ (exists r, In r (os_recipes v) /\ (0 < nth j r 0)%nat) -> nth_error l j = Some None).
Proof.
  intros v [Hne Hlen]. unfold old_map. destruct (os_recipes v) as [|r0 rs] eqn:E; [congruence|]. simpl get. unfold get; simpl nth_error. cbn [bind].
  rewrite (Hlen r0 (or_introl eq_refl)).
  destruct (old_map_rows_spec (r0 :: rs) (os_prices v) (repeat None (length (os_prices v))) Hlen) as (l & El & Ll & Hl).
  - apply repeat_length.
  - intros j q Hq. apply nth_error_In, repeat_spec in Hq. discriminate.
  - exists l. split; [assumption|]. split; [assumption|]. intros j p Hp.
    assert (Hj : (j < length (os_prices v))%nat) by (apply nth_error_Some; congruence).
    assert (Hn : nth_error (repeat (@None Q) (length (os_prices v))) j = Some None) by (apply nth_error_repeat; assumption).
    pose proof (Hl j _ Hn) as Hlj.
    assert (Hu : used_before (r0 :: rs) j = true <-> exists r, In r (r0 :: rs) /\ (0 < nth j r 0)%nat).
    { unfold used_before. rewrite existsb_exists. split; intros (r & Hr & Hx); exists r; split; auto; apply Nat.ltb_lt; assumption. }
    destruct (used_before (r0 :: rs) j).
    + split; [intros _; congruence|]. intro Hno. exfalso. apply Hno, Hu. reflexivity.
    + split; [|intros _; assumption]. intro Hex. apply Hu in Hex. discriminate.
Qed.

(** ** One call *)

Section Call.
  Variable rs : list (list nat).
  Variable ps : list Q.
  Variable incs : list increase.
  Variable s : Q.
  Hypothesis WF : well_formed rs ps.
  Hypothesis SUM : common_sum rs ps s.
  Hypothesis LEN : length incs = length rs.
  Hypothesis COMP : compatible rs incs.

  Definition cnt (r : list nat) (c : nat) : Q := Qn (nth c r 0%nat).
  Definition wo (r : list nat) (c : nat) : Q := s - cnt r c * nth c ps 0.
  Definition nsm (r : list nat) (c : nat) (p : Q) : Q := wo r c + cnt r c * p.
  Definition fin (b : Q) (r : list nat) (c : nat) (p : Q) : Q :=
    if Qle_bool b (nsm r c p) then (b - wo r c) / cnt r c else p.

  Definition Inv (cur : list Q) : Prop :=
    length cur = length ps /\
    forall k r c p, nth_error rs k = Some r -> nth_error incs k = Some (c, p) ->
      dot cur r - cnt r c * nth c cur 0 == wo r c.

  Lemma comp_range : forall k r c p, nth_error rs k = Some r -> nth_error incs k = Some (c, p) ->
    (0 < nth c r 0)%nat /\ (c < length ps)%nat /\ nth_error r c = Some (nth c r 0%nat) /\ 0 < cnt r c.
  Proof.
    intros k r c p Hr Hi. destruct (COMP k r c p Hr Hi) as [H _].
    assert (Hc : (c < length r)%nat).
    { destruct (le_lt_dec (length r) c) as [Hge|]; [|assumption]. rewrite nth_overflow in H by assumption. lia. }
    split; [assumption|]. split; [|split; [apply nth_error_nth'; assumption|apply Qn_pos; assumption]].
    rewrite <- (proj2 WF r (nth_error_In _ _ Hr)). assumption.
  Qed.

  Lemma Inv_init : Inv ps.
  Proof.
    split; [reflexivity|]. intros k r c p Hr Hi. unfold wo.
    rewrite recipe_price_dot, (SUM r (nth_error_In _ _ Hr)). reflexivity.
  Qed.

  Lemma set_nth_nth_same : forall (l : list Q) c x, (c < length l)%nat -> nth c (set_nth c x l) 0 = x.
  Proof. induction l; intros [|c] x H; simpl in *; try lia; [reflexivity|]. apply IHl. lia. Qed.
  Lemma set_nth_nth_other : forall (l : list Q) c j x, j <> c -> nth j (set_nth c x l) 0 = nth j l 0.
  Proof. induction l; intros [|c] [|j] x H; simpl in *; try congruence; auto. Qed.

  Lemma Inv_set : forall cur j r c p x, Inv cur -> nth_error rs j = Some r -> nth_error incs j = Some (c, p) -> Inv (set_nth c x cur).
  Proof.
    intros cur j r c p x [L H] Hr Hi. split; [rewrite set_nth_length; assumption|].
    intros k r' c' p' Hr' Hi'.
    destruct (comp_range j r c p Hr Hi) as (_ & Hc & _).
    destruct (comp_range k r' c' p' Hr' Hi') as (_ & Hc' & _).
    assert (E1 : nth_error cur c = Some (nth c cur 0)) by (apply nth_error_nth'; lia).
    assert (E2 : nth_error r' c = Some (nth c r' 0%nat)).
    { apply nth_error_nth'. rewrite (proj2 WF r' (nth_error_In _ _ Hr')). assumption. }
    rewrite (dot_set_nth c x cur r' _ _ E1 E2).
    pose proof (H k r' c' p' Hr' Hi') as Hk.
    destruct (Nat.eq_dec c c') as [<-|Hne].
    - rewrite set_nth_nth_same by lia. unfold cnt in *. lra.
    - rewrite set_nth_nth_other by congruence.
      destruct (Nat.eq_dec (nth c r' 0%nat) 0) as [Hz|Hz].
      + rewrite Hz, Qn_0. unfold cnt in *. lra.
      + exfalso. apply Hne. apply (proj2 (COMP k r' c' p' Hr' Hi') j r c p Hr Hi). lia.
  Qed.

  Lemma increase_step : forall cur k r c p b, Inv cur -> nth_error rs k = Some r -> nth_error incs k = Some (c, p) ->
    exists x, increase_price_up_to_balance (mkPV r cur None) c p b
      = Ok (mkPV r (set_nth c x cur) (Some (if Qle_bool b (nsm r c p) then STOPPED_AT_ZERO_SUM else STOPPED_AT_AGENT_VALUE)))
      /\ x == fin b r c p.
  Proof.
    intros cur k r c p b HI Hr Hi. destruct (comp_range k r c p Hr Hi) as (Hpos & Hc & En & Hcnt).
    destruct HI as [L H]. pose proof (H k r c p Hr Hi) as Hw.
    assert (E1 : nth_error cur c = Some (nth c cur 0)) by (apply nth_error_nth'; lia).
    unfold increase_price_up_to_balance, price_sum_without_category, get. cbn [pv_recipe pv_prices]. rewrite En, E1. cbn [bind].
    set (w := price_sum (mkPV r cur None) - Qn (nth c r 0%nat) * nth c cur 0).
    assert (Ew : w == wo r c) by exact Hw.
    assert (Eb : Qle_bool b (w + Qn (nth c r 0%nat) * p) = Qle_bool b (nsm r c p)).
    { unfold nsm. apply eq_true_iff_eq. rewrite !Qle_bool_iff. unfold cnt. rewrite Ew. reflexivity. }
    rewrite Eb. unfold fin. destruct (Qle_bool b (nsm r c p)).
    - destruct (Nat.eqb_spec (nth c r 0%nat) 0); [lia|]. eexists. split; [reflexivity|]. rewrite Ew. reflexivity.
    - eexists. split; [reflexivity|reflexivity].
  Qed.

  Definition sts (b : Q) (l : list (list nat)) (li : list increase) : list (option price_status) :=
    map (fun x => Some (if Qle_bool b (nsm (fst x) (fst (snd x)) (snd (snd x))) then STOPPED_AT_ZERO_SUM else STOPPED_AT_AGENT_VALUE)) (combine l li).

  Lemma apply_spec : forall b n cur, Inv cur -> (n <= length rs)%nat ->
    exists final, old_apply (skipn n rs) cur (skipn n incs) b = Ok (final, sts b (skipn n rs) (skipn n incs)) /\ Inv final
      /\ forall c, (nth_error final c = nth_error cur c /\ (forall k p, (n <= k)%nat -> nth_error incs k <> Some (c, p)))
                \/ (exists k r p x, (n <= k)%nat /\ nth_error rs k = Some r /\ nth_error incs k = Some (c, p)
                     /\ nth_error final c = Some x /\ x == fin b r c p).
  Proof.
    intros b n cur HI Hn. remember (length rs - n)%nat as d eqn:Ed. revert n cur HI Hn Ed.
    induction d as [|d IH]; intros n cur HI Hn Ed.
    - rewrite (skipn_all2 rs) by lia. rewrite (skipn_all2 incs) by lia. exists cur. split; [reflexivity|]. split; [assumption|].
      intro c. left. split; [reflexivity|]. intros k p Hk. assert (E : nth_error incs k = None) by (apply nth_error_None; lia). congruence.
    - destruct (nth_error rs n) as [r|] eqn:Er; [|apply nth_error_None in Er; lia].
      destruct (nth_error incs n) as [[c p]|] eqn:Ei; [|apply nth_error_None in Ei; lia].
      assert (S1 : skipn n rs = r :: skipn (S n) rs).
      { clear - Er. revert n Er. induction rs; intros [|n] E; simpl in *; try discriminate; [congruence|]. apply IHl. assumption. }
      assert (S2 : skipn n incs = (c, p) :: skipn (S n) incs).
      { clear - Ei. revert n Ei. induction incs; intros [|n] E; simpl in *; try discriminate; [injection E as E; rewrite E; reflexivity|]. apply IHl. assumption. }
      destruct (increase_step cur n r c p b HI Er Ei) as (x & Ex & Hx).
      pose proof (Inv_set cur n r c p x HI Er Ei) as HI'.
      destruct (IH (S n) (set_nth c x cur) HI' ltac:(lia) ltac:(lia)) as (final & Ef & HIf & Hf).
      exists final. rewrite S1, S2. cbn [old_apply]. rewrite Ex. cbn [bind pv_prices pv_status]. rewrite Ef. cbn [bind fst snd].
      split; [reflexivity|]. split; [assumption|]. intro c'.
      destruct (Hf c') as [[Eq Hno]|(k & r' & p' & x' & Hk & Hrest)].
      + destruct (Nat.eq_dec c' c) as [->|Hne].
        * right. exists n, r, p, x. split; [lia|]. split; [assumption|]. split; [assumption|]. split; [|assumption].
          rewrite Eq. destruct (comp_range n r c p Er Ei) as (_ & Hc & _).
          rewrite (nth_error_nth' _ 0) by (rewrite set_nth_length, (proj1 HI); assumption).
          rewrite set_nth_nth_same; [reflexivity|]. rewrite (proj1 HI). assumption.
        * left. split; [rewrite Eq; apply set_nth_other; congruence|].
          intros k p' Hk. destruct (Nat.eq_dec k n) as [->|]; [|apply Hno; lia].
          intro E. rewrite Ei in E. injection E as E _. congruence.
      + right. exists k, r', p', x'. split; [lia|]. assumption.
  Qed.

  Lemma new_sums_spec : forall n, (n <= length rs)%nat ->
    exists sums, old_new_sums (skipn n rs) ps (skipn n incs) = Ok sums
      /\ (forall k r c p, (n <= k)%nat -> nth_error rs k = Some r -> nth_error incs k = Some (c, p) -> exists y, In y sums /\ y == nsm r c p)
      /\ (forall y, In y sums -> exists k r c p, nth_error rs k = Some r /\ nth_error incs k = Some (c, p) /\ y == nsm r c p).
  Proof.
    intros n Hn. remember (length rs - n)%nat as d eqn:Ed. revert n Hn Ed.
    induction d as [|d IH]; intros n Hn Ed.
    - rewrite (skipn_all2 rs) by lia. rewrite (skipn_all2 incs) by lia. exists []. split; [reflexivity|].
      split; [|intros y []]. intros k r c p Hk Hr. assert (k < length rs)%nat by (apply nth_error_Some; congruence). lia.
    - destruct (nth_error rs n) as [r|] eqn:Er; [|apply nth_error_None in Er; lia].
      destruct (nth_error incs n) as [[c p]|] eqn:Ei; [|apply nth_error_None in Ei; lia].
      assert (S1 : skipn n rs = r :: skipn (S n) rs).
      { clear - Er. revert n Er. induction rs; intros [|n] E; simpl in *; try discriminate; [congruence|]. apply IHl. assumption. }
      assert (S2 : skipn n incs = (c, p) :: skipn (S n) incs).
      { clear - Ei. revert n Ei. induction incs; intros [|n] E; simpl in *; try discriminate; [injection E as E; rewrite E; reflexivity|]. apply IHl. assumption. }
      destruct (IH (S n) ltac:(lia) ltac:(lia)) as (sums & Es & Ha & Hb).
      destruct (comp_range n r c p Er Ei) as (_ & Hc & En & _).
      assert (E1 : nth_error ps c = Some (nth c ps 0)) by (apply nth_error_nth'; assumption).
      rewrite S1, S2. cbn [old_new_sums].
      unfold price_sum_after_increase, price_sum_without_category, get. cbn [pv_recipe pv_prices]. rewrite En, E1. cbn [bind]. rewrite Es. cbn [bind].
      eexists. split; [reflexivity|].
      assert (Ey : price_sum (mkPV r ps None) - Qn (nth c r 0%nat) * nth c ps 0 + Qn (nth c r 0%nat) * p == nsm r c p).
      { unfold nsm. pose proof (proj2 Inv_init n r c p Er Ei) as H. unfold price_sum. cbn [pv_prices pv_recipe]. unfold cnt in *. rewrite H. reflexivity. }
      split.
      + intros k r' c' p' Hk Hr' Hi'. destruct (Nat.eq_dec k n) as [->|].
        * assert (r' = r) by congruence. assert ((c', p') = (c, p)) as E by congruence. injection E as -> ->. subst r'.
          eexists. split; [left; reflexivity|]. assumption.
        * destruct (Ha k r' c' p' ltac:(lia) Hr' Hi') as (y & Hy & Hy'). exists y. split; [right; assumption|assumption].
      + intros y [<-|Hy]; [exists n, r, c, p; auto|]. apply Hb. assumption.
  Qed.

  Lemma min_sum_spec : forall l, old_min_sum l <= 0 /\ (forall y, In y l -> old_min_sum l <= y)
     /\ (old_min_sum l = 0 \/ In (old_min_sum l) l).
  Proof.
    induction l as [|a l (H1 & H2 & H3)]; [split; [unfold old_min_sum; simpl; lra|]; split; [intros y []|left; reflexivity]|].
    change (old_min_sum (a :: l)) with (Qmin2 a (old_min_sum l)). generalize dependent (old_min_sum l). intros m H1 H2 H3.
    unfold Qmin2. destruct (Qle_bool_reflect a m) as [Hle|Hle].
    - split; [lra|]. split; [intros y [<-|Hy]; [lra|specialize (H2 y Hy); lra]|]. right. left. reflexivity.
    - split; [lra|]. split; [intros y [<-|Hy]; [lra|auto]|]. destruct H3; [left|right; right]; assumption.
  Qed.

  (** The sum of a recipe after the call. *)
  Lemma final_sum : forall b final k r c p, Inv final ->
    (forall c, (nth_error final c = nth_error ps c /\ (forall k p, (0 <= k)%nat -> nth_error incs k <> Some (c, p)))
                \/ (exists k r p x, (0 <= k)%nat /\ nth_error rs k = Some r /\ nth_error incs k = Some (c, p)
                     /\ nth_error final c = Some x /\ x == fin b r c p)) ->
    nth_error rs k = Some r -> nth_error incs k = Some (c, p) ->
    exists k' r' p', nth_error rs k' = Some r' /\ nth_error incs k' = Some (c, p')
      /\ nth_error final c = Some (nth c final 0) /\ nth c final 0 == fin b r' c p'
      /\ cnt r' c = cnt r c
      /\ recipe_price r final == (if Qle_bool b (nsm r' c p') then b else nsm r' c p').
  Proof.
    intros b final k r c p HI Hf Hr Hi. destruct (comp_range k r c p Hr Hi) as (Hpos & Hc & En & Hcnt).
    destruct (Hf c) as [[_ Hno]|(k' & r' & p' & x & _ & Hr' & Hi' & Ex & Hx)].
    - exfalso. apply (Hno k p); [lia|assumption].
    - exists k', r', p'. split; [assumption|]. split; [assumption|].
      rewrite (nth_error_nth _ _ 0 Ex). split; [assumption|]. split; [assumption|].
      assert (Ec : cnt r' c = cnt r c).
      { unfold cnt. f_equal. apply (proj2 (COMP k r c p Hr Hi) k' r' c p' Hr' Hi'). assumption. }
      split; [assumption|].
      pose proof (proj2 HI k r c p Hr Hi) as H. rewrite (nth_error_nth _ _ 0 Ex) in H.
      rewrite recipe_price_dot in H. assert (H' : recipe_price r final == wo r c + cnt r c * x) by lra.
      rewrite H', Hx. unfold fin, nsm. destruct (Qle_bool b (wo r' c + cnt r' c * p')).
      + unfold wo. rewrite Ec. field. lra.
      + unfold wo. rewrite Ec. ring.
  Qed.
End Call.

Lemma nth_error_ext_eq : forall A (l l' : list A), (forall j, nth_error l j = nth_error l' j) -> l = l'.
Proof.
  induction l as [|a l IH]; intros [|b l'] H; [reflexivity|specialize (H 0%nat); discriminate|specialize (H 0%nat); discriminate|].
  f_equal; [specialize (H 0%nat); simpl in H; congruence|]. apply IH. intro j. apply (H (S j)).
Qed.

Lemma replaced_set_nth : forall l c x l', (c < length l)%nat -> replaced l c x l' <-> l' = set_nth c x l.
Proof.
  intros l c x l' Hc. split.
  - intros (L & H1 & H2). apply nth_error_ext_eq. intro j. destruct (Nat.eq_dec j c) as [->|Hne].
    + rewrite H1, set_nth_same; auto.
    + rewrite H2 by assumption. symmetry. apply set_nth_other. congruence.
  - intros ->. split; [apply set_nth_length|]. split; [apply set_nth_same; assumption|]. intros j Hj. apply set_nth_other. congruence.
Qed.

Lemma old_increase_spec : forall v incs s,
  well_formed (os_recipes v) (os_prices v) -> common_sum (os_recipes v) (os_prices v) s ->
  length incs = length (os_recipes v) -> compatible (os_recipes v) incs ->
  exists v', old_increase_prices v incs = Ok v' /\ os_recipes v' = os_recipes v
    /\ well_formed (os_recipes v) (os_prices v')
    /\ (forall j, (forall p, ~ In (j, p) incs) -> nth_error (os_prices v') j = nth_error (os_prices v) j)
    /\ exists m, lowest_sum (os_recipes v) (os_prices v) incs m
        /\ (m <= - tolerance -> os_status v' = Some STOPPED_AT_AGENT_VALUE)
        /\ (- tolerance < m -> os_status v' = Some STOPPED_AT_ZERO_SUM)
        /\ (m <= - tolerance \/ m == 0 ->
              common_sum (os_recipes v) (os_prices v') m /\ forall c p, In (c, p) incs -> nth c (os_prices v') 0 <= p)
        /\ (forall r, In r (os_recipes v) -> m <= recipe_price r (os_prices v') <= 0)
        /\ (s <= 0 -> raises (os_prices v) incs -> s <= m /\ forall j, nth j (os_prices v) 0 <= nth j (os_prices v') 0).
Proof.
  intros v incs s WF SUM LEN COMP.
  set (rs := os_recipes v) in *. set (ps := os_prices v) in *.
  destruct (new_sums_spec rs ps incs s WF SUM LEN COMP 0 ltac:(lia)) as (sums & Esums & Hs1 & Hs2). simpl skipn in Esums.
  destruct (min_sum_spec sums) as (Hm0 & Hm1 & Hm2). remember (old_min_sum sums) as m eqn:Em.
  destruct (apply_spec rs ps incs s WF LEN COMP (old_snap m) 0 ps (Inv_init rs ps incs s SUM) ltac:(lia)) as (final & Ea & HI & Hf).
  simpl skipn in Ea.
  destruct (old_map_spec v WF) as (mp & Emap & _).
  unfold old_increase_prices. fold rs ps. rewrite LEN, Nat.eqb_refl. cbn [negb]. rewrite Emap. cbn [bind]. rewrite Esums. cbn [bind].
  rewrite <- Em, Ea. cbn [bind fst snd]. eexists. split; [reflexivity|]. cbn [os_recipes os_prices os_status].
  assert (Hb : (m <= - tolerance /\ old_snap m = m /\ Qeq_bool m 0 = false) \/ (- tolerance < m /\ old_snap m = 0)).
  { unfold old_snap, snap_eps, tolerance in *. destruct (Qlt_bool_reflect (- (1 # 100000000000)) m) as [H|H]; simpl.
    - destruct (Qlt_bool_reflect m (1 # 100000000000)) as [H'|H']; [right; split; [assumption|reflexivity]|].
      exfalso. apply H'. assert (0 < 1 # 100000000000) by reflexivity. lra.
    - left. split; [lra|]. split; [reflexivity|]. apply not_true_iff_false. intro E. apply Qeq_bool_iff in E.
      assert (0 < 1 # 100000000000) by reflexivity. lra. }
  split; [reflexivity|].
  split. { split; [apply WF|]. intros r Hr. rewrite (proj1 HI). apply WF. assumption. }
  split. { intros j Hj. destruct (Hf j) as [[E _]|(k & r & p & x & _ & _ & Hi & _)]; [assumption|]. exfalso. apply (Hj p). apply nth_error_In in Hi. assumption. }
  assert (Hrep : forall k r c p, nth_error rs k = Some r -> nth_error incs k = Some (c, p) ->
            recipe_price r (set_nth c p ps) == nsm ps s r c p).
  { intros k r c p Hr Hi. destruct (comp_range rs ps incs WF LEN COMP k r c p Hr Hi) as (_ & Hc & En & _).
    rewrite <- recipe_price_dot, (dot_set_nth c p ps r _ (nth c ps 0) (nth_error_nth' _ _ Hc) En), recipe_price_dot.
    rewrite (SUM r (nth_error_In _ _ Hr)). unfold nsm, wo, cnt. ring. }
  assert (Hlow : lowest_sum rs ps incs m).
  { split; [assumption|]. split.
    - intros k r c p ps' Hr Hi Hp. destruct (comp_range rs ps incs WF LEN COMP k r c p Hr Hi) as (_ & Hc & _).
      apply (proj1 (replaced_set_nth ps c p ps' Hc)) in Hp. subst ps'. rewrite (Hrep k r c p Hr Hi).
      destruct (Hs1 k r c p ltac:(lia) Hr Hi) as (y & Hy & Ey). rewrite <- Ey. apply Hm1. assumption.
    - destruct Hm2 as [E|Hin]; [left; rewrite E; reflexivity|]. right. destruct (Hs2 m Hin) as (k & r & c & p & Hr & Hi & Ey).
      destruct (comp_range rs ps incs WF LEN COMP k r c p Hr Hi) as (_ & Hc & _).
      exists k, r, c, p, (set_nth c p ps). split; [assumption|]. split; [assumption|].
      split; [apply (proj2 (replaced_set_nth ps c p _ Hc)); reflexivity|]. rewrite (Hrep k r c p Hr Hi). symmetry. assumption. }
  exists m. split; [assumption|].
  split. { intro H. destruct Hb as [(_ & -> & ->)|[H' _]]; [reflexivity|lra]. }
  split. { intro H. destruct Hb as [(H' & _)|[_ ->]]; [lra|reflexivity]. }
  assert (Hnm : forall k r c p, nth_error rs k = Some r -> nth_error incs k = Some (c, p) -> m <= nsm ps s r c p).
  { intros k r c p Hr Hi. destruct (Hs1 k r c p ltac:(lia) Hr Hi) as (y & Hy & Ey). rewrite <- Ey. apply Hm1. assumption. }
  assert (Hidx : forall r, In r rs -> exists k c p, nth_error rs k = Some r /\ nth_error incs k = Some (c, p)).
  { intros r Hr. apply In_nth_error in Hr. destruct Hr as [k Hk]. assert (k < length rs)%nat by (apply nth_error_Some; congruence).
    destruct (nth_error incs k) as [[c p]|] eqn:E; [|apply nth_error_None in E; lia]. exists k, c, p. auto. }
  assert (Hidx' : forall c p, In (c, p) incs -> exists k r, nth_error rs k = Some r /\ nth_error incs k = Some (c, p)).
  { intros c p Hi. apply In_nth_error in Hi. destruct Hi as [k Hk]. assert (k < length incs)%nat by (apply nth_error_Some; congruence).
    destruct (nth_error rs k) as [r|] eqn:E; [|apply nth_error_None in E; lia]. exists k, r. auto. }
  split.
  { intro H. assert (Eb : old_snap m == m) by (destruct Hb as [(_ & -> & _)|[H' ->]]; [reflexivity|destruct H; lra]).
    split.
    - intros r Hr. destruct (Hidx r Hr) as (k & c & p & Hk & Hi).
      destruct (final_sum rs ps incs s WF LEN COMP (old_snap m) final k r c p HI Hf Hk Hi) as (k' & r' & p' & Hk' & Hi' & _ & _ & _ & E).
      rewrite E. pose proof (Hnm k' r' c p' Hk' Hi') as Hn.
      destruct (Qle_bool_reflect (old_snap m) (nsm ps s r' c p')) as [_|Hx]; [assumption|]. exfalso. apply Hx. rewrite Eb. assumption.
    - intros c p Hin. destruct (Hidx' c p Hin) as (k & r & Hk & Hi).
      destruct (final_sum rs ps incs s WF LEN COMP (old_snap m) final k r c p HI Hf Hk Hi) as (k' & r' & p' & Hk' & Hi' & _ & Ex & Ec & E).
      destruct (comp_range rs ps incs WF LEN COMP k r c p Hk Hi) as (_ & Hc & _ & Hcnt).
      pose proof (Hnm k' r' c p' Hk' Hi') as Hn'. pose proof (Hnm k r c p Hk Hi) as Hn.
      rewrite Ex. unfold fin. destruct (Qle_bool_reflect (old_snap m) (nsm ps s r' c p')) as [_|Hx]; [|exfalso; apply Hx; rewrite Eb; assumption].
      unfold nsm, wo in *. rewrite Ec, Eb. apply Qle_shift_div_r; [assumption|]. lra. }
  split.
  { intros r Hr. destruct (Hidx r Hr) as (k & c & p & Hk & Hi).
    destruct (final_sum rs ps incs s WF LEN COMP (old_snap m) final k r c p HI Hf Hk Hi) as (k' & r' & p' & Hk' & Hi' & _ & _ & _ & E).
    rewrite E. pose proof (Hnm k' r' c p' Hk' Hi') as Hn.
    destruct (Qle_bool_reflect (old_snap m) (nsm ps s r' c p')) as [Hx|Hx].
    - destruct Hb as [(_ & -> & _)|[_ ->]]; lra.
    - split; [assumption|]. destruct Hb as [(_ & Eb & _)|[_ Eb]]; rewrite Eb in Hx; [tauto|lra]. }
  intros Hs0 Hra.
  assert (Hsm : s <= m).
  { destruct Hm2 as [->|Hin]; [assumption|]. destruct (Hs2 m Hin) as (k & r & c & p & Hr & Hi & Ey).
    destruct (comp_range rs ps incs WF LEN COMP k r c p Hr Hi) as (_ & Hc & _ & Hcnt).
    pose proof (Hra c p (nth_error_In _ _ Hi)) as Hp. rewrite Ey. unfold nsm, wo. nra. }
  split; [assumption|]. intro j.
  destruct (Hf j) as [[E _]|(k & r & p & x & _ & Hk & Hi & Ex & Hx)].
  - assert (nth j final 0 = nth j ps 0) as ->; [|lra].
    destruct (nth_error ps j) as [y|] eqn:Ey.
    + rewrite (nth_error_nth _ _ 0 E), (nth_error_nth _ _ 0 Ey). reflexivity.
    + rewrite !nth_overflow; [reflexivity| |]; apply nth_error_None; assumption.
  - rewrite (nth_error_nth _ _ 0 Ex), Hx.
    destruct (comp_range rs ps incs WF LEN COMP k r j p Hk Hi) as (_ & Hc & _ & Hcnt).
    unfold fin. destruct (Qle_bool_reflect (old_snap m) (nsm ps s r j p)) as [_|_]; [|apply Hra; apply nth_error_In in Hi; assumption].
    apply Qle_shift_div_l; [assumption|]. unfold wo.
    assert (s <= old_snap m) by (destruct Hb as [(_ & -> & _)|[_ ->]]; assumption). lra.
Qed.

(** ** Histories *)

Lemma old_history_app : forall l1 v l2, old_history v (l1 ++ l2) = bind (old_history v l1) (fun v' => old_history v' l2).
Proof.
  induction l1 as [|a l1 IH]; intros v l2; [reflexivity|]. simpl. destruct (old_increase_prices v a); simpl; auto.
Qed.

Lemma old_history_spec : forall calls v s,
  well_formed (os_recipes v) (os_prices v) -> common_sum (os_recipes v) (os_prices v) s -> s <= 0 ->
  (forall incs, In incs calls -> length incs = length (os_recipes v) /\ compatible (os_recipes v) incs) ->
  (forall l1 incs l2 v1, calls = l1 ++ incs :: l2 -> old_history v l1 = Ok v1 ->
     os_status v1 <> Some STOPPED_AT_ZERO_SUM \/ l1 = []) ->
  exists v', old_history v calls = Ok v' /\ os_recipes v' = os_recipes v /\ well_formed (os_recipes v) (os_prices v')
    /\ (calls <> [] -> os_status v' = Some STOPPED_AT_AGENT_VALUE \/ os_status v' = Some STOPPED_AT_ZERO_SUM)
    /\ (os_status v' = Some STOPPED_AT_AGENT_VALUE -> calls <> [] -> exists s', s' <= - tolerance /\ common_sum (os_recipes v) (os_prices v') s')
    /\ (os_status v' = Some STOPPED_AT_ZERO_SUM -> calls <> [] ->
         forall r, In r (os_recipes v) -> - tolerance < recipe_price r (os_prices v') <= 0).
Proof.
  induction calls as [|incs calls IH] using rev_ind; intros v s WF SUM S0 HC HST.
  - exists v. simpl. split; [reflexivity|]. split; [reflexivity|]. split; [assumption|]. split; [congruence|]. split; congruence.
  - destruct (IH v s WF SUM S0) as (v1 & E1 & ER & WF1 & A1 & B1 & C1).
    { intros i Hi. apply HC. apply in_or_app. auto. }
    { intros l1 i l2 v1 E. apply (HST l1 i (l2 ++ [incs]) v1). rewrite E. rewrite <- app_assoc. reflexivity. }
    assert (Hex : exists s1, s1 <= 0 /\ common_sum (os_recipes v1) (os_prices v1) s1).
    { destruct calls as [|i0 calls0] eqn:Ec.
      - simpl in E1. injection E1 as <-. exists s. auto.
      - destruct (HST (i0 :: calls0) incs [] v1 eq_refl E1) as [Hz|]; [|congruence].
        destruct (A1 ltac:(congruence)) as [Ha|]; [|congruence]. destruct (B1 Ha ltac:(congruence)) as (s1 & Hs & Hc).
        exists s1. rewrite ER. split; [|assumption]. unfold tolerance in Hs. assert (0 < 1 # 100000000000) by reflexivity. lra. }
    destruct Hex as (s1 & Hs1 & SUM1).
    destruct (HC incs) as [L C]; [apply in_or_app; right; left; reflexivity|].
    destruct (old_increase_spec v1 incs s1) as (v2 & E2 & ER2 & WF2 & _ & m & Hlow & Hag & Hz & Hex & Hall & _); try (rewrite ER; assumption).
    { assumption. }
    exists v2. rewrite old_history_app, E1. simpl. rewrite E2. simpl. rewrite ER2, ER in *.
    split; [reflexivity|]. split; [reflexivity|]. split; [assumption|].
    destruct (Qlt_le_dec (- tolerance) m) as [Hm|Hm].
    + specialize (Hz Hm). rewrite Hz. split; [auto|]. split; [discriminate|]. intros _ _ r Hr. specialize (Hall r Hr). lra.
    + specialize (Hag Hm). rewrite Hag. split; [auto|]. split; [|discriminate]. intros _ _. exists m. split; [assumption|]. apply Hex. auto.
Qed.
