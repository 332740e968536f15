(** * The lemonade industry (C108) *)

From Coq Require Import String List Arith Lia ZArith QArith Lqa Permutation Sorted.
From Verif Require Import Base Model_Agents Model_Prices Model_Trade Model_Market Model_TradeReduction Model_RecipeTree Model_Demos
  Spec_Market Spec_Ascending Spec_Demos Proof_Market Proof_Trade Proof_Deals Proof_Statics Proof_Tree2 Proof_TA4 Proof_Two.
Import ListNotations.
Open Scope Q_scope.

(** ** Lists *)

Lemma zip_nth : forall X Y t, nth_error (zip_add X Y) t
  = match nth_error X t, nth_error Y t with Some x, Some y => Some (x + y) | _, _ => None end.
Proof.
  induction X as [|x X IH]; intros [|y Y] [|t]; cbn [zip_add nth_error]; try reflexivity.
  - destruct (nth_error X t); reflexivity.
  - apply IH.
Qed.

Lemma nth_next : forall M k l, next_value M k l = match nth_error l k with Some x => x | None => - M end.
Proof.
  intros. unfold next_value. destruct (nth_error l k) as [x|] eqn:E; [apply nth_error_nth; assumption|].
  apply nth_overflow. apply nth_error_None. assumption.
Qed.

Lemma desc_step : forall l j x y, desc l -> nth_error l j = Some x -> nth_error l (S j) = Some y -> y <= x.
Proof.
  intros l j x y H Hx Hy. assert (L : (S j < length l)%nat) by (apply nth_error_Some; congruence).
  assert (X := desc_nth l 0 j (S j) H (Nat.le_succ_diag_r j) L).
  rewrite (nth_error_nth _ _ 0 Hx), (nth_error_nth _ _ 0 Hy) in X. exact X.
Qed.

Lemma worth_eq : forall z a b, a == b -> (worth_doing z a <-> worth_doing z b).
Proof. intros [|] a b H; simpl; rewrite H; tauto. Qed.

Lemma triples_pairs : forall z A B C k, profitable_triples z A B C k -> profitable_pairs z (zip_add A B) C k.
Proof.
  intros z A B C k (H1 & H2 & H3 & H4). split; [rewrite zip_add_length; lia|]. split; [assumption|].
  intros t a c Ha Hc. rewrite zip_nth in Ha. destruct (nth_error A t) as [x|] eqn:Ex; [|discriminate].
  destruct (nth_error B t) as [y|] eqn:Ey; [|discriminate]. inversion Ha; subst a. apply H4; assumption.
Qed.

Lemma pairs_swap : forall z A B k, profitable_pairs z A B k -> profitable_pairs z B A k.
Proof.
  intros z A B k (H1 & H2 & H3). split; [assumption|]. split; [assumption|]. intros t b a Hb Ha.
  rewrite (H3 t a b Ha Hb). apply worth_eq. ring.
Qed.

Lemma triples_perm : forall z A B C k, profitable_triples z A B C k -> profitable_triples z A C B k /\ profitable_triples z B C A k
  /\ profitable_triples z B A C k /\ profitable_triples z C A B k /\ profitable_triples z C B A k.
Proof.
  intros z A B C k (H1 & H2 & H3 & H4).
  repeat match goal with |- _ /\ _ => split | |- profitable_triples _ _ _ _ _ => unfold profitable_triples end; try assumption.
  all: intros t x y w Hx Hy Hw.
  - rewrite (H4 t x w y) by assumption. apply worth_eq. ring.
  - rewrite (H4 t w x y) by assumption. apply worth_eq. ring.
  - rewrite (H4 t y x w) by assumption. apply worth_eq. ring.
  - rewrite (H4 t y w x) by assumption. apply worth_eq. ring.
  - rewrite (H4 t w y x) by assumption. apply worth_eq. ring.
Qed.

(** ** Three categories *)

Lemma gain_three : forall a b c t x y w, nth_error (cvalues a) t = Some x -> nth_error (cvalues b) t = Some y ->
  nth_error (cvalues c) t = Some w -> ps_gain [a; b; c] [1%nat; 1%nat; 1%nat] t == x + y + w.
Proof.
  intros a b c t x y w Hx Hy Hw. rewrite ps_gain_alt. cbn [map2].
  rewrite (block_one _ _ _ Hx), (block_one _ _ _ Hy), (block_one _ _ _ Hw). simpl. ring.
Qed.

Lemma enough_three : forall a b c n, enough n [a; b; c] [1%nat; 1%nat; 1%nat]
  <-> (n <= csize a)%nat /\ (n <= csize b)%nat /\ (n <= csize c)%nat.
Proof.
  intros a b c n. split.
  - intros H. split; [|split]; [assert (X := H 0%nat a 1%nat eq_refl eq_refl)|assert (X := H 1%nat b 1%nat eq_refl eq_refl)
      |assert (X := H 2%nat c 1%nat eq_refl eq_refl)]; lia.
  - intros (H1 & H2 & H3) [|[|[|i]]] d r Hc Hr; simpl in *; try (inversion Hc; inversion Hr; subst; lia).
    destruct i; discriminate.
Qed.

Lemma stops_triples : forall cap a b c k z, desc (cvalues a) -> desc (cvalues b) -> desc (cvalues c) ->
  cap_suffices cap [a; b; c] [1%nat; 1%nat; 1%nat] ->
  stops_at cap k [a; b; c] [1%nat; 1%nat; 1%nat] z -> profitable_triples z (cvalues a) (cvalues b) (cvalues c) k.
Proof.
  intros cap a b c k z Ha Hb Hc Hcap Hst.
  assert (Hs : sorted_market [a; b; c]) by (repeat constructor; assumption).
  assert (HS := Hst). destruct Hst as (S1 & S2 & S3 & S4). apply enough_three in S2. destruct S2 as (S2 & S2' & S2'').
  split; [exact S2|]. split; [exact S2'|]. split; [exact S2''|]. intros t x y w Hx Hy Hw. rewrite worth_acceptable. split.
  - intros Ht. eapply acceptable_proper; [|apply S3; exact Ht]. apply gain_three; assumption.
  - intros Hwd. destruct (le_lt_dec k t) as [L|L]; [exfalso|assumption].
    apply (later_unacceptable cap k _ _ z Hs Hcap HS t L).
    + apply enough_three. unfold csize. split; [|split]; apply nth_error_Some; congruence.
    + eapply acceptable_proper; [|exact Hwd]. symmetry. apply gain_three; assumption.
Qed.

Lemma triples_gain : forall a b c n, (n <= csize a)%nat -> (n <= csize b)%nat -> (n <= csize c)%nat ->
  top_gain [a; b; c] [1%nat; 1%nat; 1%nat] n
  == Qsum (firstn n (cvalues a)) + Qsum (firstn n (cvalues b)) + Qsum (firstn n (cvalues c)).
Proof. intros. rewrite top_gain_alt. cbn [map2]. rewrite !Nat.mul_1_r. simpl. ring. Qed.

Lemma pairs_gain : forall a b n, top_gain [a; b] [1%nat; 1%nat] n == Qsum (firstn n (cvalues a)) + Qsum (firstn n (cvalues b)).
Proof. intros. rewrite top_gain_alt. cbn [map2]. rewrite !Nat.mul_1_r. simpl. ring. Qed.

Lemma zip_firstn_gain : forall n A B, (n <= length A)%nat -> (n <= length B)%nat ->
  Qsum (firstn n (zip_add A B)) == Qsum (firstn n A) + Qsum (firstn n B).
Proof.
  induction n as [|n IH]; intros [|a A] [|b B] H1 H2; simpl in H1, H2; try lia; cbn [firstn zip_add]; try (simpl; ring).
  rewrite !Qsum_cons, IH by lia. ring.
Qed.

(** ** The optimal trade of the industry and of the sub-markets *)

Lemma csize_new : forall n A, desc A -> csize (new_category n A) = length A.
Proof. intros n A H. unfold csize, new_category. cbn [cvalues]. rewrite sort_desc_id by assumption. reflexivity. Qed.

(** The optimum of a two-sided market with sorted categories. *)
Lemma optimal_two : forall cap n1 n2 A B z k D R, desc A -> desc B -> (Nat.min (length A) (length B) <= cap)%nat ->
  profitable_pairs z A B k -> optimal_trade cap [new_category n1 A; new_category n2 B] [1%nat; 1%nat] z = Ok (D, R) ->
  length D = k /\ mt_gain_from_trade D == Qsum (firstn k A) + Qsum (firstn k B).
Proof.
  intros cap n1 n2 A B z k D R HA HB Hcap Hp H.
  destruct (optimal_trade_shape _ _ _ _ _ _ H) as (k' & Hst & HL & HG).
  assert (E : clone_market [new_category n1 A; new_category n2 B] = [new_category n1 A; new_category n2 B]).
  { apply clone_id. repeat constructor; apply sort_desc_desc. }
  rewrite E in Hst, HG. clear E.
  apply stops_pairs in Hst; [|apply sort_desc_desc|apply sort_desc_desc|].
  - cbn [new_category cvalues] in Hst. rewrite !sort_desc_id in Hst by assumption.
    assert (X := pairs_unique _ _ _ _ _ Hp Hst). split; [congruence|]. rewrite X. rewrite HG, pairs_gain.
    cbn [new_category cvalues]. rewrite !sort_desc_id by assumption. reflexivity.
  - destruct (Nat.min_dec (length A) (length B)) as [X|X].
    + exists 0%nat, (new_category n1 A), 1%nat. rewrite csize_new by assumption. do 2 (split; [reflexivity|]). lia.
    + exists 1%nat, (new_category n2 B), 1%nat. rewrite csize_new by assumption. do 2 (split; [reflexivity|]). lia.
Qed.

Lemma industry_optimal : forall cap P S D z deals R, desc P -> desc S -> desc D ->
  (Nat.min (length P) (Nat.min (length S) (length D)) <= cap)%nat ->
  optimal_trade cap (lemonade_industry P S D) [1; 1; 1]%nat z = Ok (deals, R) ->
  exists k, profitable_triples z P S D k /\ length deals = k
    /\ mt_gain_from_trade deals == Qsum (firstn k P) + Qsum (firstn k S) + Qsum (firstn k D).
Proof.
  intros cap P S D z deals R HP HS HD Hcap H.
  destruct (optimal_trade_shape _ _ _ _ _ _ H) as (k & Hst & HL & HG). exists k.
  assert (E : clone_market (lemonade_industry P S D) = lemonade_industry P S D).
  { apply clone_id. repeat constructor; apply sort_desc_desc. }
  rewrite E in Hst, HG. unfold lemonade_industry in Hst, HG.
  assert (T : profitable_triples z S P D k).
  { apply stops_triples in Hst; [|apply sort_desc_desc|apply sort_desc_desc|apply sort_desc_desc|].
    - cbn [new_category cvalues] in Hst. rewrite !sort_desc_id in Hst by assumption. exact Hst.
    - assert (X : (length P <= cap \/ length S <= cap \/ length D <= cap)%nat) by lia. destruct X as [X|[X|X]].
      + exists 1%nat, (new_category "picker" P), 1%nat. rewrite csize_new by assumption. do 2 (split; [reflexivity|]). lia.
      + exists 0%nat, (new_category "squeezer" S), 1%nat. rewrite csize_new by assumption. do 2 (split; [reflexivity|]). lia.
      + exists 2%nat, (new_category "drinker" D), 1%nat. rewrite csize_new by assumption. do 2 (split; [reflexivity|]). lia. }
  destruct (triples_perm _ _ _ _ _ T) as (_ & _ & T3 & _).
  split; [exact T3|]. split; [assumption|]. rewrite HG, triples_gain.
  - cbn [new_category cvalues]. rewrite !sort_desc_id by assumption. ring.
  - rewrite csize_new by assumption. apply T.
  - rewrite csize_new by assumption. apply T.
  - rewrite csize_new by assumption. apply T.
Qed.

Theorem submarkets_optimal : forall cap bf P S D z deals R dl Rl ds Rs dj Rj, desc P -> desc S -> desc D ->
  (Nat.min (length P) (Nat.min (length S) (length D)) <= cap)%nat ->
  optimal_trade cap (lemonade_industry P S D) [1; 1; 1]%nat z = Ok (deals, R) ->
  optimal_trade cap (lemon_submarket bf P S D) [1; 1]%nat z = Ok (dl, Rl) ->
  optimal_trade cap (squeezing_submarket bf P S D) [1; 1]%nat z = Ok (ds, Rs) ->
  optimal_trade cap (juice_submarket bf P S D) [1; 1]%nat z = Ok (dj, Rj) ->
  (length dl = length deals /\ mt_gain_from_trade dl == mt_gain_from_trade deals)
  /\ (length ds = length deals /\ mt_gain_from_trade ds == mt_gain_from_trade deals)
  /\ (length dj = length deals /\ mt_gain_from_trade dj == mt_gain_from_trade deals).
Proof.
  intros cap bf P S D z deals R dl Rl ds Rs dj Rj HP HS HD Hcap H Hl Hs Hj.
  destruct (industry_optimal _ _ _ _ _ _ _ HP HS HD Hcap H) as (k & T & HL & HG).
  destruct (triples_perm _ _ _ _ _ T) as (T1 & T2 & T3 & T4 & T5).
  assert (T' := T). destruct T' as (L1 & L2 & L3 & _).
  assert (Two : forall n1 n2 A B C dd RR, desc A -> desc B -> desc C ->
     (Nat.min (length A) (Nat.min (length B) (length C)) <= cap)%nat ->
     (k <= length A)%nat -> (k <= length B)%nat ->
     profitable_triples z A B C k ->
     optimal_trade cap [new_category n1 (zip_add A B); new_category n2 C] [1; 1]%nat z = Ok (dd, RR) 
     \/ optimal_trade cap [new_category n2 C; new_category n1 (zip_add A B)] [1; 1]%nat z = Ok (dd, RR) ->
     length dd = k /\ mt_gain_from_trade dd == Qsum (firstn k A) + Qsum (firstn k B) + Qsum (firstn k C)).
  { intros n1 n2 A B C dd RR HA HB HC Hc LA LB HT [O|O].
    - destruct (optimal_two cap n1 n2 (zip_add A B) C z k dd RR) as [X Y]; try assumption.
      + apply zip_add_desc; assumption.
      + rewrite zip_add_length. lia.
      + apply triples_pairs. assumption.
      + split; [assumption|]. rewrite Y, zip_firstn_gain by assumption. reflexivity.
    - destruct (optimal_two cap n2 n1 C (zip_add A B) z k dd RR) as [X Y]; try assumption.
      + apply zip_add_desc; assumption.
      + rewrite zip_add_length. lia.
      + apply pairs_swap, triples_pairs. assumption.
      + split; [assumption|]. rewrite Y, zip_firstn_gain by assumption. ring. }
  destruct (Two "virtual-lemon-buyer" "picker" D S P dl Rl)%string as [Xl Yl]; try assumption; try lia.
  { destruct bf; [left|right]; exact Hl. }
  destruct (Two "virtual-squeezing-buyer" "squeezer" D P S ds Rs)%string as [Xs Ys]; try assumption; try lia.
  { destruct bf; [left|right]; exact Hs. }
  destruct (Two "virtual-juice-seller" "drinker" P S D dj Rj)%string as [Xj Yj]; try assumption; try lia.
  { destruct bf; [right|left]; exact Hj. }
  split; [|split]; (split; [congruence|]); rewrite HG; [rewrite Yl|rewrite Ys|rewrite Yj]; ring.
Qed.

(** ** The auctions *)

(** One sub-auction, category by category: the price of the second category and the number of deals. *)
Lemma sub_auction : forall M cap n1 n2 A B z j t, desc A -> desc B ->
  (Nat.min (length A) (length B) <= cap)%nat -> (forall v, In v A \/ In v B -> - M <= v) ->
  profitable_pairs z A B (S j) ->
  trade_reduction_M M cap [new_category n1 A; new_category n2 B] [1; 1]%nat z = Ok t ->
  exists pa pb, tprices t = Some [pa; pb] /\ pa == - pb
    /\ ((worth_doing z (nth j A 0 + next_value M (S j) B) /\ num_of_deals t = S j /\ pb == next_value M (S j) B)
        \/ (~ worth_doing z (nth j A 0 + next_value M (S j) B) /\ num_of_deals t = j /\ pa == nth j A 0)).
Proof.
  intros M cap n1 n2 A B z j t HA HB Hcap Hv Hp Ht.
  assert (EA : sort_desc (cvalues (new_category n1 A)) = A).
  { cbn [new_category cvalues]. rewrite (sort_desc_id A HA). apply sort_desc_id. assumption. }
  assert (EB : sort_desc (cvalues (new_category n2 B)) = B).
  { cbn [new_category cvalues]. rewrite (sort_desc_id B HB). apply sort_desc_id. assumption. }
  destruct (tr_two_sided M cap (new_category n1 A) (new_category n2 B) z (S j) t) as [_ X].
  - destruct (Nat.min_dec (length A) (length B)) as [X|X].
    + exists 0%nat, (new_category n1 A), 1%nat. rewrite csize_new by assumption. do 2 (split; [reflexivity|]). lia.
    + exists 1%nat, (new_category n2 B), 1%nat. rewrite csize_new by assumption. do 2 (split; [reflexivity|]). lia.
  - intros c v [<-|[<-|[]]] Hin; cbn [new_category cvalues] in Hin; rewrite sort_desc_id in Hin by assumption; auto.
  - rewrite EA, EB. assumption.
  - assumption.
  - specialize (X j eq_refl). cbv zeta in X. rewrite EA, EB in X.
    destruct X as (ta & tb & pa & pb & _ & HP & _ & _ & _ & E & Hy & Hn). exists pa, pb. split; [assumption|]. split; [assumption|].
    assert (Dc : worth_doing z (nth j A 0 + next_value M (S j) B) \/ ~ worth_doing z (nth j A 0 + next_value M (S j) B)).
    { rewrite worth_acceptable. destruct (Proof_TR2.accepts z (nth j A 0 + next_value M (S j) B)) eqn:Ea.
      - left. apply Proof_TR2.accepts_iff. assumption.
      - right. intros Q. apply Proof_TR2.accepts_iff in Q. congruence. }
    destruct Dc as [Dc|Dc]; [left|right]; (split; [assumption|]); [apply Hy in Dc|apply Hn in Dc]; tauto.
Qed.

Lemma triples_exist : forall P Sq D z, desc P -> desc Sq -> desc D -> exists k, profitable_triples z P Sq D k.
Proof.
  intros P Sq D z HP HS HD.
  destruct (optimal_trade_spec (length P) (lemonade_industry P Sq D) [1; 1; 1]%nat z eq_refl) as (k & E & _).
  assert (L : (Nat.min (length P) (Nat.min (length Sq) (length D)) <= length P)%nat) by lia.
  destruct (industry_optimal _ _ _ _ _ _ _ HP HS HD L E) as (k' & T & _). exists k'. assumption.
Qed.

Lemma no_auction : forall M cap n1 n2 A B z t, desc A -> desc B ->
  (Nat.min (length A) (length B) <= cap)%nat -> (forall v, In v A \/ In v B -> - M <= v) ->
  profitable_pairs z A B 0 ->
  trade_reduction_M M cap [new_category n1 A; new_category n2 B] [1; 1]%nat z = Ok t -> num_of_deals t = 0%nat.
Proof.
  intros M cap n1 n2 A B z t HA HB Hcap Hv Hp Ht.
  assert (EA : sort_desc (cvalues (new_category n1 A)) = A).
  { cbn [new_category cvalues]. rewrite (sort_desc_id A HA). apply sort_desc_id. assumption. }
  assert (EB : sort_desc (cvalues (new_category n2 B)) = B).
  { cbn [new_category cvalues]. rewrite (sort_desc_id B HB). apply sort_desc_id. assumption. }
  destruct (tr_two_sided M cap (new_category n1 A) (new_category n2 B) z 0 t) as [X _]; [| | |assumption|].
  - destruct (Nat.min_dec (length A) (length B)) as [X|X].
    + exists 0%nat, (new_category n1 A), 1%nat. rewrite csize_new by assumption. do 2 (split; [reflexivity|]). lia.
    + exists 1%nat, (new_category n2 B), 1%nat. rewrite csize_new by assumption. do 2 (split; [reflexivity|]). lia.
  - intros c v [<-|[<-|[]]] Hin; cbn [new_category cvalues] in Hin; rewrite sort_desc_id in Hin by assumption; auto.
  - rewrite EA, EB. assumption.
  - apply X. reflexivity.
Qed.

Lemma money_zero : forall p, money 0 p == 0.
Proof. intros. unfold money. simpl. ring. Qed.

Lemma money_S : forall n p, money (S n) p == money n p + p.
Proof. intros n p. unfold money. rewrite Nat2Z.inj_succ, <- Z.add_1_r, inject_Z_plus. simpl (inject_Z 1). ring. Qed.

Lemma money_sum : forall n a b c, money n a + money n b + money n c == money n (a + b + c).
Proof. intros. unfold money. ring. Qed.

Lemma money_sign : forall n p, 0 <= p -> 0 <= money n p.
Proof. intros n p H. unfold money. apply Qmult_le_0_compat; [|assumption]. change 0 with (inject_Z 0). rewrite <- Zle_Qle. lia. Qed.

Lemma money_neg : forall n p, p <= 0 -> money n p <= 0.
Proof. intros n p H. assert (X := money_sign n (- p)). unfold money in *. assert (Y : 0 <= - p) by lra. apply X in Y. lra. Qed.

Lemma money_ext : forall n p q, p == q -> money n p == money n q.
Proof. intros n p q H. unfold money. rewrite H. reflexivity. Qed.

Section Industry.

Variables (M : Q) (cap : nat) (P Sq D : list Q) (z : bool).
Hypothesis HM : 0 < M.
Hypothesis HP : desc P.
Hypothesis HS : desc Sq.
Hypothesis HD : desc D.
Hypothesis Hcap : (Nat.min (length P) (Nat.min (length Sq) (length D)) <= cap)%nat.
Hypothesis HrP : forall v, In v P -> - M <= 2 * v /\ v <= 0.
Hypothesis HrS : forall v, In v Sq -> - M <= 2 * v /\ v <= 0.
Hypothesis HrD : forall v, In v D -> - M <= 2 * v /\ 2 * v <= M.

Lemma in_zip : forall A B v, (forall a, In a A -> - M <= 2 * a) -> (forall b, In b B -> - M <= 2 * b) ->
  In v (zip_add A B) -> - M <= v.
Proof.
  intros A B v HA HB H. apply zip_add_In in H. destruct H as (x & y & Hx & Hy & ->). apply HA in Hx. apply HB in Hy. lra.
Qed.

Ltac rng := intros v [Hv|Hv]; first
  [ eapply in_zip; [| |exact Hv]; intros w Hw; (apply HrP in Hw || apply HrS in Hw || apply HrD in Hw); lra
  | (apply HrP in Hv || apply HrS in Hv || apply HrD in Hv); lra ].

Lemma next_zip : forall A B j, next_value M (S j) (zip_add A B)
  = match nth_error A (S j), nth_error B (S j) with Some x, Some y => x + y | _, _ => - M end.
Proof. intros. rewrite nth_next, zip_nth. destruct (nth_error A (S j)), (nth_error B (S j)); reflexivity. Qed.

(** The values around the last profitable triple. *)
Lemma around : forall j, profitable_triples z P Sq D (S j) -> exists p s d,
  nth_error P j = Some p /\ nth_error Sq j = Some s /\ nth_error D j = Some d /\ worth_doing z (p + s + d)
  /\ (- M <= 2 * p /\ p <= 0) /\ (- M <= 2 * s /\ s <= 0) /\ (- M <= 2 * d /\ 2 * d <= M)
  /\ (forall p', nth_error P (S j) = Some p' -> p' <= p /\ - M <= 2 * p' /\ p' <= 0)
  /\ (forall s', nth_error Sq (S j) = Some s' -> s' <= s /\ - M <= 2 * s' /\ s' <= 0)
  /\ (forall d', nth_error D (S j) = Some d' -> d' <= d /\ - M <= 2 * d' /\ 2 * d' <= M)
  /\ (forall p' s' d', nth_error P (S j) = Some p' -> nth_error Sq (S j) = Some s' -> nth_error D (S j) = Some d' ->
        ~ worth_doing z (p' + s' + d')).
Proof.
  intros j (L1 & L2 & L3 & H).
  destruct (nth_error P j) as [p|] eqn:Ep; [|apply nth_error_None in Ep; lia].
  destruct (nth_error Sq j) as [s|] eqn:Es; [|apply nth_error_None in Es; lia].
  destruct (nth_error D j) as [d|] eqn:Ed; [|apply nth_error_None in Ed; lia].
  exists p, s, d. split; [reflexivity|]. split; [reflexivity|]. split; [reflexivity|].
  split; [apply (H j p s d Ep Es Ed); lia|].
  split; [apply HrP; eapply nth_error_In; eassumption|].
  split; [apply HrS; eapply nth_error_In; eassumption|].
  split; [apply HrD; eapply nth_error_In; eassumption|].
  split. { intros p' Hp'. split; [eapply desc_step; [exact HP|eassumption|eassumption]|apply HrP; eapply nth_error_In; eassumption]. }
  split. { intros p' Hp'. split; [eapply desc_step; [exact HS|eassumption|eassumption]|apply HrS; eapply nth_error_In; eassumption]. }
  split. { intros p' Hp'. split; [eapply desc_step; [exact HD|eassumption|eassumption]|apply HrD; eapply nth_error_In; eassumption]. }
  intros p' s' d' X Y Z W. apply (H (S j) p' s' d' X Y Z) in W. lia.
Qed.

Lemma worth_le : forall a b, a <= b -> worth_doing z a -> worth_doing z b.
Proof. intros a b H. destruct z; simpl; lra. Qed.

Lemma worth_pos : forall a, worth_doing z a -> 0 <= a.
Proof. intros a. destruct z; simpl; lra. Qed.

Lemma not_worth : forall a, ~ worth_doing z a -> a <= 0.
Proof. intros a H. destruct (Qlt_le_dec 0 a) as [X|X]; [|assumption]. exfalso. apply H. destruct z; simpl; lra. Qed.

Theorem buyers_first : forall tl ts tj,
  trade_reduction_M M cap (lemon_submarket true P Sq D) [1; 1]%nat z = Ok tl ->
  trade_reduction_M M cap (squeezing_submarket true P Sq D) [1; 1]%nat z = Ok ts ->
  trade_reduction_M M cap (juice_submarket true P Sq D) [1; 1]%nat z = Ok tj ->
  (num_of_deals tj <= num_of_deals tl)%nat /\ (num_of_deals tj <= num_of_deals ts)%nat
  /\ paid tj 0 + paid tl 1 + paid ts 1 <= 0.
Proof.
  intros tl ts tj Hl Hs Hj.
  destruct (triples_exist P Sq D z HP HS HD) as (k & T).
  destruct (triples_perm _ _ _ _ _ T) as (T1 & T2 & T3 & T4 & T5).
  destruct k as [|j].
  { assert (Nl : num_of_deals tl = 0%nat).
    { eapply (no_auction M cap _ _ (zip_add D Sq) P z); try eassumption; [apply zip_add_desc; assumption|rewrite zip_add_length; lia|rng|apply triples_pairs; assumption]. }
    assert (Ns : num_of_deals ts = 0%nat).
    { eapply (no_auction M cap _ _ (zip_add D P) Sq z); try eassumption; [apply zip_add_desc; assumption|rewrite zip_add_length; lia|rng|apply triples_pairs; assumption]. }
    assert (Nj : num_of_deals tj = 0%nat).
    { eapply (no_auction M cap _ _ D (zip_add P Sq) z); try eassumption; [apply zip_add_desc; assumption|rewrite zip_add_length; lia|rng|apply pairs_swap, triples_pairs; assumption]. }
    split; [lia|]. split; [lia|]. unfold paid. rewrite Nl, Ns, Nj.
    destruct (tprices tl), (tprices ts), (tprices tj); rewrite ?money_zero; lra. }
  destruct (sub_auction M cap "virtual-lemon-buyer" "picker" (zip_add D Sq) P z j tl) as (la & lb & El & Bl & Cl); try assumption;
    [apply zip_add_desc; assumption|rewrite zip_add_length; lia|rng|apply triples_pairs; assumption|].
  destruct (sub_auction M cap "virtual-squeezing-buyer" "squeezer" (zip_add D P) Sq z j ts) as (sa & sb & Es & Bs & Cs); try assumption;
    [apply zip_add_desc; assumption|rewrite zip_add_length; lia|rng|apply triples_pairs; assumption|].
  destruct (sub_auction M cap "drinker" "virtual-juice-seller" D (zip_add P Sq) z j tj) as (ja & jb & Ej & Bj & Cj); try assumption;
    [apply zip_add_desc; assumption|rewrite zip_add_length; lia|rng|apply pairs_swap, triples_pairs; assumption|].
  destruct (around j T) as (p & s & d & Ep & Es' & Ed & W & Rp & Rs & Rd & Np & Ns & Nd & NW).
  unfold paid. rewrite El, Es, Ej. cbn [nth].
  rewrite (nth_error_nth (zip_add D Sq) j 0 (x := d + s)) in Cl by (rewrite zip_nth, Ed, Es'; reflexivity).
  rewrite (nth_error_nth (zip_add D P) j 0 (x := d + p)) in Cs by (rewrite zip_nth, Ed, Ep; reflexivity).
  rewrite (nth_error_nth D j 0 Ed) in Cj.
  rewrite nth_next in Cl, Cs. rewrite next_zip in Cj. clear T T1 T2 T3 T4 T5 Hl Hs Hj El Es Ej.
  assert (W0 := worth_pos _ W).
  destruct Cj as [(Wj & Nj & Pj)|(Wj & Nj & Pj)]; rewrite Nj.
  - (* the juice auction keeps all deals *)
    destruct (nth_error P (S j)) as [p'|] eqn:Ep2; [|apply worth_pos in Wj; lra].
    destruct (nth_error Sq (S j)) as [s'|] eqn:Es2; [|apply worth_pos in Wj; lra].
    specialize (Np p' eq_refl). specialize (Ns s' eq_refl).
    destruct Cl as [(Wl & Nl & Pl)|(Wl & _)]; [|exfalso; apply Wl; eapply worth_le; [|exact Wj]; lra].
    destruct Cs as [(Ws & Ns' & Ps)|(Ws & _)]; [|exfalso; apply Ws; eapply worth_le; [|exact Wj]; lra].
    rewrite Nl, Ns'. split; [lia|]. split; [lia|]. rewrite money_sum. apply money_neg. lra.
  - assert (X : ja + lb + sb <= 0 /\ lb <= 0 /\ sb <= 0 /\ (j <= num_of_deals tl)%nat /\ (num_of_deals tl <= S j)%nat
       /\ (j <= num_of_deals ts)%nat /\ (num_of_deals ts <= S j)%nat).
    { destruct Cl as [(Wl & Nl & Pl)|(Wl & Nl & Pl)].
      - destruct (nth_error P (S j)) as [p'|] eqn:Ep2; [|apply worth_pos in Wl; lra]. specialize (Np p' eq_refl).
        destruct Cs as [(Ws & Ns' & Ps)|(Ws & Ns' & Ps)].
        + destruct (nth_error Sq (S j)) as [s'|] eqn:Es2; [|apply worth_pos in Ws; lra]. specialize (Ns s' eq_refl).
          apply not_worth in Wj. repeat split; try lia; lra.
        + repeat split; try lia; lra.
      - destruct Cs as [(Ws & Ns' & Ps)|(Ws & Ns' & Ps)].
        + destruct (nth_error Sq (S j)) as [s'|] eqn:Es2; [|apply worth_pos in Ws; lra]. specialize (Ns s' eq_refl).
          repeat split; try lia; lra.
        + repeat split; try lia; lra. }
    destruct X as (X1 & X2 & X3 & X4 & X5 & X6 & X7). split; [lia|]. split; [lia|].
    assert (Y := money_neg j _ X1). rewrite <- money_sum in Y.
    assert (Yl : money (num_of_deals tl) lb <= money j lb).
    { assert (E : num_of_deals tl = j \/ num_of_deals tl = S j) by lia. destruct E as [-> | ->]; [lra|rewrite money_S; lra]. }
    assert (Ys : money (num_of_deals ts) sb <= money j sb).
    { assert (E : num_of_deals ts = j \/ num_of_deals ts = S j) by lia. destruct E as [-> | ->]; [lra|rewrite money_S; lra]. }
    lra.
Qed.

Theorem sellers_first : forall tl ts tj,
  trade_reduction_M M cap (lemon_submarket false P Sq D) [1; 1]%nat z = Ok tl ->
  trade_reduction_M M cap (squeezing_submarket false P Sq D) [1; 1]%nat z = Ok ts ->
  trade_reduction_M M cap (juice_submarket false P Sq D) [1; 1]%nat z = Ok tj ->
  (num_of_deals tl <= num_of_deals tj)%nat /\ (num_of_deals ts <= num_of_deals tj)%nat
  /\ 0 <= paid tj 1 + paid tl 0 + paid ts 0.
Proof.
  intros tl ts tj Hl Hs Hj.
  destruct (triples_exist P Sq D z HP HS HD) as (k & T).
  destruct (triples_perm _ _ _ _ _ T) as (T1 & T2 & T3 & T4 & T5).
  destruct k as [|j].
  { assert (Nl : num_of_deals tl = 0%nat).
    { eapply (no_auction M cap _ _ P (zip_add D Sq) z); try eassumption; [apply zip_add_desc; assumption|rewrite zip_add_length; lia|rng|apply pairs_swap, triples_pairs; assumption]. }
    assert (Ns : num_of_deals ts = 0%nat).
    { eapply (no_auction M cap _ _ Sq (zip_add D P) z); try eassumption; [apply zip_add_desc; assumption|rewrite zip_add_length; lia|rng|apply pairs_swap, triples_pairs; assumption]. }
    assert (Nj : num_of_deals tj = 0%nat).
    { eapply (no_auction M cap _ _ (zip_add P Sq) D z); try eassumption; [apply zip_add_desc; assumption|rewrite zip_add_length; lia|rng|apply triples_pairs; assumption]. }
    split; [lia|]. split; [lia|]. unfold paid. rewrite Nl, Ns, Nj.
    destruct (tprices tl), (tprices ts), (tprices tj); rewrite ?money_zero; lra. }
  destruct (sub_auction M cap "picker" "virtual-lemon-buyer" P (zip_add D Sq) z j tl) as (la & lb & El & Bl & Cl); try assumption;
    [apply zip_add_desc; assumption|rewrite zip_add_length; lia|rng|apply pairs_swap, triples_pairs; assumption|].
  destruct (sub_auction M cap "squeezer" "virtual-squeezing-buyer" Sq (zip_add D P) z j ts) as (sa & sb & Es & Bs & Cs); try assumption;
    [apply zip_add_desc; assumption|rewrite zip_add_length; lia|rng|apply pairs_swap, triples_pairs; assumption|].
  destruct (sub_auction M cap "virtual-juice-seller" "drinker" (zip_add P Sq) D z j tj) as (ja & jb & Ej & Bj & Cj); try assumption;
    [apply zip_add_desc; assumption|rewrite zip_add_length; lia|rng|apply triples_pairs; assumption|].
  destruct (around j T) as (p & s & d & Ep & Es' & Ed & W & Rp & Rs & Rd & Np & Ns & Nd & NW).
  unfold paid. rewrite El, Es, Ej. cbn [nth].
  rewrite (nth_error_nth P j 0 Ep) in Cl. rewrite (nth_error_nth Sq j 0 Es') in Cs.
  rewrite (nth_error_nth (zip_add P Sq) j 0 (x := p + s)) in Cj by (rewrite zip_nth, Ep, Es'; reflexivity).
  rewrite nth_next in Cj. rewrite next_zip in Cl, Cs. clear T T1 T2 T3 T4 T5 Hl Hs Hj El Es Ej.
  assert (W0 := worth_pos _ W).
  destruct Cj as [(Wj & Nj & Pj)|(Wj & Nj & Pj)]; rewrite Nj.
  - destruct (nth_error D (S j)) as [d'|] eqn:Ed2; [|apply worth_pos in Wj; lra]. specialize (Nd d' eq_refl).
    assert (Wj0 := worth_pos _ Wj).
    destruct Cl as [(Wl & Nl & Pl)|(Wl & Nl & Pl)]; destruct Cs as [(Ws & Ns' & Ps)|(Ws & Ns' & Ps)]; rewrite Nl, Ns';
      (split; [lia|]); (split; [lia|]).
    + destruct (nth_error Sq (S j)) as [s'|] eqn:Es2; [|apply worth_pos in Wl; lra].
      destruct (nth_error P (S j)) as [p'|] eqn:Ep2; [|apply worth_pos in Ws; lra].
      assert (Q := not_worth _ (NW p' s' d' eq_refl eq_refl eq_refl)).
      rewrite money_sum. apply money_sign. lra.
    + destruct (nth_error Sq (S j)) as [s'|] eqn:Es2; [|apply worth_pos in Wl; lra]. specialize (Ns s' eq_refl).
      rewrite !money_S. assert (Q : 0 <= jb + la + sa) by lra. assert (Q' := money_sign j _ Q). rewrite <- money_sum in Q'. lra.
    + destruct (nth_error P (S j)) as [p'|] eqn:Es2; [|apply worth_pos in Ws; lra]. specialize (Np p' eq_refl).
      rewrite !money_S. assert (Q : 0 <= jb + la + sa) by lra. assert (Q' := money_sign j _ Q). rewrite <- money_sum in Q'. lra.
    + rewrite !money_S. assert (Q : 0 <= jb + la + sa) by lra. assert (Q' := money_sign j _ Q). rewrite <- money_sum in Q'. lra.
  - destruct Cl as [(Wl & Nl & Pl)|(Wl & Nl & Pl)].
    { exfalso. destruct (nth_error D (S j)) as [d'|] eqn:Ed2; [|apply worth_pos in Wl; lra].
      destruct (nth_error Sq (S j)) as [s'|] eqn:Es2; [|apply worth_pos in Wl; lra]. specialize (Ns s' eq_refl).
      apply Wj. eapply worth_le; [|exact Wl]. lra. }
    destruct Cs as [(Ws & Ns' & Ps)|(Ws & Ns' & Ps)].
    { exfalso. destruct (nth_error D (S j)) as [d'|] eqn:Ed2; [|apply worth_pos in Ws; lra].
      destruct (nth_error P (S j)) as [p'|] eqn:Es2; [|apply worth_pos in Ws; lra]. specialize (Np p' eq_refl).
      apply Wj. eapply worth_le; [|exact Ws]. lra. }
    rewrite Nl, Ns'. split; [lia|]. split; [lia|]. rewrite money_sum. apply money_sign. lra.
Qed.

End Industry.
