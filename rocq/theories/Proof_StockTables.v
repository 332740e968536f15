(** * The tables of the experiments on stock prices: rounding, markets, and C90 *)

From Coq Require Import String List Arith NArith Lia ZArith QArith Qround Lqa Bool Permutation.
From Verif Require Import Base Model_Agents Model_Trade Model_Prices Model_Market Model_Ascending Model_TradeReduction Model_McAfee
  Model_Experiment Model_CompareStock Model_StockTables
  Spec_Market Spec_Trade Spec_Ascending Spec_TradeReduction Spec_McAfee Spec_Experiment Spec_StockData Spec_CompareStock Spec_StockTables
  Proof_Agents Proof_Market Proof_StockData Proof_Exp1 Proof_Exp2 Proof_Exp3 Proof_CompareStock Proof_CompareStock2 Proof_CompareStock3.
Import ListNotations.
Open Scope Q_scope.

(** ** Rounding *)
Lemma d1000 : forall a, a / 1000 == a * (1 # 1000). Proof. intros. field. Qed.

Lemma round3_near : forall q, within (1 # 2000) q (py_round3 q).
Proof. intros q. unfold within, py_round3. assert (X := py_round_near (q * 1000)). rewrite d1000. split; lra. Qed.

Lemma round3_mono : forall a b, a <= b -> py_round3 a <= py_round3 b.
Proof.
  intros a b H. unfold py_round3. assert (X : (py_round (a * 1000) <= py_round (b * 1000))%Z) by (apply py_round_mono; lra).
  rewrite Zle_Qle in X. rewrite !d1000. lra.
Qed.

Lemma round3_int : forall z, py_round3 (inject_Z z) == inject_Z z.
Proof.
  intros z. unfold py_round3. assert (E : inject_Z z * 1000 == inject_Z (z * 1000)) by (rewrite inject_Z_mult; reflexivity).
  rewrite (py_round_eq _ _ E), py_round_int, <- E. field.
Qed.

Lemma round3_0 : py_round3 0 == 0. Proof. exact (round3_int 0). Qed.
Lemma round3_100 : py_round3 100 == 100. Proof. exact (round3_int 100). Qed.

Lemma round2_Qn : forall n, py_round2 (Qn n) == Qn n.
Proof. intros n. unfold Qn. apply round2_int. Qed.

Lemma round2_within : forall q, within (1 # 200) q (py_round2 q).
Proof. intros q. exact (round2_near q). Qed.

Lemma Qpos_cases : forall x, 0 <= x -> x == 0 \/ 0 < x.
Proof. intros x H. destruct (Qlt_le_dec 0 x); [right; assumption|left; lra]. Qed.

(** ** The ratios *)
Lemma cut_ratio_ok : forall a k, (a <= k)%nat -> share_cut a k (cut_ratio a k) /\ 0 <= cut_ratio a k <= 100.
Proof.
  intros a k H. unfold share_cut, cut_ratio. destruct (Nat.eqb_spec k 0) as [->|K].
  - split; [split; [reflexivity|lia]|lra].
  - assert (P : 0 < Qn k) by (apply Qn_pos; lia). assert (N := Qn_nonneg a). assert (L := Qn_le _ _ H).
    assert (D := div_nonneg _ _ P N). assert (D1 := div_le_1 _ _ P L). set (x := Qn a / Qn k) in *.
    assert (EX : percent_of (Qn a) (Qn k) == 100 * x) by (unfold percent_of, x; field; lra).
    rewrite py_int_floor by lra. assert (F := floor_bounds (x * 100000)).
    assert (F0 : (0 <= Qfloor (x * 100000))%Z).
    { change 0%Z with (Qfloor (inject_Z 0)). apply Qfloor_resp_le. change (inject_Z 0) with 0. lra. }
    rewrite Zle_Qle in F0. change (inject_Z 0) with 0 in F0.
    split; [split; [lia|]|]; rewrite d1000; [intros _; rewrite EX; lra|lra].
Qed.

Lemma rounded_ratio_ok : forall g opt, 0 <= opt -> 0 <= g -> g <= opt ->
  share_rounded g opt (rounded_ratio g opt) /\ 0 <= rounded_ratio g opt <= 100
  /\ (forall a, 0 < opt -> a * opt <= 100 * g -> a - (1 # 2000) <= rounded_ratio g opt).
Proof.
  intros g opt P G L. unfold share_rounded, rounded_ratio. destruct (Qeq_bool opt 0) eqn:E.
  - apply Qeq_bool_iff in E. split; [split; [reflexivity|tauto]|]. split; [lra|]. intros a X. exfalso. rewrite E in X. discriminate X.
  - apply Qeq_bool_false in E. assert (OP : 0 < opt) by (destruct (Qpos_cases opt P); tauto).
    assert (W := round3_near (g / opt * 100)). assert (EX : percent_of g opt == g / opt * 100) by (unfold percent_of; field; lra).
    split; [split; [tauto|]|split].
    + intros _. unfold within in *. rewrite EX. exact W.
    + assert (P1 : 0 <= g / opt * 100) by (apply pct_ge; lra). assert (P2 : g / opt * 100 <= 100) by (apply pct_le; lra).
      apply round3_mono in P1. apply round3_mono in P2. rewrite round3_0 in P1. rewrite round3_100 in P2. split; assumption.
    + intros a _ X. apply (pct_ge a g opt OP) in X. unfold within in W. lra.
Qed.

Lemma rounded_ratio_mono : forall g g' opt, 0 <= opt -> g <= g' -> rounded_ratio g opt <= rounded_ratio g' opt.
Proof.
  intros g g' opt P L. unfold rounded_ratio. destruct (Qeq_bool opt 0) eqn:E; [lra|]. apply Qeq_bool_false in E.
  assert (OP : 0 < opt) by (destruct (Qpos_cases opt P); tauto). apply round3_mono. apply Qmult_le_compat_r; [|lra]. apply div_le; assumption.
Qed.

(** ** The markets *)
Lemma new_market_of : forall stock, market_of stock (map (new_category "agent") stock).
Proof.
  induction stock as [|c stock IH]; constructor; [|exact IH]. split; [apply sort_desc_perm|apply sort_desc_desc].
Qed.

Lemma market_of_sorted : forall stock m, market_of stock m -> sorted_market m.
Proof. intros stock m H. induction H as [|vs c stock m [_ D] H IH]; constructor; assumption. Qed.

Lemma Forall2_nth_l : forall A B (R : A -> B -> Prop) l l' i x, Forall2 R l l' -> nth_error l i = Some x ->
  exists y, nth_error l' i = Some y /\ R x y.
Proof.
  intros A B R l l' i x H. revert i. induction H as [|a b l l' Hab H IH]; intros [|i] E; try discriminate.
  - injection E as <-. exists b. auto.
  - exact (IH i E).
Qed.

Lemma Forall2_in_r : forall A B (R : A -> B -> Prop) l l' y, Forall2 R l l' -> In y l' -> exists x, In x l /\ R x y.
Proof.
  intros A B R l l' y H. induction H as [|a b l l' Hab H IH]; intros I; [destruct I|]. destruct I as [<-|I].
  - exists a. split; [left; reflexivity|assumption].
  - destruct (IH I) as (x & Hx & Hr). exists x. split; [right; assumption|assumption].
Qed.

Lemma stock_tame : forall recipe stock m, good_recipe recipe -> stock_input recipe stock -> market_of stock m -> tame recipe m.
Proof.
  intros recipe stock m (NE & FP) (L & (U & HU & SU) & (i & c & r & Hc & Hr & LC)) MO.
  assert (V : Forall2 (fun c u => - MAX_VALUE <= u /\ forall v, In v (cvalues c) -> - MAX_VALUE <= v <= u) m U).
  { clear - MO HU. revert m MO. induction HU as [|vs u stock U [H1 H2] HU IH]; intros m MO; inversion MO as [|? c ? m' [P _] MO']; subst; constructor.
    - split; [exact H1|]. intros v Hv. apply H2. apply (Permutation_in _ P). exact Hv.
    - apply IH. exact MO'. }
  assert (W : values_at_least (- MAX_VALUE) m).
  { intros c' v I1 I2. clear - V I1 I2. induction V as [|c u m U [_ H] V IH]; [destruct I1|]. destruct I1 as [<-|I1]; [apply H; exact I2|apply IH; exact I1]. }
  assert (MV : MAX_VALUE == 100000000) by reflexivity. assert (LM : length recipe = length m) by (rewrite <- L; eapply Forall2_length; exact MO).
  unfold tame. split; [exact LM|]. split; [|split; [|split]].
  - split; [exact W|]. exists U. split.
    + clear - V. induction V as [|c u m U [H1 H2] V IH]; constructor; [|exact IH]. split; [exact H1|]. intros v Hv. apply H2. exact Hv.
    + intros l r' u Hl _ Hu. specialize (SU l r' u Hl Hu). rewrite MV. lra.
  - exact W.
  - destruct (Forall2_nth_l _ _ _ _ _ _ _ MO Hc) as (c' & Hc' & (P & _)). exists i, c', r. split; [assumption|]. split; [assumption|].
    split; [apply nth_error_In in Hr; rewrite Forall_forall in FP; apply FP; assumption|].
    unfold csize. rewrite (Permutation_length P). unfold default_max_iterations. lia.
  - exact (market_of_sorted _ _ MO).
Qed.

(** A bound on all values is one way to satisfy the condition. *)
Lemma stock_input_uniform : forall recipe stock B, length stock = length recipe -> Forall (fun r => (0 < r)%nat) recipe -> 0 <= B ->
  (forall c v, In c stock -> In v c -> - B <= v <= B) -> B * Qn (nsum recipe) < 100000000 ->
  (exists i c r, nth_error stock i = Some c /\ nth_error recipe i = Some r /\ (N.of_nat (length c) <= 2000000 * N.of_nat r)%N) ->
  stock_input recipe stock.
Proof.
  intros recipe stock B L FP B0 HB SB X. split; [exact L|]. split; [|exact X].
  assert (D : forall (rs : list nat), dot (repeat B (length rs)) rs == B * Qn (nsum rs)).
  { induction rs as [|r rs IH]; cbn [length repeat dot]; [change (Qn (nsum [])) with 0; ring|]. rewrite IH. change (nsum (r :: rs)) with (r + nsum rs)%nat. rewrite Qn_plus. ring. }
  assert (BM : recipe <> [] -> B < 100000000).
  { intros NE. assert (NQ : 1 <= Qn (nsum recipe)) by (change 1 with (Qn 1); apply Qn_le; assert (Y := nsum_pos recipe NE FP); lia). nra. }
  exists (repeat B (length recipe)). split.
  - rewrite <- L. assert (BM' : stock <> [] -> B < 100000000) by (intros H; apply BM; intros ->; destruct stock; [congruence|discriminate]).
    clear - HB B0 BM'. induction stock as [|c stock IH]; cbn [length repeat]; constructor.
    + assert (B < 100000000) by (apply BM'; discriminate). split; [lra|]. intros v Hv. specialize (HB c v (or_introl eq_refl) Hv). lra.
    + apply IH; [intros c' v Hc; apply HB; right; exact Hc|]. intros _. apply BM'. discriminate.
  - intros l r u Hr Hu. apply nth_error_In, repeat_spec in Hu. subst u. rewrite D. rewrite Forall_forall in FP. specialize (FP r (nth_error_In _ _ Hr)).
    assert (R1 : 1 <= Qn r) by (change 1 with (Qn 1); apply Qn_le; lia). nra.
Qed.

(** ** The number of possible sets *)
Lemma py_min_ok : forall l x, (forall y, In y (x :: l) -> py_min x l <= y) /\ In (py_min x l) (x :: l).
Proof.
  induction l as [|z l IH]; intros x; cbn [py_min].
  - split; [intros y [<-|[]]; lra|left; reflexivity].
  - destruct (Qlt_bool z x) eqn:E.
    + unfold Qlt_bool in E. apply negb_true_iff in E. assert (E' : z < x).
      { apply Qnot_le_lt. intros X. apply Qle_bool_iff in X. congruence. }
      destruct (IH z) as [A I]. split; [|right; exact I]. intros y [<-|Hy]; [|apply A; exact Hy].
      assert (Y := A z (or_introl eq_refl)). lra.
    + unfold Qlt_bool in E. apply negb_false_iff, Qle_bool_iff in E. destruct (IH x) as [A I]. split.
      * intros y [<-|[<-|Hy]]; [apply A; left; reflexivity| |apply A; right; exact Hy].
        assert (Y := A x (or_introl eq_refl)). lra.
      * destruct I as [I|I]; [left; exact I|right; right; exact I].
Qed.

Lemma set_counts_ok : forall stock recipe, length stock = length recipe -> Forall (fun r => (0 < r)%nat) recipe ->
  exists l, set_counts stock recipe = Ok l /\ length l = length stock
    /\ forall i c r, nth_error stock i = Some c -> nth_error recipe i = Some r -> nth_error l i = Some (Qn (length c) / Qn r).
Proof.
  induction stock as [|c stock IH]; intros [|r recipe] L F; try discriminate; cbn [set_counts].
  - exists []. split; [reflexivity|]. split; [reflexivity|]. intros [|i] ? ? H; discriminate.
  - inversion F as [|? ? R F']; subst. injection L as L. destruct (IH recipe L F') as (l & -> & Ll & Hl).
    destruct (Nat.eqb_spec r 0) as [E|_]; [lia|]. cbn [bind]. eexists. split; [reflexivity|]. split; [cbn; congruence|].
    intros [|i] c' r' H1 H2; cbn in *; [injection H1 as <-; injection H2 as <-; reflexivity|]. apply Hl; assumption.
Qed.

Lemma possible_ok : forall stock recipe, good_recipe recipe -> length stock = length recipe ->
  exists x, possible_sets stock recipe = Ok x /\ sets_possible stock recipe x.
Proof.
  intros stock recipe (NE & FP) L. unfold possible_sets. destruct (set_counts_ok stock recipe L FP) as (l & -> & Ll & Hl). cbn [bind].
  destruct l as [|x l]; [destruct recipe; [congruence|]; destruct stock; discriminate|]. exists (py_min x l). split; [reflexivity|].
  destruct (py_min_ok l x) as [A I]. set (z := py_min x l) in *. clearbody z. rewrite Forall_forall in FP.
  assert (QP : forall i r, nth_error recipe i = Some r -> 0 < Qn r) by (intros i r H; apply Qn_pos, FP; eapply nth_error_In; exact H).
  split.
  - intros i c r Hc Hr. assert (Y := A _ (nth_error_In _ _ (Hl i c r Hc Hr))). assert (P := QP i r Hr).
    assert (E : Qn (length c) / Qn r * Qn r == Qn (length c)) by (field; lra). rewrite <- E. apply Qmult_le_compat_r; lra.
  - apply In_nth_error in I. destruct I as (i & Hi). assert (Li : (i < length stock)%nat) by (rewrite <- Ll; apply nth_error_Some; congruence).
    destruct (nth_error stock i) as [c|] eqn:Ec; [|apply nth_error_None in Ec; lia].
    destruct (nth_error recipe i) as [r|] eqn:Er; [|apply nth_error_None in Er; lia].
    exists i, c, r. split; [exact Ec|]. split; [exact Er|]. assert (X := Hl i c r Ec Er). rewrite Hi in X. injection X as ->.
    assert (P := QP i r Er). field. lra.
Qed.

(** There are no more deals than agents. *)
Lemma agents_of_length : forall recipe D i r, Forall (deal_ok recipe) D -> nth_error recipe i = Some r ->
  length (agents_of i D) = (length D * r)%nat.
Proof.
  intros recipe D i r H Hr. unfold agents_of. induction H as [|d D Hd H IH]; cbn [map concat length Nat.mul]; [reflexivity|].
  rewrite app_length, IH. destruct (Forall2_nth_l _ _ _ _ _ _ _ Hd Hr) as (a & Ha & La). rewrite (nth_error_nth _ _ _ Ha), La. reflexivity.
Qed.

Lemma deals_le : forall recipe m D i c r, feasible m recipe D -> nth_error m i = Some c -> nth_error recipe i = Some r ->
  (length D * r <= csize c)%nat.
Proof.
  intros recipe m D i c r [F S] Hc Hr. destruct (S i c Hc) as (rest & P). apply Permutation_length in P.
  rewrite app_length, (agents_of_length recipe D i r F Hr) in P. unfold csize. lia.
Qed.

Lemma optimum_possible : forall recipe stock m k k0 opt x, good_recipe recipe -> market_of stock m -> optimum recipe m k k0 opt ->
  sets_possible stock recipe x -> Qn k0 <= x.
Proof.
  intros recipe stock m k k0 opt x (_ & FP) MO (_ & (D & [FD _] & LD) & _) (_ & (i & c & r & Hc & Hr & E)).
  destruct (Forall2_nth_l _ _ _ _ _ _ _ MO Hc) as (c' & Hc' & (P & _)). assert (X := deals_le _ _ _ _ _ _ FD Hc' Hr).
  unfold csize in X. rewrite (Permutation_length P), LD in X. apply Qn_le in X. rewrite <- E in X.
  assert (R : 0 < Qn r) by (apply Qn_pos; rewrite Forall_forall in FP; apply FP; eapply nth_error_In; exact Hr).
  assert (M : Qn (k0 * r) == Qn k0 * Qn r) by (unfold Qn; rewrite Nat2Z.inj_mul, inject_Z_mult; reflexivity).
  rewrite M in X. apply Qmult_le_r in X; assumption.
Qed.

Lemma optimum_zero : forall recipe m k opt, optimum recipe m k 0 opt -> opt == 0.
Proof.
  intros recipe m k opt (_ & (D & OD & LD) & H). destruct (H D OD) as [_ E]. destruct D; [|discriminate]. rewrite <- E. reflexivity.
Qed.

(** ** C90 *)
Lemma stock_row_ok : forall recipe f stock, good_recipe recipe -> meant_for recipe f -> stock_input recipe stock ->
  exists row, stock_experiment_row f recipe stock = Ok row /\ stock_row_facts f recipe stock row /\ stock_row_bounds row
    /\ (budget_balanced f -> auction_market_gft row == auction_gft row /\ market_gft_ratio row == auction_gft_ratio row).
Proof.
  intros recipe f stock GR MF SI. pose proof GR as (NE & FP). assert (MO := new_market_of stock). assert (T := stock_tame _ _ _ GR SI MO).
  set (m := map (new_category "agent") stock) in *.
  destruct (optimum_found recipe m T) as (dF & rF & dT & rT & _ & _ & OPT & _ & _ & _).
  destruct (possible_ok stock recipe GR (proj1 SI)) as (x & HX & SP).
  destruct (meant_outcome recipe f m NE FP MF T) as (o & R & F & BB).
  destruct (raw_outcome _ _ _ _ T R) as ((D & OD & LD & GD) & MX & _).
  destruct R as (deals & rem & t & HO & EK & EO & HA & HD & G & G').
  assert (K0 : out_k o = mt_num_of_deals dT).
  { destruct OPT as (_ & (D0 & O0 & L0) & HOP). assert (X := MX D0 O0). destruct (HOP D OD) as [Y _]. lia. }
  assert (EOPT : out_opt o == mt_gain_from_trade dF) by (rewrite <- GD; apply OPT; exact OD).
  assert (KP := optimum_possible _ _ _ _ _ _ _ GR MO OPT SP).
  unfold stock_experiment_row. fold m. rewrite HX. cbn [bind]. rewrite HO. cbn [bind]. rewrite HA. cbn [bind]. rewrite G. cbn [bind]. rewrite G'. cbn [bind fst].
  rewrite EK, EO, HD. set (k := mt_num_of_deals dF) in *. set (opt := mt_gain_from_trade dF) in *. rewrite K0 in *.
  set (k0 := mt_num_of_deals dT) in *. unfold fine in F. rewrite K0 in F. destruct F as ((F1 & F2) & F3 & F4 & F5 & F6).
  clearbody k k0 opt. set (a := out_deals o) in *. set (total := out_total o) in *. set (mkt := out_market o) in *. set (op := out_opt o) in *.
  destruct (cut_ratio_ok a k0 F1) as [C1 C2]. assert (OP : 0 <= op) by lra.
  destruct (rounded_ratio_ok total op OP ltac:(lra) F5) as (R1 & R2 & R3). destruct (rounded_ratio_ok mkt op OP F3 ltac:(lra)) as (S1 & S2 & _).
  assert (SH : forall g y, share_rounded g op y -> share_rounded g opt y).
  { intros g y (X1 & X2). split; intros Z; [apply X1; lra|]. unfold within, percent_of in *.
    assert (Z' : ~ op == 0) by (intros Z'; apply Z; lra). specialize (X2 Z'). rewrite <- EOPT. exact X2. }
  assert (PR : inject_Z (py_round x) >= Qn k0).
  { assert (Y := py_round_mono _ _ KP). unfold Qn in Y. rewrite py_round_int in Y. unfold Qn. rewrite <- Zle_Qle. exact Y. }
  eexists. split; [reflexivity|]. split; [|split].
  - exists m, x, k, k0, opt, t, total, mkt. rewrite HD.
    split; [exact MO|]. split; [exact OPT|]. split; [exact HA|]. split; [exact G|]. split; [exact G'|]. split; [exact SP|].
    cbn [num_possible_trades optimal_count auction_count count_ratio optimal_gft auction_gft auction_gft_ratio auction_market_gft market_gft_ratio].
    split; [exact (py_round_near x)|]. split; [apply round2_Qn|]. split; [apply round2_Qn|]. split; [exact C1|].
    split; [assert (X := round2_within op); unfold within in *; rewrite <- EOPT; exact X|]. split; [apply round2_within|].
    split; [apply SH, R1|]. split; [apply round2_within|]. split; [apply SH, S1|].
    intros PO. assert (EOPT' := EOPT). rewrite <- EOPT in PO. apply R3; [exact PO|].
    assert (KQ : 0 < Qn k0).
    { destruct k0 as [|k0']; [exfalso|apply Qn_pos; lia]. assert (Z := optimum_zero _ _ _ _ OPT). lra. }
    assert (E : 100 * (1 - 1 / Qn k0) * op == 100 * ((Qn k0 - 1) * op) / Qn k0) by (field; lra). rewrite E. apply Qle_shift_div_r; lra.
  - unfold stock_row_bounds.
    cbn [num_possible_trades optimal_count auction_count count_ratio optimal_gft auction_gft auction_gft_ratio auction_market_gft market_gft_ratio warned].
    rewrite !round2_Qn. assert (A0 := Qn_nonneg a). assert (A1 := Qn_le _ _ F1). assert (A2 := Qn_le _ _ F2). rewrite Qn_plus in A2. change (Qn 1) with 1 in A2.
    split; [split; [apply Qn_nonneg|exact PR]|]. split; [split; lra|]. split; [exact A0|]. split; [exact C2|].
    split; [split; [rewrite <- round2_0; apply round2_mono; exact F3|apply round2_mono; exact F4]|].
    split; [apply round2_mono; exact F5|]. split; [split; [lra|apply rounded_ratio_mono; assumption]|]. split; [lra|].
    apply Nat.ltb_ge. exact F1.
  - intros B. cbn [auction_gft auction_gft_ratio auction_market_gft market_gft_ratio]. specialize (BB B). split; [apply round2_eq; exact BB|].
    apply Qle_antisym; apply rounded_ratio_mono; fold mkt total in BB; lra.
Qed.

Theorem stock_experiment_ok : forall recipe f stocks, good_recipe recipe -> meant_for recipe f -> Forall (stock_input recipe) stocks ->
  exists rows, stock_experiment f recipe stocks = Ok rows
    /\ Forall2 (fun stock row => stock_row_facts f recipe stock row /\ stock_row_bounds row
        /\ (budget_balanced f -> auction_market_gft row == auction_gft row /\ market_gft_ratio row == auction_gft_ratio row)) stocks rows.
Proof.
  intros recipe f stocks GR MF H. induction H as [|s stocks Hs H IH]; cbn [stock_experiment].
  - exists []. split; [reflexivity|constructor].
  - destruct (stock_row_ok recipe f s GR MF Hs) as (row & -> & A). destruct IH as (rows & -> & B). cbn [bind].
    eexists. split; [reflexivity|]. constructor; assumption.
Qed.
