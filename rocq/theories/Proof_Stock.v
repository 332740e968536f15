(** * The experiments on stock prices (C69) *)

From Coq Require Import String List Arith NArith Lia ZArith QArith Qround Lqa Sorted.
From Verif Require Import Base Model_Agents Model_Trade Model_Market Model_RecipeTree Model_TreeAuction
  Model_Experiment Model_StockExperiment Spec_Market Spec_Trade Spec_RecipeTree Spec_TreeAuction Spec_Experiment Spec_StockExperiment
  Proof_Exp1 Proof_Exp2 Proof_Exp7.
Import ListNotations.
Open Scope Q_scope.

(** ** The market *)
Lemma get_nth : forall A (l : list A) i x, nth_error l i = Some x -> get l i = Ok x.
Proof. intros A l i x H. unfold get. rewrite H. reflexivity. Qed.

Lemma cut_spec : forall counts possible cats j, Forall (fun k => 0 <= k) counts -> (j + length cats <= length counts)%nat ->
  exists m, cut_categories counts possible j cats = Ok m /\ length m = length cats
    /\ forall i prices k, nth_error cats i = Some prices -> nth_error counts (j + i) = Some k ->
         nth_error m i = Some (new_category "agent" (firstn (Z.to_nat (Qfloor (Qn possible * k))) prices)).
Proof.
  intros counts possible cats. induction cats as [|c cats IH]; intros j F L.
  - exists []. split; [reflexivity|]. split; [reflexivity|]. intros [|i]; discriminate.
  - cbn [length] in L. destruct (nth_error counts j) as [k|] eqn:E; [|apply nth_error_None in E; lia].
    destruct (IH (S j) F) as (m & A & B & C); [lia|].
    cbn [cut_categories]. rewrite (get_nth _ _ _ _ E). cbn [bind]. rewrite A. cbn [bind]. eexists. split; [reflexivity|].
    split; [cbn [length]; congruence|]. intros [|i] prices k' Hp Hk.
    + rewrite Nat.add_0_r in Hk. cbn in Hp. injection Hp as <-. assert (k' = k) by congruence. subst k'. cbn [nth_error].
      assert (K : 0 <= k) by (rewrite Forall_forall in F; exact (F k (nth_error_In _ _ E))).
      assert (P : 0 <= Qn possible * k) by (apply Qmult_le_0_compat; [apply Qn_nonneg|assumption]).
      rewrite py_int_floor by assumption. unfold py_slice.
      assert (Z : (0 <= Qfloor (Qn possible * k))%Z) by (change 0%Z with (Qfloor 0); apply Qfloor_resp_le; assumption).
      apply Z.leb_le in Z. rewrite Z. reflexivity.
    + cbn [nth_error]. apply (C i); [exact Hp|]. rewrite Nat.add_succ_comm. exact Hk.
Qed.

Lemma whole_market : forall counts n cats, (available cats < n)%nat -> stock_market counts n cats (map (new_category "agent") cats).
Proof.
  intros counts n cats H. split; [apply map_length|]. intros j prices k Hp Hk. apply Nat.ltb_lt in H. rewrite H.
  rewrite nth_error_map, Hp. reflexivity.
Qed.

(** The market is determined. *)
Lemma stock_market_unique : forall counts n cats m m', (length cats <= length counts)%nat ->
  stock_market counts n cats m -> stock_market counts n cats m' -> m = m'.
Proof.
  intros counts n cats m m' L [L1 H1] [L2 H2]. apply nth_ext with (d := new_category "agent" []) (d' := new_category "agent" []); [congruence|].
  intros i Hi. rewrite L1 in Hi. destruct (nth_error cats i) as [prices|] eqn:E; [|apply nth_error_None in E; lia].
  destruct (nth_error counts i) as [k|] eqn:F; [|apply nth_error_None in F; lia].
  rewrite !(nth_error_nth _ _ _ (H1 i prices k E F)), (nth_error_nth _ _ _ (H2 i prices k E F)). reflexivity.
Qed.

(** ** The loop over the numbers of agents *)
Section Sizes.
  Variable auction : market -> result tree_trade.
  Variable struct : pystruct.
  Variable counts : list Q.
  Hypothesis counts_nonneg : Forall (fun k => 0 <= k) counts.

  (** Entries below [x] plus the first one above. *)
  Lemma used_cons_small : forall n nums cats k, (n <= available cats)%nat -> Sorted.StronglySorted lt (n :: nums) ->
    (used (n :: nums) cats k <-> k = n \/ used nums cats k).
  Proof.
    intros n nums cats k H S. inversion S as [|? ? S' F]; subst. rewrite Forall_forall in F. split.
    - intros [[<-|I] U]; [left; reflexivity|]. right. split; [exact I|]. intros x Hx. apply U. right. exact Hx.
    - intros [->|[I U]].
      + split; [left; reflexivity|]. intros x Hx HA. lia.
      + split; [right; exact I|]. intros x [<-|Hx] HA; [lia|]. apply U; assumption.
  Qed.

  Lemma used_cons_large : forall n nums cats k, (available cats < n)%nat -> Sorted.StronglySorted lt (n :: nums) ->
    (used (n :: nums) cats k <-> k = n).
  Proof.
    intros n nums cats k H S. inversion S as [|? ? S' F]; subst. rewrite Forall_forall in F. split.
    - intros [[<-|I] U]; [reflexivity|]. specialize (U n (or_introl eq_refl) H). specialize (F k I). lia.
    - intros ->. split; [left; reflexivity|]. intros x [<-|Hx] HA; [lia|]. specialize (F x Hx). lia.
  Qed.

  Lemma last_stops : forall cats n nums T, cats <> [] -> (available cats < n)%nat -> stock_sizes auction struct counts cats true (n :: nums) T = Ok T.
  Proof.
    intros [|c0 cats] n nums T NE H; [congruence|]. cbn [stock_sizes available] in *.
    destruct (Nat.ltb_spec (Nat.min n (length c0)) n) as [A|A]; [reflexivity|lia].
  Qed.

  Lemma sizes_spec : forall cats nums T, cats <> [] -> (length cats <= length counts)%nat -> Sorted.StronglySorted lt nums ->
    (forall n, used nums cats n -> exists m x, stock_market counts n cats m
       /\ stock_process auction struct (Nat.min n (available cats)) m = Ok x) ->
    exists T', stock_sizes auction struct counts cats false nums T = Ok T'
      /\ (forall n, used nums cats n -> exists m x, stock_market counts n cats m
            /\ stock_process auction struct (Nat.min n (available cats)) m = Ok x /\ T' n = add_total T n x n)
      /\ (forall n, ~ used nums cats n -> T' n = T n).
  Proof.
    intros cats nums T NE LC S. revert T. induction nums as [|n nums IH]; intros T HU.
    - exists T. split; [reflexivity|]. split; [intros n [[] _]|reflexivity].
    - pose proof S as S0. inversion S as [|? ? S' F]; subst. rewrite Forall_forall in F.
      destruct cats as [|c0 cats]; [congruence|]. set (cs := c0 :: cats) in *. cbn [stock_sizes]. unfold cs at 1.
      change (length c0) with (available cs).
      destruct (Nat.ltb_spec (Nat.min n (available cs)) n) as [A|A].
      + assert (H : (available cs < n)%nat) by lia.
        destruct (HU n) as (m & x & Hm & Hx); [apply used_cons_large; auto|].
        assert (Em : m = map (new_category "agent") cs) by (eapply stock_market_unique; [exact LC|exact Hm|apply whole_market; exact H]).
        subst m. rewrite Hx. cbn [bind].
        exists (add_total T n x). split; [|split].
        * destruct nums as [|n' nums]; [reflexivity|]. apply last_stops; [exact NE|]. specialize (F n' (or_introl eq_refl)). lia.
        * intros k U. apply used_cons_large in U; [|assumption|assumption]. subst k. exists (map (new_category "agent") cs), x. auto.
        * intros k U. unfold add_total. destruct (Nat.eqb_spec k n) as [->|]; [|reflexivity].
          exfalso. apply U, used_cons_large; auto.
      + assert (H : (n <= available cs)%nat) by lia. assert (MIN : Nat.min n (available cs) = n) by lia.
        destruct (HU n) as (m & x & Hm & Hx); [apply used_cons_small; auto|].
        destruct (cut_spec counts (Nat.min n (available cs)) cs 0 counts_nonneg LC) as (m' & C1 & C2 & C3).
        assert (Em : m' = m).
        { eapply stock_market_unique; [exact LC| |exact Hm]. split; [exact C2|]. intros j prices k Hp Hk.
          destruct (Nat.ltb_spec (available cs) n) as [X|_]; [lia|]. rewrite MIN in C3. apply (C3 j); assumption. }
        subst m'. rewrite C1. cbn [bind]. rewrite Hx. cbn [bind].
        destruct (IH S' (add_total T n x)) as (T' & E & U1 & U2).
        { intros k U. apply HU. apply used_cons_small; auto. }
        exists T'. split; [exact E|].
        assert (NN : ~ used nums cs n) by (intros [I _]; specialize (F n I); lia).
        split.
        * intros k U. apply used_cons_small in U; [|assumption|assumption]. destruct U as [->|U].
          -- exists m, x. split; [exact Hm|]. split; [exact Hx|]. rewrite (U2 n NN). reflexivity.
          -- destruct (U1 k U) as (mk & xk & A1 & A2 & A3). exists mk, xk. split; [exact A1|]. split; [exact A2|]. rewrite A3.
             unfold add_total. rewrite !Nat.eqb_refl. destruct (Nat.eqb_spec k n) as [->|]; [contradiction|reflexivity].
        * intros k U. rewrite (U2 k). { unfold add_total. destruct (Nat.eqb_spec k n) as [->|]; [|reflexivity]. exfalso. apply U, used_cons_small; auto. }
          intros X. apply U, used_cons_small; auto.
  Qed.
End Sizes.

(** ** Sums of results *)
Definition add_opt (t : option stock_result) (x : stock_result) : option stock_result :=
  Some (match t with None => x | Some s => sr_add s x end).

Lemma add_total_same : forall T n x, add_total T n x n = add_opt (T n) x.
Proof. intros. unfold add_total, add_opt. rewrite Nat.eqb_refl. reflexivity. Qed.

(** The sums over the outcomes, as columns. *)
Definition sums_of (os : list tree_outcome) (t : option stock_result) : Prop :=
  match t with None => os = [] | Some s => os <> [] /\ stock_columns 1 os s end.

Definition outcome_result (o : tree_outcome) (x : stock_result) : Prop :=
  sr_count x == Qn (to_k o) /\ sr_kmin x == inject_Z (Z.of_N (to_kmin o)) /\ sr_kmax x == inject_Z (Z.of_N (to_kmax o))
  /\ sr_optimal_gft x == to_opt o /\ sr_auction_count x == Qn (to_deals o) /\ sr_count_ratio x == outcome_count_ratio o
  /\ sr_gft x == to_gft o /\ sr_gft_ratio x == outcome_gft_ratio o.

Lemma Qsum_snoc : forall l x, Qsum (l ++ [x]) == Qsum l + x.
Proof. induction l as [|y l IH]; intros x; cbn [app Qsum fold_right]; [unfold Qsum; cbn; lra|]. fold (Qsum (l ++ [x])) (Qsum l). rewrite IH. lra. Qed.

Lemma div_1 : forall q, q / 1 == q.
Proof. intros q. field. Qed.

Lemma sums_add : forall os t o x, sums_of os t -> outcome_result o x -> sums_of (os ++ [o]) (add_opt t x).
Proof.
  intros os t o x H (E1 & E2 & E3 & E4 & E5 & E6 & E7 & E8). unfold sums_of, add_opt.
  split; [destruct os; discriminate|]. unfold stock_columns. rewrite !div_1, !map_app. cbn [map]. rewrite !Qsum_snoc.
  destruct t as [s|]; cbn [sums_of] in H.
  - destruct H as (_ & A1 & A2 & A3 & A4 & A5 & A6 & A7 & A8). rewrite div_1 in *. unfold sr_add.
    cbn [sr_count sr_kmin sr_kmax sr_optimal_gft sr_auction_count sr_count_ratio sr_gft sr_gft_ratio].
    rewrite A1, A2, A3, A4, A5, A6, A7, A8, E1, E2, E3, E4, E5, E6, E7, E8. repeat split; reflexivity.
  - subst os. cbn [map Qsum fold_right]. repeat split; lra.
Qed.

Lemma process_outcome : forall auction struct possible m o, tree_raw auction struct m o ->
  exists x, stock_process auction struct possible m = Ok x /\ sr_possible x = possible /\ outcome_result o x.
Proof.
  intros auction struct possible m o (t & opt & gft & r & E1 & E2 & E3 & E4 & E5 & E6). unfold stock_process.
  rewrite E1. cbn [bind]. rewrite E2, E4. cbn [bind]. eexists. split; [reflexivity|]. split; [reflexivity|].
  unfold outcome_result, outcome_count_ratio, outcome_gft_ratio.
  cbn [sr_count sr_kmin sr_kmax sr_optimal_gft sr_auction_count sr_count_ratio sr_gft sr_gft_ratio].
  rewrite E5, E6, QN_nat. unfold QN. split; [reflexivity|]. split; [reflexivity|]. split; [reflexivity|]. split; [exact E3|]. split; [reflexivity|].
  split; [|split; [reflexivity|]].
  - destruct (N.eqb_spec (N.of_nat (to_k o)) 0) as [Z|Z], (Nat.eqb_spec (to_k o) 0) as [Z'|Z']; try lia; reflexivity.
  - destruct (Qeq_bool gft 0) eqn:Z, (Qeq_bool (to_opt o) 0) eqn:Z'; try reflexivity.
    + apply Qeq_bool_iff in Z. apply Qeq_bool_false in Z'. exfalso. lra.
    + apply Qeq_bool_iff in Z'. apply Qeq_bool_false in Z. exfalso. lra.
    + rewrite E3. reflexivity.
Qed.

(** The loops over stocks and iterations are one loop over the runs. *)
Lemma iterations_app : forall auction struct counts nums a b T,
  stock_iterations auction struct counts nums (a ++ b) T
  = (T' <- stock_iterations auction struct counts nums a T ;; stock_iterations auction struct counts nums b T').
Proof.
  intros auction struct counts nums a b. induction a as [|c a IH]; intros T; [reflexivity|].
  cbn [app stock_iterations]. destruct (stock_sizes _ _ _ _ _ _ _); cbn [bind]; [apply IH|reflexivity|reflexivity].
Qed.

Lemma stocks_flat : forall auction struct counts nums stocks T,
  stock_stocks auction struct counts nums stocks T = stock_iterations auction struct counts nums (concat stocks) T.
Proof.
  intros auction struct counts nums stocks. induction stocks as [|its stocks IH]; intros T; [reflexivity|].
  cbn [concat stock_stocks]. rewrite iterations_app. destruct (stock_iterations _ _ _ _ _ _); cbn [bind]; [apply IH|reflexivity|reflexivity].
Qed.

Lemma used_dec : forall nums cats n, used nums cats n \/ ~ used nums cats n.
Proof.
  intros nums cats n. destruct (in_dec Nat.eq_dec n nums) as [I|I]; [|right; intros [X _]; contradiction].
  destruct (forallb (fun x => negb (available cats <? x) || (n <=? x))%nat nums) eqn:E.
  - left. split; [exact I|]. rewrite forallb_forall in E. intros x Hx HA. specialize (E x Hx). apply Bool.orb_true_iff in E.
    destruct E as [E|E]; [apply Bool.negb_true_iff, Nat.ltb_ge in E; lia|apply Nat.leb_le; exact E].
  - right. intros [_ U]. assert (X : forallb (fun x => negb (available cats <? x) || (n <=? x))%nat nums = true).
    { apply forallb_forall. intros x Hx. destruct (Nat.ltb_spec (available cats) x) as [A|A]; [|reflexivity]. cbn. apply Nat.leb_le. apply U; assumption. }
    congruence.
Qed.

(** ** All runs *)
Lemma one_run : forall M p0 fuel struct counts nums cats T, 0 < M -> Forall (fun k => 0 <= k) counts -> Sorted.StronglySorted lt nums ->
  run_ok M p0 fuel struct counts nums cats ->
  let auction := fun m => tree_auction M (p0 m) fuel m struct in
  exists T1, stock_sizes auction struct counts cats false nums T = Ok T1
    /\ forall n, (used nums cats n /\ exists m x o, stock_market counts n cats m /\ T1 n = add_opt (T n) x
                  /\ tree_fine o /\ tree_outcome_of auction struct m o /\ (tree_input_competitive M struct m -> tree_ratio_ok o)
                  /\ outcome_result o x /\ sr_possible x = Nat.min n (available cats))
              \/ (~ used nums cats n /\ T1 n = T n).
Proof.
  intros M p0 fuel struct counts nums cats T HM FC SN (NE & LC & HU) auction.
  assert (HO : forall n, used nums cats n -> exists m x o, stock_market counts n cats m
            /\ stock_process auction struct (Nat.min n (available cats)) m = Ok x
            /\ tree_fine o /\ tree_outcome_of auction struct m o /\ (tree_input_competitive M struct m -> tree_ratio_ok o) /\ outcome_result o x
            /\ sr_possible x = Nat.min n (available cats)).
  { intros n U. destruct (HU n U) as (m & r & A & B & C). destruct (tree_outcome_exists _ _ _ _ _ _ HM B C) as (o & O1 & O2 & O3 & O4).
    destruct (process_outcome _ _ (Nat.min n (available cats)) _ _ O1) as (x & X1 & X3 & X2). exists m, x, o. auto 10. }
  destruct (sizes_spec auction struct counts FC cats nums T NE LC SN) as (T1 & E & U1 & U2).
  { intros n U. destruct (HO n U) as (m & x & o & A & B & _). eauto. }
  exists T1. split; [exact E|]. intros n. destruct (used_dec nums cats n) as [U|U]; [left|right; auto].
  destruct (HO n U) as (m & x & o & A1 & A2 & A3 & A4 & A5 & A6 & A7). destruct (U1 n U) as (m' & x' & B1 & B2 & B3).
  assert (m' = m) by (eapply stock_market_unique; eassumption). subst m'. rewrite A2 in B2. injection B2 as <-.
  split; [exact U|]. exists m, x, o. rewrite B3, add_total_same. auto 10.
Qed.

Lemma runs_succeed : forall M p0 fuel struct counts nums runs T, 0 < M -> Forall (fun k => 0 <= k) counts -> Sorted.StronglySorted lt nums ->
  Forall (run_ok M p0 fuel struct counts nums) runs ->
  exists T', stock_iterations (fun m => tree_auction M (p0 m) fuel m struct) struct counts nums runs T = Ok T'.
Proof.
  intros M p0 fuel struct counts nums runs T HM FC SN H. revert T. induction H as [|cats runs R H IH]; intros T; [eexists; reflexivity|].
  destruct (one_run M p0 fuel struct counts nums cats T HM FC SN R) as (T1 & E & _). cbn [stock_iterations]. rewrite E. cbn [bind]. apply IH.
Qed.

Lemma runs_totals : forall M p0 fuel struct counts nums runs n, 0 < M -> Forall (fun k => 0 <= k) counts -> Sorted.StronglySorted lt nums ->
  Forall (run_ok M p0 fuel struct counts nums) runs ->
  let auction := fun m => tree_auction M (p0 m) fuel m struct in
  forall T T' os0, stock_iterations auction struct counts nums runs T = Ok T' -> sums_of os0 (T n) ->
  exists ms os, used_markets nums counts n runs ms
    /\ Forall2 (tree_outcome_of auction struct) ms os /\ Forall tree_fine os
    /\ (Forall (tree_input_competitive M struct) ms -> Forall tree_ratio_ok os)
    /\ sums_of (os0 ++ os) (T' n)
    /\ (forall s0, T n = Some s0 -> exists s, T' n = Some s /\ sr_possible s = sr_possible s0)
    /\ (T n = None -> forall s, T' n = Some s -> first_possible nums n runs (sr_possible s)).
Proof.
  intros M p0 fuel struct counts nums runs n HM FC SN H auction. induction H as [|cats runs R H IH]; intros T T' os0 E HS.
  - injection E as <-. exists [], []. rewrite app_nil_r. repeat split; try constructor; eauto; congruence.
  - cbn [stock_iterations] in E. apply bind_Ok in E. destruct E as (T1 & E1 & E).
    destruct (one_run M p0 fuel struct counts nums cats T HM FC SN R) as (T1' & E1' & X). fold auction in E1', X.
    assert (T1' = T1) by congruence. subst T1'.
    destruct (X n) as [(U & m & x & o & A1 & A2 & A3 & A4 & A5 & A6 & A7)|(U & A2)]; clear X.
    + assert (HS1 : sums_of (os0 ++ [o]) (T1 n)) by (rewrite A2; apply sums_add; assumption).
      destruct (IH T1 T' _ E HS1) as (ms & os & B1 & B2 & B3 & B4 & B5 & B6 & B7). exists (m :: ms), (o :: os).
      split; [constructor; assumption|]. split; [constructor; assumption|]. split; [constructor; assumption|].
      split; [intros F; inversion F; subst; constructor; auto|]. rewrite <- app_assoc in B5. split; [exact B5|].
      destruct (B6 _ A2) as (s & S1 & S2). split.
      * intros s0 HS0. rewrite HS0 in S2. cbn in S2. eauto.
      * intros HN s' HS'. rewrite HN in S2. assert (s' = s) by congruence. subst s'. rewrite S2, A7. constructor. exact U.
    + assert (HS1 : sums_of os0 (T1 n)) by (rewrite A2; assumption).
      destruct (IH T1 T' _ E HS1) as (ms & os & B1 & B2 & B3 & B4 & B5 & B6 & B7). exists ms, os.
      split; [constructor; assumption|]. split; [assumption|]. split; [assumption|]. split; [assumption|]. split; [assumption|].
      rewrite <- A2. split; [assumption|]. intros HN s HS'. constructor; [exact U|]. apply B7; assumption.
Qed.

(** ** The rows *)
Lemma rows_spec : forall S its nums T, NoDup nums ->
  stock_rows S its nums T = map (fun n => match T n with None => (None, 0) | Some s =>
    (Some (sr_scale S its s), formula_of (sr_kmin (sr_scale S its s))) end) nums.
Proof.
  intros S its nums. induction nums as [|n nums IH]; intros T ND; [reflexivity|]. inversion ND as [|? ? NI ND']; subst.
  cbn [stock_rows map]. destruct (T n) as [s|] eqn:E.
  - f_equal. rewrite IH by assumption. apply map_ext_in. intros k Hk. destruct (Nat.eqb_spec k n) as [->|]; [contradiction|reflexivity].
  - f_equal. apply IH. assumption.
Qed.

Lemma sorted_nodup : forall nums, Sorted.StronglySorted lt nums -> NoDup nums.
Proof.
  intros nums H. induction H as [|n nums S IH F]; constructor; [|assumption]. intros I. rewrite Forall_forall in F. specialize (F n I). lia.
Qed.

Lemma used_markets_length : forall nums counts n runs ms, used_markets nums counts n runs ms -> (length ms <= length runs)%nat.
Proof. intros nums counts n runs ms H. induction H; cbn; lia. Qed.

Lemma concat_length_const : forall A (l : list (list A)) k, Forall (fun x => length x = k) l -> length (concat l) = (length l * k)%nat.
Proof. intros A l k H. induction H as [|x l E H IH]; [reflexivity|]. cbn [concat length]. rewrite app_length, IH, E. lia. Qed.

Lemma Qsum_le_const : forall l b, Forall (fun x => x <= b) l -> Qsum l <= Qn (length l) * b.
Proof.
  intros l b H. induction H as [|x l Hx H IH]; [change (0 <= 0 * b); lra|]. cbn [length Qsum fold_right]. fold (Qsum l).
  replace (S (length l)) with (1 + length l)%nat by lia. rewrite Qn_plus. change (Qn 1) with 1. lra.
Qed.

Lemma Qsum_ge_0 : forall l, Forall (fun x => 0 <= x) l -> 0 <= Qsum l.
Proof. intros l H. induction H; simpl; lra. Qed.

Lemma ratio_bounds : forall o, tree_fine o -> 0 <= outcome_count_ratio o <= 100 /\ 0 <= outcome_gft_ratio o <= 100.
Proof.
  intros o (A & B & C). unfold outcome_count_ratio, outcome_gft_ratio. split.
  - destruct (Nat.eqb_spec (to_k o) 0) as [Z|Z]; [lra|]. assert (P : 0 < Qn (to_k o)) by (apply Qn_pos; lia).
    assert (X := div_nonneg _ _ P (Qn_nonneg (to_deals o))). assert (Y := div_le_1 _ _ P (Qn_le _ _ A)). lra.
  - destruct (Qeq_bool (to_opt o) 0) eqn:Z; [lra|]. apply Qeq_bool_false in Z. assert (P : 0 < to_opt o) by lra.
    assert (X := div_nonneg _ _ P B). assert (Y := div_le_1 _ _ P C). lra.
Qed.

Lemma scaled_columns : forall S its os s, stock_columns 1 os s -> (0 < S)%nat -> (0 < its)%nat ->
  stock_columns (Qn (S * its)) os (sr_scale S its s).
Proof.
  intros S its os s (A1 & A2 & A3 & A4 & A5 & A6 & A7 & A8) HS HI. rewrite div_1 in *.
  assert (P1 := Qn_pos _ HS). assert (P2 := Qn_pos _ HI).
  assert (E : Qn (S * its) == Qn S * Qn its) by (unfold Qn; rewrite Nat2Z.inj_mul, inject_Z_mult; reflexivity).
  assert (X : forall a b, a == b -> a / Qn S / Qn its == b / Qn (S * its)).
  { intros a b ->. rewrite E. field. split; lra. }
  unfold stock_columns, sr_scale. cbn [sr_count sr_kmin sr_kmax sr_optimal_gft sr_auction_count sr_count_ratio sr_gft sr_gft_ratio].
  repeat split; apply X; assumption.
Qed.

Lemma bounds_of_columns : forall d os r, 0 < d -> Qn (length os) <= d -> Forall tree_fine os -> stock_columns d os r -> stock_bounds r.
Proof.
  intros d os r D L F (A1 & A2 & A3 & A4 & A5 & A6 & A7 & A8). unfold stock_bounds. rewrite A1, A4, A5, A6, A7, A8.
  assert (R : forall f, (forall o, tree_fine o -> 0 <= f o <= 100) -> 0 <= Qsum (map f os) / d <= 100).
  { intros f Hf. split.
    - apply div_nonneg; [assumption|]. apply Qsum_map_nonneg. eapply Forall_impl; [|exact F]. intros o Ho. apply Hf. exact Ho.
    - apply Qle_shift_div_r; [assumption|]. assert (X : Qsum (map f os) <= Qn (length (map f os)) * 100).
      { apply Qsum_le_const. apply Forall_map. eapply Forall_impl; [|exact F]. intros o Ho. apply Hf. exact Ho. }
      rewrite map_length in X. lra. }
  repeat split; try (apply R; intros o Ho; apply ratio_bounds; exact Ho).
  - apply div_nonneg; [assumption|]. apply Qsum_map_nonneg. eapply Forall_impl; [|exact F]. intros o _. apply Qn_nonneg.
  - apply div_le; [assumption|]. apply Qsum_map_le. eapply Forall_impl; [|exact F]. intros o (X & _). apply Qn_le. exact X.
  - apply div_nonneg; [assumption|]. apply Qsum_map_nonneg. eapply Forall_impl; [|exact F]. intros o (_ & X & _). exact X.
  - apply div_le; [assumption|]. apply Qsum_map_le. eapply Forall_impl; [|exact F]. intros o (_ & _ & X). exact X.
Qed.

Lemma formula_bounds : forall k, 0 <= formula_of k < 100.
Proof.
  intros k. unfold formula_of. destruct (Qle_bool k 1) eqn:E; [lra|].
  assert (K : 1 < k). { destruct (Qlt_le_dec 1 k) as [L|L]; [exact L|]. apply Qle_bool_iff in L. congruence. }
  assert (A : 0 < 1 / k) by (apply Qlt_shift_div_l; lra). assert (B : 1 / k <= 1) by (apply Qle_shift_div_r; lra). lra.
Qed.

(** The competitive ratio of the columns if all runs are used. *)
Lemma columns_ratio : forall d os r K, 0 < d -> Qn (length os) == d -> Forall tree_fine os -> Forall tree_ratio_ok os -> stock_columns d os r ->
  0 < K -> Forall (fun o => K <= inject_Z (Z.of_N (to_kmin o)) /\ 0 < to_opt o) os -> 100 * (1 - 1 / K) <= sr_gft_ratio r.
Proof.
  intros d os r K D L F R (_ & _ & _ & _ & _ & _ & _ & A8) KP FK. rewrite A8. apply Qle_shift_div_l; [assumption|].
  assert (X : Forall (fun o => 100 * (1 - 1 / K) <= outcome_gft_ratio o) os).
  { rewrite Forall_forall in *. intros o Ho. destruct (FK o Ho) as [K1 K2]. specialize (R o Ho K KP K1).
    unfold outcome_gft_ratio. destruct (Qeq_bool (to_opt o) 0) eqn:Z; [apply Qeq_bool_iff in Z; exfalso; lra|].
    assert (Y : 1 - 1 / K <= to_gft o / to_opt o).
    { apply Qle_shift_div_l; [assumption|]. apply Qmult_le_l with (z := K); [assumption|].
      setoid_replace (K * ((1 - 1 / K) * to_opt o)) with ((K - 1) * to_opt o) by (field; lra). exact R. }
    lra. }
  rewrite <- L. clear - X. induction X as [|o os Ho X IH]; [change (100 * (1 - 1 / K) * 0 <= 0); lra|].
  cbn [length map Qsum fold_right]. fold (Qsum (map outcome_gft_ratio os)). replace (S (length os)) with (1 + length os)%nat by lia.
  rewrite Qn_plus. change (Qn 1) with 1. lra.
Qed.

Lemma Forall2_map_self : forall A B (R : A -> B -> Prop) f l, (forall x, R x (f x)) -> Forall2 R l (map f l).
Proof. intros A B R f l H. induction l; constructor; auto. Qed.

Theorem stock_experiment_ok : forall M p0 fuel struct counts nums its stocks, 0 < M -> (0 < its)%nat -> stocks <> [] ->
  Forall (fun k => 0 <= k) counts -> Sorted.StronglySorted lt nums ->
  Forall (fun s => length s = its /\ Forall (run_ok M p0 fuel struct counts nums) s) stocks ->
  let auction := fun m => tree_auction M (p0 m) fuel m struct in
  exists rows, stock_experiment auction struct counts nums its stocks = Ok rows
  /\ Forall2 (fun n row => exists ms os, used_markets nums counts n (concat stocks) ms
       /\ Forall2 (tree_outcome_of auction struct) ms os
       /\ (os = [] -> row = (None, 0))
       /\ (os <> [] -> exists r, row = (Some r, formula_of (sr_kmin r)) /\ stock_columns (Qn (length stocks * its)) os r
            /\ first_possible nums n (concat stocks) (sr_possible r) /\ stock_bounds r /\ 0 <= formula_of (sr_kmin r) < 100
            /\ (Forall (tree_input_competitive M struct) ms -> length os = (length stocks * its)%nat -> forall K, 0 < K ->
                Forall (fun o => K <= inject_Z (Z.of_N (to_kmin o)) /\ 0 < to_opt o) os -> 100 * (1 - 1 / K) <= sr_gft_ratio r))) nums rows.
Proof.
  intros M p0 fuel struct counts nums its stocks HM HI NS FC SN H auction.
  assert (HR : Forall (run_ok M p0 fuel struct counts nums) (concat stocks)).
  { apply Forall_concat. eapply Forall_impl; [|exact H]. intros s [_ X]. exact X. }
  assert (LEN : length (concat stocks) = (length stocks * its)%nat).
  { apply concat_length_const. eapply Forall_impl; [|exact H]. intros s [X _]. exact X. }
  assert (S0 : (0 < length stocks)%nat) by (destruct stocks; [congruence|simpl; lia]).
  destruct (runs_succeed M p0 fuel struct counts nums (concat stocks) (fun _ => None) HM FC SN HR) as (T & E). fold auction in E.
  unfold stock_experiment. rewrite stocks_flat, E. cbn [bind]. eexists. split; [reflexivity|].
  rewrite (rows_spec _ _ _ _ (sorted_nodup _ SN)).
  assert (X : forall n, exists ms os, used_markets nums counts n (concat stocks) ms
       /\ Forall2 (tree_outcome_of auction struct) ms os
       /\ (os = [] -> (match T n with None => (None, 0) | Some s => (Some (sr_scale (length stocks) its s), formula_of (sr_kmin (sr_scale (length stocks) its s))) end) = (None, 0))
       /\ (os <> [] -> exists r, (match T n with None => (None, 0) | Some s => (Some (sr_scale (length stocks) its s), formula_of (sr_kmin (sr_scale (length stocks) its s))) end) = (Some r, formula_of (sr_kmin r))
            /\ stock_columns (Qn (length stocks * its)) os r
            /\ first_possible nums n (concat stocks) (sr_possible r) /\ stock_bounds r /\ 0 <= formula_of (sr_kmin r) < 100
            /\ (Forall (tree_input_competitive M struct) ms -> length os = (length stocks * its)%nat -> forall K, 0 < K ->
                Forall (fun o => K <= inject_Z (Z.of_N (to_kmin o)) /\ 0 < to_opt o) os -> 100 * (1 - 1 / K) <= sr_gft_ratio r))).
  { intros n. destruct (runs_totals M p0 fuel struct counts nums (concat stocks) n HM FC SN HR (fun _ => None) T [] E eq_refl)
      as (ms & os & B1 & B2 & B3 & B4 & B5 & _ & B7). fold auction in B2. cbn [app] in B5. exists ms, os. split; [exact B1|]. split; [exact B2|].
    unfold sums_of in B5. destruct (T n) as [s|].
    - destruct B5 as [NO SC]. split; [intros X; contradiction|]. intros _. eexists. split; [reflexivity|].
      assert (SC' := scaled_columns _ _ _ _ SC S0 HI). split; [exact SC'|].
      assert (DP : 0 < Qn (length stocks * its)) by (apply Qn_pos; lia).
      assert (LO : length os = length ms) by (clear - B2; induction B2; cbn; congruence).
      assert (LM := used_markets_length _ _ _ _ _ B1).
      split; [exact (B7 eq_refl s eq_refl)|]. split; [eapply bounds_of_columns; [exact DP|apply Qn_le; rewrite LO, <- LEN; exact LM|exact B3|exact SC']|].
      split; [apply formula_bounds|]. intros FI LL K KP FK. eapply columns_ratio; [exact DP|rewrite LL; reflexivity|exact B3|apply B4; exact FI|exact SC'|exact KP|exact FK].
    - split; [reflexivity || (intros; reflexivity)|]. intros NO. contradiction. }
  apply Forall2_map_self. exact X.
Qed.
