(** * One iteration of stock/experiment_compare_sbb_shufled_stock.py (C92) *)

From Coq Require Import String List Arith NArith Lia ZArith QArith Qround Lqa Bool Permutation.
From Verif Require Import Base Model_Agents Model_Trade Model_Prices Model_Market Model_Ascending Model_TradeReduction Model_McAfee
  Model_Experiment Model_CompareStock Model_StockTables
  Spec_Market Spec_Trade Spec_Ascending Spec_TradeReduction Spec_McAfee Spec_Experiment Spec_StockData Spec_CompareStock Spec_StockTables
  Proof_Agents Proof_Market Proof_StockData Proof_Exp1 Proof_Exp2 Proof_Exp3 Proof_CompareStock Proof_CompareStock2 Proof_CompareStock3
  Proof_CompareStock4 Proof_CompareStock9 Proof_StockTables Proof_StockTables2.
Import ListNotations.
Open Scope Q_scope.

(** ** The market *)
Lemma shuffled_length : forall S b n prices recipe index, length (shuffled_market S b n prices index recipe) = length recipe.
Proof. intros S b n prices recipe. induction recipe as [|r recipe IH]; intros; cbn; [reflexivity|rewrite IH; reflexivity]. Qed.

Lemma shuffled_nth : forall S b n prices recipe index i u c, (0 < index)%nat ->
  nth_error (pieces n prices index recipe) i = Some u -> nth_error (shuffled_market S b n prices index recipe) i = Some c ->
  c = new_category "agent" (map (fun p => inject_Z (py_int (p * (-(1) * Qn b)))) u).
Proof.
  intros S b n prices recipe. induction recipe as [|r recipe IH]; intros index i u c H Hu Hc; [destruct i; discriminate|].
  destruct i as [|i]; cbn [pieces shuffled_market nth_error] in *.
  - injection Hu as <-. injection Hc as <-. destruct (Nat.eqb_spec index 0); [lia|reflexivity].
  - eapply IH; [|exact Hu|exact Hc]. lia.
Qed.

Lemma shuffled_zero : forall S b prices recipe index i c, nth_error (shuffled_market S b 0 prices index recipe) i = Some c ->
  c = new_category "agent" [].
Proof.
  intros S b prices recipe. induction recipe as [|r recipe IH]; intros index i c H; [destruct i; discriminate|].
  destruct i as [|i]; cbn [shuffled_market nth_error] in H; [inversion H; reflexivity|eapply IH; exact H].
Qed.

Lemma shuffled_consecutive : forall b recipe n prices, Forall (fun r => (0 < r)%nat) (b :: recipe) ->
  (n * nsum (b :: recipe) <= length prices)%nat ->
  consecutive_market (b :: recipe) n prices (shuffled_market (nsum (b :: recipe)) b n prices 0 (b :: recipe)).
Proof.
  intros b recipe n prices FP L. exists (pieces n prices 0 (b :: recipe)), (skipn (0 + n * nsum (b :: recipe)) prices).
  split; [rewrite pieces_concat; reflexivity|]. split; [apply pieces_length|]. split; [apply shuffled_length|].
  intros i r u c Hr Hu Hc. split; [eapply pieces_nth; [|exact Hr|exact Hu]; lia|].
  assert (B : (0 < b)%nat) by (inversion FP; assumption).
  destruct i as [|i]; cbn [pieces shuffled_market nth_error] in Hu, Hc.
  - injection Hu as <-. injection Hc as <-. cbn [Nat.eqb].
    eexists. split; [|split; [apply sort_desc_perm|apply sort_desc_desc]].
    apply Forall2_map_right. intros p. eexists. split; [reflexivity|]. cbn [Nat.eqb tl].
    eapply trunc_eq; [|apply py_int_truncation]. cbn [nsum fold_right]. fold (nsum recipe). rewrite Qn_plus. ring.
  - destruct (Nat.eq_dec n 0) as [->|Hn].
    + apply pieces_zero in Hu. subst u. apply shuffled_zero in Hc. subst c. exists []. split; [constructor|]. split; [constructor|]. constructor.
    + apply (shuffled_nth _ _ _ _ _ _ _ _ _) with (2 := Hu) in Hc; [|nia]. subst c.
      eexists. split; [|split; [apply sort_desc_perm|apply sort_desc_desc]].
      apply Forall2_map_right. intros p. eexists. split; [reflexivity|]. cbn [Nat.eqb hd].
      eapply trunc_eq; [|apply py_int_truncation]. ring.
Qed.

Lemma consecutive_tame : forall recipe n prices m P, good_recipe recipe -> (N.of_nat n <= 2000000)%N ->
  0 <= P -> Forall (fun p => 0 <= p <= P) prices -> prices_fit recipe P ->
  consecutive_market recipe n prices m -> tame recipe m.
Proof.
  intros recipe n prices m P (NE & FP) HN P0 HP (PB & PS) (used & rest & PE & LU & LM & H).
  destruct recipe as [|r0 recipe]; [congruence|]. destruct used as [|u0 used]; [discriminate|]. destruct m as [|c0 m]; [discriminate|].
  cbn [hd tl] in PS, PB. injection LU as LU. injection LM as LM.
  assert (R0 : (0 < r0)%nat) by (inversion FP; assumption). assert (Q0 : 1 <= Qn r0) by (change 1 with (Qn 1); apply Qn_le; lia).
  assert (IN : forall i u, nth_error (u0 :: used) i = Some u -> Forall (fun p => 0 <= p <= P) u).
  { intros i u Hu. apply Forall_forall. intros p Hp. rewrite Forall_forall in HP. apply HP. rewrite <- PE.
    apply in_or_app. left. apply in_concat. exists u. split; [|assumption]. eapply nth_error_In; exact Hu. }
  assert (MV : MAX_VALUE == 100000000) by reflexivity. assert (F0 := Qn_nonneg (nsum recipe)). set (f := Qn (nsum recipe)) in *. set (q := Qn r0) in *.
  assert (PF : 0 <= P * f) by nra. assert (PQ : 0 <= P * q) by nra.
  destruct (H 0%nat r0 u0 c0 eq_refl eq_refl eq_refl) as [L0 (vs & V1 & V2 & V3)].
  apply tame_bounds with (B0 := P * f).
  - exact FP.
  - congruence.
  - intros v Hv. apply (Permutation_in _ V2) in Hv. specialize (IN 0%nat u0 eq_refl).
    clear - V1 Hv IN F0 P0 MV. induction V1 as [|p w u0 vs X V1 IH]; [destruct Hv|]. inversion IN as [|? ? Hp IN']; subst.
    destruct Hv as [<-|Hv]; [|apply IH; assumption]. destruct X as (z & -> & T). cbn [Nat.eqb tl hd] in T. fold f in T.
    destruct T as [T _]. assert (Y : 0 <= p * f) by nra. destruct (T Y) as [A B].
    assert (0 <= inject_Z z) by (change 0 with (inject_Z 0); rewrite <- Zle_Qle; exact A). assert (p * f <= P * f) by nra. lra.
  - rewrite MV. lra.
  - intros r Hr. fold q. exact (PS r Hr).
  - intros c v Hc Hv. apply In_nth_error in Hc. destruct Hc as (i & Hi).
    assert (Li : (i < length m)%nat) by (apply nth_error_Some; congruence).
    destruct (nth_error recipe i) as [r|] eqn:Er; [|apply nth_error_None in Er; lia].
    destruct (nth_error used i) as [u|] eqn:Eu; [|apply nth_error_None in Eu; lia].
    destruct (H (S i) r u c Er Eu Hi) as [_ (ws & W1 & W2 & _)]. apply (Permutation_in _ W2) in Hv. specialize (IN (S i) u Eu).
    clear - W1 Hv IN PB Q0 MV P0. induction W1 as [|p w u ws X W1 IH]; [destruct Hv|]. inversion IN as [|? ? Hp IN']; subst.
    destruct Hv as [<-|Hv]; [|apply IH; assumption]. destruct X as (z & -> & T). cbn [Nat.eqb hd] in T. fold q in T. destruct T as [_ T].
    assert (Y : - (p * q) <= 0) by nra. destruct (T Y) as [A B].
    assert (inject_Z z <= 0) by (change 0 with (inject_Z 0); rewrite <- Zle_Qle; exact A). assert (p * q <= P * q) by nra. lra.
  - unfold csize. rewrite (Permutation_length V2), <- (Forall2_length _ _ _ _ _ V1), L0. apply Nat.mul_le_mono_r. unfold default_max_iterations. lia.
  - apply Forall_forall. intros c Hc. apply In_nth_error in Hc. destruct Hc as (i & Hi).
    assert (Li : (i < S (length m))%nat) by (change (S (length m)) with (length (c0 :: m)); apply nth_error_Some; congruence).
    destruct (nth_error (r0 :: recipe) i) as [r|] eqn:Er; [|apply nth_error_None in Er; cbn in Er; lia].
    destruct (nth_error (u0 :: used) i) as [u|] eqn:Eu; [|apply nth_error_None in Eu; cbn in Eu; lia].
    destruct (H i r u c Er Eu Hi) as [_ (ws & _ & _ & W)]. exact W.
Qed.

(** ** The columns *)
Definition spart_labels (name : string) : list string := [name ++ "auctioncount"; name ++ "countratio"; name ++ "gft"; name ++ "gftratio"]%string.

Definition spart_bounds (k0 : nat) (opt : Q) (c : results) : Prop :=
  let x := fun p => snd (nth p c (""%string, 0)) in
  0 <= x 0%nat <= Qn k0 /\ Qn k0 - 1 <= x 0%nat /\ 0 <= x 1%nat <= 100 /\ 0 <= x 2%nat <= opt /\ 0 <= x 3%nat <= 100.

Lemma avoids_mcafee : forall name, avoids "mcafee" name -> py_contains "mcafee" name = false.
Proof.
  intros name H. destruct (py_contains "mcafee" name) eqn:E; [|reflexivity]. exfalso. apply H. apply contains_iff. exact E.
Qed.

Lemma sparts_ok : forall recipe m k k0 opt auctions, good_recipe recipe -> tame recipe m -> optimum recipe m k k0 opt -> 0 <= opt ->
  Forall (fun a => meant_for recipe (snd a) /\ avoids "mcafee" (fst a)) auctions ->
  exists parts, (forall bound, exists b, shuffled_auctions recipe m k0 opt auctions bound = Ok (concat parts, b))
    /\ Forall2 (fun A c => shuffled_part recipe m k0 opt A c /\ map fst c = spart_labels (fst A) /\ spart_bounds k0 opt c
         /\ (budget_balanced (snd A) -> 0 < opt -> 100 * (1 - 1 / Qn k0) <= snd (nth 3 c (""%string, 0)))) auctions parts.
Proof.
  intros recipe m k k0 opt auctions (NE & FP) T O P F. induction F as [|[name f] auctions [MF AV] F IH].
  - exists []. split; [intros bound; exists bound; reflexivity|constructor].
  - destruct IH as (parts & HP & FP2). cbn [fst snd] in MF, AV.
    destruct (auction_facts recipe f m k k0 opt NE FP MF T O) as (t & total & mkt & HA & G & G' & ((S1 & S2) & S3 & S4 & S5 & S6) & BB).
    exists (shuffled_columns name k0 opt (num_of_deals t) mkt :: parts). split.
    + intros bound. cbn [shuffled_auctions]. rewrite (avoids_mcafee _ AV). cbn [bind]. rewrite HA. cbn [bind]. rewrite G'. cbn [bind].
      destruct (HP (Some name)) as (b & ->). cbn [bind fst snd app]. exists b. reflexivity.
    + constructor; [|exact FP2]. unfold shuffled_columns. set (d := num_of_deals t) in *.
      assert (KQ : k0 <> 0%nat -> 0 < Qn k0) by (intros; apply Qn_pos; lia).
      assert (EP : ~ opt == 0 -> 0 < opt) by (intros X; destruct (Qpos_cases opt P); tauto).
      split; [|split; [reflexivity|split]].
      * exists t, total, mkt. split; [exact HA|]. split; [exact G|]. split; [exact G'|]. split; [exact BB|]. cbn zeta. fold d.
        constructor; [split; reflexivity|]. constructor; [split; [reflexivity|]|constructor; [split; reflexivity|constructor; [split; [reflexivity|]|constructor]]]; cbn [snd].
        -- destruct (Nat.eqb_spec k0 0) as [Z|Z]; [reflexivity|]. specialize (KQ Z). unfold percent_of. field. lra.
        -- destruct (Qeq_bool opt 0) eqn:Z; [reflexivity|]. apply Qeq_bool_false in Z. unfold percent_of. field. exact Z.
      * unfold spart_bounds. cbn [nth snd]. cbn zeta.
        assert (N1 := Qn_nonneg d). assert (N2 := Qn_le _ _ S1). assert (N3 := Qn_le _ _ S2). rewrite Qn_plus in N3. change (Qn 1) with 1 in N3.
        split; [split; lra|]. split; [lra|]. split; [|split; [lra|]].
        -- destruct (Nat.eqb_spec k0 0) as [Z|Z]; [lra|]. specialize (KQ Z). split; [apply pct_ge; lra|apply pct_le; lra].
        -- destruct (Qeq_bool opt 0) eqn:Z; [lra|]. apply Qeq_bool_false in Z. specialize (EP Z). split; [apply pct_ge; lra|apply pct_le; lra].
      * cbn [nth snd fst]. intros B OP. specialize (BB B). assert (Z := guarantee _ _ _ _ _ _ O OP S6).
        destruct (Qeq_bool opt 0) eqn:E; [apply Qeq_bool_iff in E; exfalso; rewrite E in OP; discriminate OP|].
        apply pct_ge; [exact OP|]. lra.
Qed.

Lemma nth_concat4 : forall (parts : list results) a p d, Forall (fun c => length c = 4%nat) parts -> (p < 4)%nat ->
  nth (4 * a + p) (concat parts) d = nth p (nth a parts []) d.
Proof.
  intros parts. induction parts as [|c parts IH]; intros a p d F H.
  - transitivity d; [apply nth_overflow; cbn; lia|]. symmetry. destruct a; destruct p; reflexivity.
  - inversion F as [|? ? L F']; subst. cbn [concat]. destruct a as [|a].
    + cbn [nth]. rewrite app_nth1 by (rewrite L; lia). f_equal.
    + cbn [nth]. rewrite app_nth2 by (rewrite L; lia). rewrite L. replace (4 * S a + p - 4)%nat with (4 * a + p)%nat by lia. apply IH; assumption.
Qed.

Lemma shuffled_iteration_ok : forall recipe m auctions, good_recipe recipe -> tame recipe m ->
  Forall (fun a => meant_for recipe (snd a) /\ avoids "mcafee" (fst a)) auctions ->
  exists cs, (forall bound, exists b, shuffled_iteration recipe auctions m bound = Ok (cs, b))
    /\ shuffled_columns_of recipe auctions m cs /\ map fst cs = column_names auctions
    /\ shuffled_bounds cs auctions /\ shuffled_guarantee cs auctions.
Proof.
  intros recipe m auctions GR T F.
  destruct (optimum_found recipe m T) as (dF & rF & dT & rT & EF & ET & OPT & _ & KK & P & _).
  destruct (sparts_ok recipe m _ _ _ auctions GR T OPT P F) as (parts & HP & FP2).
  set (k := mt_num_of_deals dF) in *. set (k0 := mt_num_of_deals dT) in *. set (opt := mt_gain_from_trade dF) in *.
  exists ([("optimalcount", Qn k); ("optimalcountwithgftzero", Qn k0); ("optimalgft", opt)]%string ++ concat parts)%list.
  assert (L4 : Forall (fun c => length c = 4%nat) parts).
  { clear - FP2. induction FP2 as [|A c auctions parts (_ & X & _) FP2 IH]; constructor; [|exact IH].
    rewrite <- (map_length fst), X. reflexivity. }
  assert (SC : forall a p, (p < 4)%nat -> scol ([("optimalcount", Qn k); ("optimalcountwithgftzero", Qn k0); ("optimalgft", opt)]%string ++ concat parts)%list a p
     = snd (nth p (nth a parts []) (""%string, 0))).
  { intros a p Hp. unfold scol, col. rewrite app_nth2 by (cbn [length]; lia). cbn [length]. replace (3 + 4 * a + p - 3)%nat with (4 * a + p)%nat by lia.
    rewrite nth_concat4 by assumption. reflexivity. }
  split; [|split; [|split; [|split]]].
  - intros bound. destruct (HP bound) as (b & HB). exists b. unfold shuffled_iteration. rewrite EF. cbn [bind]. rewrite ET. cbn [bind fst]. cbn zeta.
    fold k k0 opt. rewrite HB. reflexivity.
  - exists k, k0, opt, parts. split; [exact OPT|]. split; [apply same_columns_refl|]. split; [reflexivity|].
    clear - FP2. induction FP2 as [|A c auctions parts (X & _) FP2 IH]; constructor; assumption.
  - unfold column_names. rewrite map_app. f_equal. clear - FP2. induction FP2 as [|A c auctions parts (_ & X & _) FP2 IH]; [reflexivity|].
    cbn [concat flat_map]. rewrite map_app, X, IH. reflexivity.
  - unfold shuffled_bounds. change (col _ 0) with (Qn k). change (col _ 1) with (Qn k0). change (col _ 2) with opt.
    split; [split; [apply Qn_nonneg|apply Qn_le; exact KK]|]. split; [exact P|]. intros a A HA. rewrite !SC by lia.
    destruct (Forall2_nth_l _ _ _ _ _ _ _ FP2 HA) as (c & Hc & (_ & _ & X & _)). rewrite (nth_error_nth _ _ _ Hc). exact X.
  - unfold shuffled_guarantee. intros a A HA. rewrite SC by lia. change (col _ 1) with (Qn k0). change (col _ 2) with opt.
    destruct (Forall2_nth_l _ _ _ _ _ _ _ FP2 HA) as (c & Hc & (_ & _ & _ & X)). rewrite (nth_error_nth _ _ _ Hc). exact X.
Qed.
