(** * One iteration of the stock comparison *)

From Coq Require Import String List Arith NArith Lia ZArith QArith Qround Lqa Bool Permutation.
From Verif Require Import Base Model_Agents Model_Trade Model_Prices Model_Market Model_Ascending Model_TradeReduction Model_McAfee
  Model_Experiment Model_CompareStock
  Spec_Market Spec_Trade Spec_Ascending Spec_TradeReduction Spec_McAfee Spec_Experiment Spec_StockData Spec_CompareStock
  Proof_Agents Proof_Market Proof_StockData Proof_Exp1 Proof_Exp2 Proof_Exp3 Proof_CompareStock Proof_CompareStock2 Proof_CompareStock3.
Import ListNotations.
Open Scope Q_scope.

Definition part_labels (name : string) : list string :=
  map (fun c => (name ++ c)%string) ["count"; "countratio"; "totalgft"; "totalgftratio"; "marketgft"; "marketgftratio";
    "withoutgftzerocountratio"; "withoutgftzerototalgft"; "withoutgftzerototalgftratio"]%string.

Definition labels (auctions : list auction) : list string :=
  ["optimalcount"; "gftratioformula"; "optimalcountwithgftzero"; "optimalgft"; "optimalgftwithgftzero"]%string
  ++ concat (map (fun a => part_labels (fst a)) auctions).

Lemma same_columns_refl : forall a, same_columns a a.
Proof. intros a. induction a; constructor; auto. split; reflexivity. Qed.

Lemma part_columns : forall recipe m A t k k0 opt opt0 total mkt, opt0 == opt ->
  snd A m recipe = Ok t -> gain_from_trade t true = Ok total -> gain_from_trade t false = Ok mkt -> (k <= k0)%nat ->
  columns_of_auction recipe m k k0 opt A (auction_columns (fst A) k k0 opt opt0 (num_of_deals t) total mkt).
Proof.
  intros recipe m A t k k0 opt opt0 total mkt E HA G G' KK. exists t, total, mkt. split; [exact HA|]. split; [exact G|]. split; [exact G'|].
  cbn zeta. unfold auction_columns, same_columns.
  assert (PO : forall x, (if Qeq_bool opt 0 then 0 else x / opt0 * 100) == (if Qeq_bool opt 0 then 0 else percent_of x opt)).
  { intros x. destruct (Qeq_bool opt 0) eqn:Z; [reflexivity|]. apply Qeq_bool_false in Z. unfold percent_of. rewrite E. field. exact Z. }
  assert (PO' : forall x, (if Qeq_bool opt 0 then 0 else x / opt * 100) == (if Qeq_bool opt 0 then 0 else percent_of x opt)).
  { intros x. destruct (Qeq_bool opt 0) eqn:Z; [reflexivity|]. apply Qeq_bool_false in Z. unfold percent_of. field. exact Z. }
  assert (PK : forall j, (k <= j)%nat -> (if (k =? 0)%nat then 0 else Qn (num_of_deals t) / Qn j * 100) == (if (k =? 0)%nat then 0 else percent_of (Qn (num_of_deals t)) (Qn j))).
  { intros j Hj. destruct (Nat.eqb_spec k 0); [reflexivity|]. unfold percent_of. assert (0 < Qn j) by (apply Qn_pos; lia). field. lra. }
  repeat (constructor; [cbn [fst snd]; split; [reflexivity|]; auto using PO, PO', PK; try reflexivity|]). constructor.
Qed.

Lemma parts_ok : forall recipe m k k0 opt opt0 auctions, recipe <> [] -> Forall (fun r => (0 < r)%nat) recipe -> tame recipe m ->
  optimum recipe m k k0 opt -> opt0 == opt -> 0 <= opt -> (opt == 0 <-> k = 0%nat) -> (k <= k0)%nat ->
  Forall (fun a => meant_for recipe (snd a)) auctions ->
  exists parts, auctions_columns recipe m k k0 opt opt0 auctions = Ok (concat parts)
    /\ Forall2 (fun A c => columns_of_auction recipe m k k0 opt A c /\ map fst c = part_labels (fst A) /\ length c = 9%nat
         /\ part_bounds k k0 opt (ratio_formula recipe k) c
         /\ (budget_balanced (snd A) -> let x := fun p => snd (nth p c (""%string, 0)) in
             x marketgft == x totalgft /\ x marketgftratio == x totalgftratio)) auctions parts.
Proof.
  intros recipe m k k0 opt opt0 auctions NE FP T O E P Z KK F. induction F as [|[name f] auctions MF F IH].
  - exists []. split; [reflexivity|constructor].
  - destruct IH as (parts & HP & FP2). cbn [snd] in MF.
    destruct (auction_facts recipe f m k k0 opt NE FP MF T O) as (t & total & mkt & HA & G & G' & S & BB).
    exists (auction_columns name k k0 opt opt0 (num_of_deals t) total mkt :: parts). split.
    + cbn [auctions_columns]. rewrite HA. cbn [bind]. rewrite G. cbn [bind]. rewrite G'. cbn [bind]. rewrite HP. reflexivity.
    + constructor; [|exact FP2]. destruct (part_ok recipe name k k0 opt opt0 _ _ _ E P Z KK S) as [PB PE].
      split; [exact (part_columns recipe m (name, f) t k k0 opt opt0 total mkt E HA G G' KK)|].
      split; [reflexivity|]. split; [reflexivity|]. split; [exact PB|]. cbn [fst snd]. intros B. exact (PE (BB B)).
Qed.

Lemma nth_concat9 : forall (parts : list results) a p d, Forall (fun c => length c = 9%nat) parts -> (p < 9)%nat ->
  nth (9 * a + p) (concat parts) d = nth p (nth a parts []) d.
Proof.
  intros parts. induction parts as [|c parts IH]; intros a p d F H.
  - transitivity d; [apply nth_overflow; cbn; lia|]. symmetry. destruct a; destruct p; reflexivity.
  - inversion F as [|? ? L F']; subst. cbn [concat]. destruct a as [|a].
    + cbn [nth]. rewrite app_nth1 by (rewrite L; lia). f_equal.
    + cbn [nth]. rewrite app_nth2 by (rewrite L; lia). rewrite L. replace (9 * S a + p - 9)%nat with (9 * a + p)%nat by lia. apply IH; assumption.
Qed.

Definition iteration_fine (auctions : list auction) (cs : results) : Prop :=
  map fst cs = labels auctions /\ optimum_bounds cs
  /\ forall a A, nth_error auctions a = Some A -> row_bounds_stock cs a
       /\ (budget_balanced (snd A) -> acol cs a marketgft == acol cs a totalgft /\ acol cs a marketgftratio == acol cs a totalgftratio).

Lemma iteration_ok : forall recipe m auctions, recipe <> [] -> Forall (fun r => (0 < r)%nat) recipe -> tame recipe m ->
  Forall (fun a => meant_for recipe (snd a)) auctions ->
  exists cs, compare_columns recipe auctions m = Ok cs /\ columns_of recipe auctions m cs /\ iteration_fine auctions cs.
Proof.
  intros recipe m auctions NE FP T F.
  destruct (optimum_found recipe m T) as (dF & rF & dT & rT & HF & HT & O & E & KK & P & Z1 & Z2).
  destruct (parts_ok recipe m _ _ _ _ auctions NE FP T O E P (conj Z1 Z2) KK F) as (parts & HP & F2).
  set (k := mt_num_of_deals dF) in *. set (k0 := mt_num_of_deals dT) in *. set (opt := mt_gain_from_trade dF) in *. set (opt0 := mt_gain_from_trade dT) in *.
  exists (optimal_columns recipe k k0 opt opt0 ++ concat parts)%list. split; [|split; [|split; [|split]]].
  - unfold compare_columns. rewrite HF. cbn [bind]. rewrite HT. cbn [bind fst]. cbn zeta. fold k k0 opt opt0. rewrite HP. reflexivity.
  - exists k, k0, opt, (ratio_formula recipe k), parts. split; [exact O|]. split; [apply formula_ok|]. split; [|split].
    + unfold optimal_columns. cbn [app firstn]. repeat (constructor; [split; [reflexivity|]; cbn [snd]; (exact E || reflexivity)|]). constructor.
    + reflexivity.
    + clear - F2. induction F2 as [|A c auctions parts (X & _) F2 IH]; constructor; auto.
  - rewrite map_app. unfold labels. f_equal. clear - F2. induction F2 as [|A c auctions parts (_ & X & _) F2 IH]; [reflexivity|].
    cbn [map concat]. rewrite map_app, X, IH. reflexivity.
  - destruct (formula_bounds recipe k) as [FB _]. assert (N := Qn_nonneg k). assert (N' := Qn_le k k0 KK).
    unfold optimum_bounds, col, optimal_columns, optimalcount, gftratioformula, optimalcountwithgftzero, optimalgft, optimalgftwithgftzero. cbn [app nth snd].
    split; [split; assumption|]. split; [exact FB|]. split; [exact P|exact E].
  - intros a A HA. assert (L9 : Forall (fun c => length c = 9%nat) parts).
    { clear - F2. induction F2 as [|A c auctions parts (_ & _ & X & _) F2 IH]; constructor; auto. }
    assert (exists c, nth_error parts a = Some c /\ part_bounds k k0 opt (ratio_formula recipe k) c
      /\ (budget_balanced (snd A) -> let x := fun p => snd (nth p c (""%string, 0)) in x marketgft == x totalgft /\ x marketgftratio == x totalgftratio)) as (c & Hc & PB & PE).
    { clear - F2 HA. revert a HA. induction F2 as [|A' c auctions parts (_ & _ & _ & X & Y) F2 IH]; intros [|a] HA; try discriminate.
      - injection HA as <-. exists c. auto.
      - apply IH. exact HA. }
    assert (EC : forall p, (p < 9)%nat -> acol (optimal_columns recipe k k0 opt opt0 ++ concat parts)%list a p = snd (nth p c (""%string, 0))).
    { intros p Hp. unfold acol, col. change (5 + 9 * a + p)%nat with (5 + (9 * a + p))%nat.
      rewrite app_nth2 by (cbn [optimal_columns length]; lia). cbn [optimal_columns length].
      replace (5 + (9 * a + p) - 5)%nat with (9 * a + p)%nat by lia. rewrite nth_concat9 by assumption.
      rewrite (nth_error_nth _ _ _ Hc). reflexivity. }
    assert (COLS : forall p, (p < 5)%nat -> col (optimal_columns recipe k k0 opt opt0 ++ concat parts)%list p = snd (nth p (optimal_columns recipe k k0 opt opt0) (""%string, 0))).
    { intros p Hp. unfold col. rewrite app_nth1 by (cbn; lia). reflexivity. }
    split.
    + unfold row_bounds_stock. rewrite !EC by (unfold count, countratio, totalgft, totalgftratio, marketgft, marketgftratio, withoutgftzerocountratio, withoutgftzerototalgft, withoutgftzerototalgftratio; lia).
      rewrite !COLS by (unfold optimalcountwithgftzero, optimalgft, gftratioformula; lia). exact PB.
    + intros B. rewrite !EC by (unfold totalgft, totalgftratio, marketgft, marketgftratio; lia). exact (PE B).
Qed.
