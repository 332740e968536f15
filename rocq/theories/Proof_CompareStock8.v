(** * The stock comparison: a number of agents that occurs twice *)

From Coq Require Import String List Arith NArith Lia ZArith QArith Qround Lqa Bool Permutation.
From Verif Require Import Base Model_Agents Model_Trade Model_Prices Model_Market Model_Experiment Model_CompareStock
  Spec_Market Spec_Trade Spec_StockData Spec_CompareStock Proof_Exp2 Proof_Exp3 Proof_CompareStock Proof_CompareStock2 Proof_CompareStock3
  Proof_CompareStock4 Proof_CompareStock5 Proof_CompareStock6 Proof_CompareStock7.
Import ListNotations.
Open Scope Q_scope.

Lemma accumulate_nonempty : forall total new, new <> [] -> accumulate total new <> [].
Proof. intros [|[l x] total] [|[l' y] new] H; cbn; try congruence; discriminate. Qed.

Lemma fold_nonempty : forall csl acc, Forall (fun cs => cs <> []) csl -> csl <> [] \/ acc <> [] -> fold_left accumulate csl acc <> [].
Proof.
  induction csl as [|cs csl IH]; intros acc F H; [cbn [fold_left]; destruct H; congruence|]. inversion F; subst. cbn [fold_left]. apply IH; [assumption|].
  right. apply accumulate_nonempty. assumption.
Qed.

Lemma columns_nonempty : forall recipe auctions m cs, compare_columns recipe auctions m = Ok cs -> cs <> [].
Proof.
  intros recipe auctions m cs H. unfold compare_columns in H. repeat (apply bind_Ok in H; destruct H as (? & _ & H)). injection H as <-. discriminate.
Qed.

Lemma nums_progress : forall src recipe factor auctions its i (I : nat -> list Q -> Prop) (good : nat -> market -> Prop), (0 < its)%nat ->
  (forall j m, good j m -> exists cs, compare_columns recipe auctions m = Ok cs) ->
  forall rest j,
  (forall p n it prices, nth_error rest p = Some n -> I (j + p)%nat prices \/ I (S (j + p)) prices ->
     exists prices' m, next_market src recipe factor n i (j + p) it prices = Ok (prices', m) /\ I (S (j + p)) prices' /\ good (j + p)%nat m) ->
  forall prices T, I j prices ->
  exists T', compare_nums src recipe factor auctions its i j rest prices T = Ok T'
    /\ forall x, In x rest \/ T x <> [] -> T' x <> [].
Proof.
  intros src recipe factor auctions its i I good ITS COLS rest. induction rest as [|n rest IH]; intros j STEP prices T HI.
  - exists T. split; [reflexivity|]. intros x [[]|H]. exact H.
  - cbn [compare_nums].
    destruct (iterations_ok src recipe factor auctions n i j (I j) (I (S j)) (good j)) with (left := its) (it := 0%nat) (prices := prices) (T := T)
      as (p1 & T1 & ml & csl & E1 & A & B & C & D & E & F).
    { intros it pr Hpr. specialize (STEP 0%nat n it pr eq_refl). rewrite Nat.add_0_r in STEP. apply STEP. exact Hpr. }
    { intros m. apply COLS. }
    { left. exact HI. }
    rewrite E1. cbn [bind fst snd].
    destruct (IH (S j)) with (prices := p1) (T := T1) as (T' & E2 & N2).
    { intros p n' it pr Hp Hpr. specialize (STEP (S p) n' it pr Hp). rewrite Nat.add_succ_r in STEP. apply STEP. exact Hpr. }
    { apply A. left. exact ITS. }
    exists T'. split; [exact E2|]. intros x Hx. apply N2. destruct (Nat.eq_dec x n) as [->|NX].
    + right. rewrite E. apply fold_nonempty.
      * apply Forall_forall. intros cs Hc. clear - D Hc. induction D as [|m c ml csl EC D IH]; [destruct Hc|]. destruct Hc as [<-|Hc]; [|auto].
        eapply columns_nonempty; exact EC.
      * left. intros ->. inversion D; subst. cbn in ITS. lia.
    + destruct Hx as [[X|X]|X]; [congruence|left; exact X|right; rewrite F; assumption].
Qed.

Lemma stocks_progress : forall src recipe factor auctions its (nums : list nat) (I : list Q -> nat -> list Q -> Prop) (good : list Q -> nat -> market -> Prop),
  (0 < its)%nat ->
  (forall s j m, good s j m -> exists cs, compare_columns recipe auctions m = Ok cs) ->
  forall stocks i,
  (forall q s j n it prices, nth_error stocks q = Some s -> nth_error nums j = Some n -> I s j prices \/ I s (S j) prices ->
     exists prices' m, next_market src recipe factor n (i + q) j it prices = Ok (prices', m) /\ I s (S j) prices' /\ good s j m) ->
  (forall s, In s stocks -> I s 0%nat s) -> forall T,
  exists T', compare_stocks src recipe factor auctions its i nums stocks T = Ok T'
    /\ forall x, (In x nums /\ stocks <> []) \/ T x <> [] -> T' x <> [].
Proof.
  intros src recipe factor auctions its nums I good ITS COLS stocks. induction stocks as [|s stocks IH]; intros i STEP START T.
  - exists T. split; [reflexivity|]. intros x [[_ H]|H]; [congruence|exact H].
  - cbn [compare_stocks].
    destruct (nums_progress src recipe factor auctions its i (I s) (good s) ITS (COLS s) nums 0) with (prices := s) (T := T) as (T1 & E1 & H1).
    { intros p n it prices Hp Hpr. specialize (STEP 0%nat s p n it prices eq_refl Hp). rewrite Nat.add_0_r in STEP. apply STEP. exact Hpr. }
    { apply START. left. reflexivity. }
    rewrite E1. cbn [bind]. destruct (IH (S i)) with (T := T1) as (T' & E2 & H2).
    { intros q s' j n it prices Hs Hn Hpr. specialize (STEP (S q) s' j n it prices Hs Hn Hpr). rewrite Nat.add_succ_r in STEP. exact STEP. }
    { intros s' Hs. apply START. right. exact Hs. }
    exists T'. split; [exact E2|]. intros x Hx. apply H2. right. apply H1. destruct Hx as [[X _]|X]; auto.
Qed.

Theorem repeated_number : forall shuffle recipe auctions its nums stocks, (forall i j it l, Permutation (shuffle i j it l) l) ->
  recipe <> [] -> Forall (fun r => (0 < r)%nat) recipe -> Forall (fun n => (N.of_nat n <= 2000000)%N) nums ->
  Forall (fun a => meant_for recipe (snd a)) auctions ->
  (0 < its)%nat -> stocks <> [] -> Forall (fun s => s <> []) stocks -> stock_prices_ok recipe stocks ->
  ~ NoDup nums -> compare_experiment_stock (FromStock shuffle) recipe auctions its nums stocks = Raise TypeError.
Proof.
  intros shuffle recipe auctions its nums stocks SH RN FP HN MF ITS NS NE (P & P0 & HP & PM & PS) DUP.
  destruct (buyer_factor_ok recipe RN FP) as (factor & EF).
  destruct (stocks_progress (FromStock shuffle) recipe factor auctions its nums
             (fun s j prices => s <> [] -> kept (list_max (firstn j nums) * nsum recipe) s prices)
             (fun s j m => In s stocks /\ stock_market recipe nums s j m) ITS) with (stocks := stocks) (i := 0%nat) (T := fun _ : nat => @nil (string * Q)) as (T & ET & HT).
  - intros s j m (Hs & (n & l & Hn & (e & -> & _) & D)).
    assert (TM : tame recipe m).
    { apply drawn_tame with (n := n) (l := copies (2 ^ e) s) (P := P); auto.
      - rewrite Forall_forall in HN. apply HN. eapply nth_error_In; exact Hn.
      - apply Forall_forall. intros x Hx. apply copies_in in Hx. rewrite Forall_forall in HP. specialize (HP s Hs). rewrite Forall_forall in HP. apply HP. exact Hx. }
    destruct (iteration_ok recipe m auctions RN FP TM MF) as (cs & EC & _). eauto.
  - intros q s j n it prices Hq Hj HI. assert (SN : s <> []) by (rewrite Forall_forall in NE; apply NE; eapply nth_error_In; exact Hq).
    destruct (stock_step shuffle recipe nums s factor q j n it prices SH RN FP SN EF Hj) as (p' & m & A & B & C).
    + destruct HI as [HI|HI]; [left|right]; apply HI; exact SN.
    + exists p', m. split; [exact A|]. split; [auto|]. split; [eapply nth_error_In; exact Hq|exact C].
  - intros s Hs _. apply kept_start.
  - unfold compare_experiment_stock. rewrite EF. cbn [bind]. rewrite ET. cbn [bind]. apply rows_dup; [|intros x Hx; apply HT; auto|exact DUP].
    destruct stocks; [congruence|]. cbn [length]. nia.
Qed.
