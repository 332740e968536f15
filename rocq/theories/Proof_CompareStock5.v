(** * The loops of the stock comparison *)

From Coq Require Import String List Arith NArith Lia ZArith QArith Qround Lqa Bool Permutation.
From Verif Require Import Base Model_Agents Model_Trade Model_Prices Model_Market Model_Experiment Model_CompareStock
  Spec_Market Spec_Trade Spec_StockData Spec_CompareStock Proof_Exp2 Proof_CompareStock.
Import ListNotations.
Open Scope Q_scope.

(** ** Sums *)
Lemma add_columns_spec : forall lab acc new, map fst acc = lab -> map fst new = lab ->
  map fst (add_columns acc new) = lab /\ forall p, col (add_columns acc new) p == col acc p + col new p.
Proof.
  induction lab as [|l lab IH]; intros [|[la x] acc] [|[ln y] new] Ha Hn; try discriminate.
  - split; [reflexivity|]. intros p. unfold col. cbn [add_columns]. destruct p; cbn; lra.
  - injection Ha as -> Ha. injection Hn as -> Hn. destruct (IH acc new Ha Hn) as [A B]. cbn [add_columns]. split; [cbn [map fst]; congruence|].
    intros [|p]; unfold col; cbn [nth snd]; [lra|apply B].
Qed.

Lemma accumulate_spec : forall lab, lab <> [] -> forall L acc, map fst acc = lab -> (forall cs, In cs L -> map fst cs = lab) ->
  map fst (fold_left accumulate L acc) = lab
  /\ forall p, col (fold_left accumulate L acc) p == col acc p + Qsum (map (fun cs => col cs p) L).
Proof.
  intros lab NE L. induction L as [|cs L IH]; intros acc HA HL.
  - split; [exact HA|]. intros p. cbn. lra.
  - cbn [fold_left map Qsum fold_right]. 
    assert (E : accumulate acc cs = add_columns acc cs) by (destruct acc; [cbn in HA; congruence|reflexivity]).
    destruct (add_columns_spec lab acc cs HA (HL cs (or_introl eq_refl))) as [A B].
    rewrite E. destruct (IH (add_columns acc cs) A) as [C D]; [intros; apply HL; right; assumption|].
    split; [exact C|]. intros p. rewrite D, B. fold (Qsum (map (fun cs => col cs p) L)). lra.
Qed.

Lemma totals_spec : forall lab L, lab <> [] -> L <> [] -> (forall cs, In cs L -> map fst cs = lab) ->
  map fst (fold_left accumulate L []) = lab
  /\ forall p, col (fold_left accumulate L []) p == Qsum (map (fun cs => col cs p) L).
Proof.
  intros lab [|cs L] NE NL H; [congruence|]. cbn [fold_left]. change (accumulate [] cs) with cs.
  destruct (accumulate_spec lab NE L cs (H cs (or_introl eq_refl))) as [A B]; [intros; apply H; right; assumption|].
  split; [exact A|]. intros p. rewrite B. cbn [map Qsum fold_right]. reflexivity.
Qed.

Lemma averages_of_totals : forall lab L n, lab <> [] -> n = length L -> (0 < n)%nat -> (forall cs, In cs L -> map fst cs = lab) ->
  averages L (map (fun c => (fst c, snd c / Qn n)) (fold_left accumulate L [])).
Proof.
  intros lab L n NE -> HN H. assert (NL : L <> []) by (destruct L; [cbn in HN; lia|discriminate]).
  destruct (totals_spec lab L NE NL H) as [A B]. split.
  - intros cs Hc. rewrite map_map. cbn [fst]. rewrite (H cs Hc). symmetry. exact A.
  - intros p Hp. rewrite map_length in Hp. set (R := fold_left accumulate L []) in *.
    specialize (B p). unfold col in B.
    set (g := fun c : string * Q => (fst c, snd c / Qn (length L))).
    rewrite (nth_indep (map g R) (""%string, 0) (g (""%string, 0))) by (rewrite map_length; exact Hp).
    rewrite (map_nth g). unfold g. cbn [snd]. unfold average. rewrite map_length, B. reflexivity.
Qed.

(** ** The iterations *)
Lemma iterations_ok : forall src recipe factor auctions n i j (I0 I1 : list Q -> Prop) (good : market -> Prop),
  (forall it prices, I0 prices \/ I1 prices -> exists prices' m, next_market src recipe factor n i j it prices = Ok (prices', m) /\ I1 prices' /\ good m) ->
  (forall m, good m -> exists cs, compare_columns recipe auctions m = Ok cs) ->
  forall left it prices T, I0 prices \/ I1 prices ->
  exists prices' T' ml csl, compare_iterations src recipe factor auctions n i j left it prices T = Ok (prices', T')
    /\ ((0 < left)%nat \/ I1 prices -> I1 prices') /\ length ml = left /\ Forall good ml
    /\ Forall2 (fun m cs => compare_columns recipe auctions m = Ok cs) ml csl
    /\ T' n = fold_left accumulate csl (T n) /\ forall x, x <> n -> T' x = T x.
Proof.
  intros src recipe factor auctions n i j I0 I1 good STEP COLS left. induction left as [|left IH]; intros it prices T HI.
  - exists prices, T, [], []. cbn [compare_iterations]. repeat split; auto. intros [H|H]; [lia|assumption].
  - cbn [compare_iterations]. destruct (STEP it prices HI) as (p1 & m & E1 & HI1 & G). rewrite E1. cbn [bind fst snd].
    destruct (COLS m G) as (cs & EC). rewrite EC. cbn [bind].
    destruct (IH (S it) p1 (set_total T n (accumulate (T n) cs)) (or_intror HI1)) as (p2 & T' & ml & csl & E2 & A & B & C & D & E & F).
    exists p2, T', (m :: ml), (cs :: csl). split; [exact E2|]. split; [intros _; apply A; right; assumption|]. split; [cbn; congruence|].
    split; [constructor; assumption|]. split; [constructor; assumption|]. split.
    + rewrite E. cbn [fold_left]. unfold set_total. rewrite Nat.eqb_refl. reflexivity.
    + intros x Hx. rewrite F by assumption. unfold set_total. destruct (Nat.eqb_spec x n); [congruence|reflexivity].
Qed.

(** [I j]: what is known of the list of prices before the [j]-th number of agents. *)
Lemma nums_ok : forall src recipe factor auctions its i (I : nat -> list Q -> Prop) (good : nat -> market -> Prop), (0 < its)%nat ->
  (forall j m, good j m -> exists cs, compare_columns recipe auctions m = Ok cs) ->
  forall rest j,
  (forall p n it prices, nth_error rest p = Some n -> I (j + p)%nat prices \/ I (S (j + p)) prices ->
     exists prices' m, next_market src recipe factor n i (j + p) it prices = Ok (prices', m) /\ I (S (j + p)) prices' /\ good (j + p)%nat m) ->
  NoDup rest -> forall prices T, I j prices ->
  exists T' csll, compare_nums src recipe factor auctions its i j rest prices T = Ok T'
    /\ length csll = length rest
    /\ (forall p n, nth_error rest p = Some n ->
          T' n = fold_left accumulate (nth p csll []) (T n)
          /\ exists ml, length ml = its /\ Forall (good (j + p)%nat) ml /\ Forall2 (fun m cs => compare_columns recipe auctions m = Ok cs) ml (nth p csll []))
    /\ forall x, ~ In x rest -> T' x = T x.
Proof.
  intros src recipe factor auctions its i I good ITS COLS rest. induction rest as [|n rest IH]; intros j STEP ND prices T HI.
  - exists T, []. cbn [compare_nums]. split; [reflexivity|]. split; [reflexivity|]. split; [intros [|p] n H; discriminate|auto].
  - inversion ND as [|? ? NI ND']; subst. cbn [compare_nums].
    destruct (iterations_ok src recipe factor auctions n i j (I j) (I (S j)) (good j)) with (left := its) (it := 0%nat) (prices := prices) (T := T)
      as (p1 & T1 & ml & csl & E1 & A & B & C & D & E & F).
    { intros it pr Hpr. specialize (STEP 0%nat n it pr eq_refl). rewrite Nat.add_0_r in STEP. apply STEP. exact Hpr. }
    { intros m. apply COLS. }
    { left. exact HI. }
    rewrite E1. cbn [bind fst snd].
    destruct (IH (S j)) with (prices := p1) (T := T1) as (T' & csll & E2 & L2 & H2 & N2).
    { intros p n' it pr Hp Hpr. specialize (STEP (S p) n' it pr Hp). rewrite Nat.add_succ_r in STEP. apply STEP. exact Hpr. }
    { exact ND'. }
    { apply A. left. exact ITS. }
    exists T', (csl :: csll). split; [exact E2|]. split; [cbn; congruence|]. split.
    + intros [|p] n' Hn; cbn [nth_error nth] in *.
      * injection Hn as <-. rewrite Nat.add_0_r. split; [rewrite N2 by assumption; exact E|]. exists ml. auto.
      * destruct (H2 p n' Hn) as [X Y]. rewrite Nat.add_succ_r. split; [|exact Y]. rewrite X, F; [reflexivity|].
        intros ->. apply NI. eapply nth_error_In; exact Hn.
    + intros x Hx. rewrite N2, F; [reflexivity| |]; intros X; apply Hx; [left; congruence|right; assumption].
Qed.

Lemma stocks_ok : forall src recipe factor auctions its (nums : list nat) (I : list Q -> nat -> list Q -> Prop) (good : list Q -> nat -> market -> Prop),
  (0 < its)%nat -> NoDup nums ->
  (forall s j m, good s j m -> exists cs, compare_columns recipe auctions m = Ok cs) ->
  forall stocks i,
  (forall q s j n it prices, nth_error stocks q = Some s -> nth_error nums j = Some n -> I s j prices \/ I s (S j) prices ->
     exists prices' m, next_market src recipe factor n (i + q) j it prices = Ok (prices', m) /\ I s (S j) prices' /\ good s j m) ->
  (forall s, In s stocks -> I s 0%nat s) -> forall T,
  exists T' css, compare_stocks src recipe factor auctions its i nums stocks T = Ok T'
    /\ forall j n, nth_error nums j = Some n ->
         T' n = fold_left accumulate (concat (map (fun csll => nth j csll []) css)) (T n)
         /\ exists ms, Forall2 (fun s ml => length ml = its /\ Forall (good s j) ml) stocks ms
              /\ Forall2 (Forall2 (fun m cs => compare_columns recipe auctions m = Ok cs)) ms (map (fun csll => nth j csll []) css).
Proof.
  intros src recipe factor auctions its nums I good ITS ND COLS stocks. induction stocks as [|s stocks IH]; intros i STEP START T.
  - exists T, []. split; [reflexivity|]. intros j n Hn. split; [reflexivity|]. exists []. split; constructor.
  - cbn [compare_stocks].
    destruct (nums_ok src recipe factor auctions its i (I s) (good s) ITS (COLS s) nums 0) with (prices := s) (T := T) as (T1 & csll & E1 & L1 & H1 & _).
    { intros p n it prices Hp Hpr. specialize (STEP 0%nat s p n it prices eq_refl Hp). rewrite Nat.add_0_r in STEP. apply STEP. exact Hpr. }
    { exact ND. }
    { apply START. left. reflexivity. }
    rewrite E1. cbn [bind]. destruct (IH (S i)) with (T := T1) as (T' & css & E2 & H2).
    { intros q s' j n it prices Hs Hn Hpr. specialize (STEP (S q) s' j n it prices Hs Hn Hpr). rewrite Nat.add_succ_r in STEP. exact STEP. }
    { intros s' Hs. apply START. right. exact Hs. }
    exists T', (csll :: css). split; [exact E2|]. intros j n Hn.
    destruct (H1 j n Hn) as [A (ml & B1 & B2 & B3)]. destruct (H2 j n Hn) as [C (ms & D1 & D2)].
    split; [cbn [map concat]; rewrite fold_left_app, <- A; exact C|]. exists (ml :: ms). cbn [map]. split; constructor; auto.
Qed.

(** ** The rows *)
Lemma rows_ok : forall division T nums done, (0 < division)%nat -> NoDup nums -> (forall n, In n nums -> ~ In n done) ->
  (forall n, In n nums -> T n <> []) ->
  compare_rows division T done nums = Ok (map (fun n => (n, map (fun c => (fst c, snd c / Qn division)) (T n))) nums).
Proof.
  intros division T nums. induction nums as [|n nums IH]; intros done DP ND HD HT; [reflexivity|].
  inversion ND as [|? ? NI ND']; subst. cbn [compare_rows map].
  assert (TN : T n <> []) by (apply HT; left; reflexivity).
  assert (EX : existsb (Nat.eqb n) done = false).
  { destruct (existsb (Nat.eqb n) done) eqn:X; [|reflexivity]. apply existsb_exists in X. destruct X as (y & Hy & Ey). apply Nat.eqb_eq in Ey. subst y.
    exfalso. apply (HD n); [left; reflexivity|exact Hy]. }
  rewrite EX. destruct (Nat.eqb_spec division 0); [lia|].
  rewrite (IH (n :: done)); [| exact DP | exact ND' | | intros x Hx; apply HT; right; exact Hx].
  - destruct (T n) as [|c r] eqn:E; [congruence|]. reflexivity.
  - intros x Hx [<-|X]; [contradiction|]. apply (HD x); [right; exact Hx|exact X].
Qed.

(** A number that occurs twice. *)
Lemma rows_repeated : forall division T nums done n, (0 < division)%nat -> (forall x, In x nums -> T x <> []) -> In n nums -> In n done ->
  compare_rows division T done nums = Raise TypeError.
Proof.
  intros division T nums. induction nums as [|x nums IH]; intros done n DP HT HN HD; [destruct HN|]. cbn [compare_rows].
  assert (TX : T x <> []) by (apply HT; left; reflexivity).
  destruct (T x) as [|c r] eqn:E; [congruence|]. destruct (existsb (Nat.eqb x) done) eqn:EX; [reflexivity|].
  destruct (Nat.eqb_spec division 0); [lia|]. destruct HN as [->|HN].
  - exfalso. assert (Y : existsb (Nat.eqb n) done = true) by (apply existsb_exists; exists n; split; [exact HD|apply Nat.eqb_refl]). congruence.
  - rewrite (IH (x :: done) n); auto; [|right; exact HD]. intros y Hy. apply HT. right. exact Hy.
Qed.

Lemma rows_dup : forall division T nums done, (0 < division)%nat -> (forall x, In x nums -> T x <> []) -> ~ NoDup nums ->
  compare_rows division T done nums = Raise TypeError.
Proof.
  intros division T nums. induction nums as [|x nums IH]; intros done DP HT HN; [destruct HN; constructor|]. cbn [compare_rows].
  assert (TX : T x <> []) by (apply HT; left; reflexivity).
  destruct (T x) as [|c r] eqn:E; [congruence|]. destruct (existsb (Nat.eqb x) done) eqn:EX; [reflexivity|].
  destruct (Nat.eqb_spec division 0); [lia|].
  assert (HT' : forall y, In y nums -> T y <> []) by (intros y Hy; apply HT; right; exact Hy).
  destruct (in_dec Nat.eq_dec x nums) as [Hx|Hx].
  - rewrite (rows_repeated division T nums (x :: done) x); auto. left. reflexivity.
  - rewrite IH; auto. intros ND. apply HN. constructor; assumption.
Qed.

Lemma rows_none : forall division nums done, compare_rows division (fun _ => []) done nums = Ok (map (fun n => (n, [])) nums).
Proof. intros division nums. induction nums as [|n nums IH]; intros done; [reflexivity|]. cbn [compare_rows]. rewrite IH. reflexivity. Qed.
