(** * The loops of stock/experiment_compare_sbb_shufled_stock.py (C92) *)

From Coq Require Import String List Arith NArith Lia ZArith QArith Qround Lqa Bool Permutation.
From Verif Require Import Base Model_Agents Model_Trade Model_Prices Model_Market Model_Ascending Model_TradeReduction Model_McAfee
  Model_Experiment Model_CompareStock Model_StockTables
  Spec_Market Spec_Trade Spec_Ascending Spec_TradeReduction Spec_McAfee Spec_Experiment Spec_StockData Spec_CompareStock Spec_StockTables
  Proof_Agents Proof_Market Proof_StockData Proof_Exp1 Proof_Exp2 Proof_Exp3 Proof_CompareStock Proof_CompareStock2 Proof_CompareStock3
  Proof_CompareStock4 Proof_CompareStock9 Proof_StockTables Proof_StockTables2 Proof_StockTables3.
Import ListNotations.
Open Scope Q_scope.

(** ** Columns *)
Lemma scaled_compat : forall w w' a cs, w == w' -> same_columns a (scaled w cs) -> same_columns a (scaled w' cs).
Proof.
  intros w w' a cs E. revert a. induction cs as [|[l v] cs IH]; intros a H; inversion H as [|x y a' b [H1 H2] H3]; subst; constructor.
  - cbn [fst snd] in *. split; [exact H1|]. rewrite H2, E. reflexivity.
  - apply IH. exact H3.
Qed.

Lemma add_scaled : forall w cs ds, same_columns ds (scaled w cs) -> same_columns (add_columns ds cs) (scaled (w + 1) cs).
Proof.
  intros w cs. induction cs as [|[l v] cs IH]; intros ds H; inversion H as [|[l' v'] y ds' b [H1 H2] H3]; subst; cbn [add_columns scaled map]; constructor.
  - cbn [fst snd] in *. split; [reflexivity|]. rewrite H2. ring.
  - apply IH. exact H3.
Qed.

Lemma scaled_one : forall cs, same_columns cs (scaled 1 cs).
Proof. intros cs. induction cs as [|[l v] cs IH]; constructor; [|exact IH]. cbn [fst snd]. split; [reflexivity|ring]. Qed.

Lemma same_labels : forall a b, same_columns a b -> map fst a = map fst b.
Proof. intros a b H. induction H as [|x y a b [E _] H IH]; [reflexivity|]. cbn [map]. congruence. Qed.

Lemma scaled_labels : forall w cs, map fst (scaled w cs) = map fst cs.
Proof. intros w cs. unfold scaled. rewrite map_map. reflexivity. Qed.

Lemma same_col : forall a b p, same_columns a b -> col a p == col b p.
Proof.
  intros a b p H. unfold col. revert p. induction H as [|x y a b [_ E] H IH]; intros [|p]; try reflexivity; cbn [nth]; [exact E|apply IH].
Qed.

Lemma scaled_col : forall w cs p, col (scaled w cs) p == w * col cs p.
Proof.
  intros w cs p. unfold col. revert p. induction cs as [|[l v] cs IH]; intros [|p]; cbn [scaled map nth fst snd]; try ring. apply IH.
Qed.

(** ** OrderedDict *)
Lemma put_fresh : forall key v d, ~ In key (map fst d) -> put key v d = (d ++ [(key, v)])%list.
Proof.
  intros key v d. induction d as [|[k x] d IH]; intros H; [reflexivity|]. cbn [put app]. destruct (String.eqb_spec k key) as [->|N].
  - exfalso. apply H. left. reflexivity.
  - rewrite IH; [reflexivity|]. intros X. apply H. right. exact X.
Qed.

Lemma dict_same : forall r, NoDup (map fst r) -> ordered_dict r = r.
Proof.
  intros r H. unfold ordered_dict. assert (X : forall d, NoDup (map fst (d ++ r)%list) -> fold_left (fun d c => put (fst c) (snd c) d) r d = (d ++ r)%list).
  { clear H. induction r as [|[k v] r IH]; intros d H; [rewrite app_nil_r; reflexivity|]. cbn [fold_left fst snd].
    rewrite put_fresh.
    - rewrite IH; [rewrite <- app_assoc; reflexivity|]. rewrite <- app_assoc. exact H.
    - rewrite map_app in H. cbn [map fst] in H. apply NoDup_remove_2 in H. intros I. apply H. apply in_or_app. left. exact I. }
  apply (X []). exact H.
Qed.

(** ** The iterations of one number of agents *)
Section Stock.
Variables (recipe : list nat) (auctions : list auction) (prices : list Q) (its : nat).
Hypothesis (GR : good_recipe recipe) (ITS : (0 < its)%nat).
Hypothesis AU : Forall (fun a => meant_for recipe (snd a) /\ avoids "mcafee" (fst a)) auctions.
Variable P : Q.
Hypothesis (P0 : 0 <= P) (HP : Forall (fun p => 0 <= p <= P) prices).
Hypothesis PS : prices_fit recipe P.

Let cap := (length prices / nsum recipe)%nat.

Definition outcome (n : nat) (cs : results) : Prop :=
  exists m, consecutive_market recipe (Nat.min n cap) prices m /\ shuffled_columns_of recipe auctions m cs /\ map fst cs = column_names auctions
    /\ shuffled_bounds cs auctions /\ shuffled_guarantee cs auctions.

Lemma sum_pos : (0 < nsum recipe)%nat.
Proof. destruct GR. apply nsum_pos; assumption. Qed.

(** One iteration. *)
Lemma step_ok : forall n, (N.of_nat n <= 2000000)%N -> exists cs, outcome n cs
  /\ forall left last bound (T : entries), (last = false \/ (n <= cap)%nat) -> exists b,
       shuffled_iterations recipe auctions prices n (S left) (last, bound, T)
       = shuffled_iterations recipe auctions prices n left (true, b, set_entry T n (add_entry (T n) (Nat.min n cap, cs))).
Proof.
  intros n HN. assert (SP := sum_pos).
  assert (ER : exists b0 rec, recipe = b0 :: rec) by (destruct GR as [NE _]; clear - NE; destruct recipe; [congruence|eauto]).
  destruct ER as (b0 & rec & ER).
  assert (L : (Nat.min n cap * nsum recipe <= length prices)%nat).
  { assert (X := Nat.mul_div_le (length prices) (nsum recipe) ltac:(lia)). fold cap in X. nia. }
  assert (CM : consecutive_market recipe (Nat.min n cap) prices (shuffled_market (nsum recipe) b0 (Nat.min n cap) prices 0 recipe)).
  { destruct GR as [_ FP]. revert FP L. generalize (Nat.min n cap). rewrite ER. intros. apply shuffled_consecutive; assumption. }
  assert (T : tame recipe (shuffled_market (nsum recipe) b0 (Nat.min n cap) prices 0 recipe)).
  { apply consecutive_tame with (n := Nat.min n cap) (prices := prices) (P := P); auto. lia. }
  destruct (shuffled_iteration_ok recipe _ auctions GR T AU) as (cs & IT & C1 & C2 & C3 & C4).
  exists cs. split; [exists (shuffled_market (nsum recipe) b0 (Nat.min n cap) prices 0 recipe); auto|].
  intros left last bound Tb H. destruct (IT bound) as (b & HB). exists b. cbn [shuffled_iterations].
  destruct (Nat.eqb_spec (nsum recipe) 0) as [Z|_]; [lia|]. fold cap.
  assert (E : (last && (Nat.min n cap <? n))%nat = false).
  { destruct H as [->|H]; [reflexivity|]. replace (Nat.min n cap) with n by lia. rewrite Nat.ltb_irrefl. apply andb_false_r. }
  rewrite E.
  assert (M : forall A (x : A) (y : nat -> A), match recipe with [] => x | b :: _ => y b end = y b0) by (rewrite ER; reflexivity).
  rewrite M, HB. reflexivity.
Qed.

Lemma set_same : forall T n e, set_entry T n e n = e.
Proof. intros. unfold set_entry. rewrite Nat.eqb_refl. reflexivity. Qed.
Lemma set_other : forall T n e x, x <> n -> set_entry T n e x = T x.
Proof. intros T n e x H. unfold set_entry. destruct (Nat.eqb_spec x n); [contradiction|reflexivity]. Qed.

(** All iterations, if the prices suffice. *)
Lemma full_loop : forall n, (N.of_nat n <= 2000000)%N -> (n <= cap)%nat -> exists cs, outcome n cs
  /\ forall left last bound (T : entries), exists b T',
       shuffled_iterations recipe auctions prices n left (last, bound, T) = Ok (last || negb (left =? 0)%nat, b, T')
       /\ (forall x, x <> n -> T' x = T x)
       /\ (T n = None -> (0 < left)%nat -> exists ds, T' n = Some (n, ds) /\ same_columns ds (scaled (Qn left) cs))
       /\ (forall j ds, T n = Some (n, ds) -> same_columns ds (scaled (Qn j) cs) ->
            exists ds', T' n = Some (n, ds') /\ same_columns ds' (scaled (Qn (j + left)) cs)).
Proof.
  intros n HN HC. destruct (step_ok n HN) as (cs & OC & ST). exists cs. split; [exact OC|]. induction left as [|left IH]; intros last bound T.
  - exists bound, T. cbn [shuffled_iterations Nat.eqb negb]. rewrite orb_false_r. split; [reflexivity|]. split; [reflexivity|]. split; [lia|].
    intros j ds E S. exists ds. rewrite Nat.add_0_r. auto.
  - destruct (ST left last bound T (or_intror HC)) as (b & ->). replace (Nat.min n cap) with n by lia.
    destruct (IH true b (set_entry T n (add_entry (T n) (n, cs)))) as (b' & T' & -> & A & _ & C).
    exists b', T'. cbn [orb Nat.eqb negb]. rewrite orb_true_r. split; [reflexivity|]. split; [|split].
    + intros x Hx. rewrite (A x Hx). apply set_other. exact Hx.
    + intros E _. rewrite set_same, E in C. cbn [add_entry] in C. destruct (C 1%nat cs eq_refl (scaled_one cs)) as (ds & E' & S). exists ds. auto.
    + intros j ds E SA. rewrite set_same, E in C. cbn [add_entry snd] in C. apply add_scaled in SA.
      assert (S' : same_columns (add_columns ds cs) (scaled (Qn (j + 1)) cs)) by (eapply scaled_compat; [|exact SA]; rewrite Qn_plus; reflexivity).
      destruct (C (j + 1)%nat _ eq_refl S') as (ds' & E' & S''). exists ds'. split; [exact E'|]. replace (j + S left)%nat with (j + 1 + left)%nat by lia. exact S''.
Qed.

Lemma stopped_loop : forall n left bound (T : entries), (cap < n)%nat ->
  shuffled_iterations recipe auctions prices n left (true, bound, T) = Ok (true, bound, T).
Proof.
  intros n [|left] bound T H; [reflexivity|]. cbn [shuffled_iterations]. assert (SP := sum_pos). destruct (Nat.eqb_spec (nsum recipe) 0) as [Z|_]; [lia|].
  fold cap. replace (Nat.min n cap <? n)%nat with true by (symmetry; apply Nat.ltb_lt; lia). reflexivity.
Qed.

(** What the entry of [n] becomes if it gets a row. *)
Definition recorded (n : nat) (e : entry) : Prop :=
  exists cs ds, outcome n cs /\ e = Some (Nat.min n cap, ds) /\ same_columns ds (scaled (if (n <=? cap)%nat then Qn its else 1) cs).

Lemma number_ok : forall n last bound (T : entries), (N.of_nat n <= 2000000)%N -> T n = None -> exists b T',
  shuffled_iterations recipe auctions prices n its (last, bound, T) = Ok (true, b, T')
  /\ (forall x, x <> n -> T' x = T x)
  /\ (last = false \/ (n <= cap)%nat -> recorded n (T' n)) /\ (last = true -> (cap < n)%nat -> T' n = None).
Proof.
  intros n last bound T HN E. destruct (Nat.leb_spec n cap) as [C|C].
  - destruct (full_loop n HN C) as (cs & OC & ST). destruct (ST its last bound T) as (b & T' & EQ & A & B & _). exists b, T'.
    split; [rewrite EQ; destruct (Nat.eqb_spec its 0); [lia|]; cbn [negb]; rewrite orb_true_r; reflexivity|]. split; [exact A|]. split; [|lia].
    intros _. destruct (B E ITS) as (ds & E1 & S). exists cs, ds. split; [exact OC|]. replace (Nat.min n cap) with n by lia. split; [exact E1|].
    destruct (Nat.leb_spec n cap); [exact S|lia].
  - destruct last.
    + exists bound, T. split; [apply stopped_loop; exact C|]. split; [reflexivity|]. split; [intros [X|X]; [discriminate|lia]|]. auto.
    + destruct (step_ok n HN) as (cs & OC & ST). assert (EI : its = S (pred its)) by lia. rewrite EI. remember (pred its) as l eqn:EL.
      destruct (ST l false bound T (or_introl eq_refl)) as (b & ->). rewrite stopped_loop by exact C.
      exists b, (set_entry T n (add_entry (T n) (Nat.min n cap, cs))). split; [reflexivity|]. split; [intros x Hx; apply set_other; exact Hx|].
      split; [|discriminate]. intros _. exists cs, cs. split; [exact OC|]. rewrite set_same, E. split; [reflexivity|].
      destruct (Nat.leb_spec n cap); [lia|]. apply scaled_one.
Qed.

(** ** All numbers of agents *)
Lemma nums_true : forall nums bound (T : entries), NoDup nums -> Forall (fun n => (N.of_nat n <= 2000000)%N) nums -> (forall n, In n nums -> T n = None) ->
  exists b T', shuffled_nums recipe auctions prices its nums (true, bound, T) = Ok (true, b, T')
  /\ (forall x, ~ In x nums -> T' x = T x)
  /\ forall n, In n nums -> ((n <= cap)%nat -> recorded n (T' n)) /\ ((cap < n)%nat -> T' n = None).
Proof.
  induction nums as [|n nums IH]; intros bound T ND F HT; cbn [shuffled_nums].
  - exists bound, T. split; [reflexivity|]. split; [reflexivity|]. intros ? [].
  - inversion ND as [|? ? NI ND']; subst. inversion F as [|? ? HN F']; subst.
    destruct (number_ok n true bound T HN (HT n (or_introl eq_refl))) as (b & T1 & -> & A & B & C). cbn [bind].
    destruct (IH b T1 ND' F') as (b' & T' & -> & A' & B').
    { intros x Hx. rewrite A by (intros ->; contradiction). apply HT. right. exact Hx. }
    exists b', T'. split; [reflexivity|]. split.
    + intros x Hx. rewrite A' by (intros X; apply Hx; right; exact X). apply A. intros ->. apply Hx. left. reflexivity.
    + intros x [<-|Hx]; [|apply B'; exact Hx]. rewrite A' by exact NI. split; [intros X; apply B; right; exact X|intros X; apply C; [reflexivity|exact X]].
Qed.

Lemma nums_ok : forall nums bound (T : entries), NoDup nums -> Forall (fun n => (N.of_nat n <= 2000000)%N) nums -> (forall n, T n = None) ->
  exists l b T', shuffled_nums recipe auctions prices its nums (false, bound, T) = Ok (l, b, T')
  /\ forall n, In n nums -> (In n (with_row cap nums) -> recorded n (T' n)) /\ (~ In n (with_row cap nums) -> T' n = None).
Proof.
  intros [|n nums] bound T ND F HT; cbn [shuffled_nums].
  - do 3 eexists. split; [reflexivity|]. intros ? [].
  - inversion ND as [|? ? NI ND']; subst. inversion F as [|? ? HN F']; subst.
    destruct (number_ok n false bound T HN (HT n)) as (b & T1 & -> & A & B & C). cbn [bind].
    destruct (nums_true nums b T1 ND' F') as (b' & T' & -> & A' & B').
    { intros x Hx. rewrite A by (intros ->; contradiction). apply HT. }
    do 3 eexists. split; [reflexivity|]. cbn [with_row]. intros x [<-|Hx].
    + rewrite A' by exact NI. split; [intros _; apply B; left; reflexivity|]. intros X. exfalso. apply X. left. reflexivity.
    + destruct (B' x Hx) as [B1 B2]. split.
      * intros [<-|X]; [contradiction|]. apply filter_In in X. destruct X as [_ X]. apply Nat.leb_le in X. apply B1. exact X.
      * intros X. apply B2. destruct (Nat.leb_spec x cap) as [Y|Y]; [|exact Y]. exfalso. apply X. right. apply filter_In. split; [exact Hx|]. apply Nat.leb_le. exact Y.
Qed.
End Stock.

(** ** The rows of a stock *)
Definition divided (its : nat) (cs : results) : results := map (fun c => (fst c, snd c / Qn its)) cs.

Definition stock_table (i its : nat) (nums : list nat) (T : entries) : table :=
  flat_map (fun n => match T n with Some (p, cs) => [(n, mkShuf (Some i) p (ordered_dict (divided its cs)))] | None => [] end) nums.

Lemma flat_map_ext_in : forall A B (f g : A -> list B) l, (forall x, In x l -> f x = g x) -> flat_map f l = flat_map g l.
Proof.
  intros A B f g l. induction l as [|a l IH]; intros H; [reflexivity|]. cbn [flat_map].
  rewrite (H a (or_introl eq_refl)), IH by (intros x Hx; apply H; right; exact Hx). reflexivity.
Qed.

Lemma rows_ok : forall i its nums (T A : entries), NoDup nums -> exists A', shuffled_rows i its nums T A = (map snd (stock_table i its nums T), A')
  /\ forall n, (~ In n nums -> A' n = A n)
     /\ (In n nums -> A' n = match T n with Some (p, cs) => add_entry (A n) (p, divided its cs) | None => A n end).
Proof.
  intros i its. induction nums as [|n nums IH]; intros T A ND; cbn [shuffled_rows stock_table flat_map].
  - exists A. split; [reflexivity|]. intros n. split; [reflexivity|intros []].
  - inversion ND as [|? ? NI ND']; subst. destruct (T n) as [[p cs]|] eqn:E.
    + cbn zeta. fold (divided its cs).
      match goal with |- context[shuffled_rows i its nums ?X ?Y] => destruct (IH X Y ND') as (A' & EQ & HA) end.
      rewrite EQ. cbn [fst snd app map]. exists A'. split.
      * f_equal. f_equal. f_equal. unfold stock_table. apply flat_map_ext_in. intros x Hx. rewrite set_other by (intros ->; contradiction). reflexivity.
      * intros x. destruct (HA x) as [H1 H2]. split.
        -- intros X. rewrite H1 by (intros Y; apply X; right; exact Y). apply set_other. intros ->. apply X. left. reflexivity.
        -- intros [<-|Hx]; [rewrite H1, set_same, E by exact NI; reflexivity|]. rewrite (H2 Hx), !set_other by (intros ->; contradiction). reflexivity.
    + destruct (IH T A ND') as (A' & EQ & HA). rewrite EQ. exists A'. split; [reflexivity|]. intros x. destruct (HA x) as [H1 H2]. split.
      * intros X. apply H1. intros Y. apply X. right. exact Y.
      * intros [<-|Hx]; [rewrite H1, E by exact NI; reflexivity|apply H2; exact Hx].
Qed.

Lemma table_fst : forall i its cap nums T, NoDup nums ->
  (forall n, In n nums -> (In n (with_row cap nums) -> T n <> None) /\ (~ In n (with_row cap nums) -> T n = None)) ->
  map fst (stock_table i its nums T) = with_row cap nums.
Proof.
  intros i its cap nums T ND H.
  assert (X : forall l, (forall n, In n l -> In n nums) ->
     map fst (stock_table i its l T) = filter (fun n => if in_dec Nat.eq_dec n (with_row cap nums) then true else false) l).
  { induction l as [|n l IH]; intros HL; [reflexivity|]. unfold stock_table in *. cbn [flat_map filter]. rewrite map_app, IH by (intros x Hx; apply HL; right; exact Hx).
    destruct (H n (HL n (or_introl eq_refl))) as [H1 H2]. destruct (in_dec Nat.eq_dec n (with_row cap nums)) as [I|I].
    - destruct (T n) as [[p cs]|]; [reflexivity|]. exfalso. apply (H1 I). reflexivity.
    - rewrite (H2 I). reflexivity. }
  rewrite X by auto. destruct nums as [|n nums]; [reflexivity|]. cbn [with_row filter].
  destruct (in_dec Nat.eq_dec n (n :: filter (fun n => (n <=? cap)%nat) nums)) as [_|I]; [|exfalso; apply I; left; reflexivity]. f_equal.
  inversion ND as [|? ? NI _]; subst. apply filter_ext_in. intros x Hx.
  destruct (in_dec Nat.eq_dec x (n :: filter (fun n => (n <=? cap)%nat) nums)) as [[<-|I]|I].
  - contradiction.
  - apply filter_In in I. symmetry. apply I.
  - symmetry. apply not_true_is_false. intros Y. apply I. right. apply filter_In. auto.
Qed.

Lemma rows_for_table : forall i its nums T n, NoDup nums -> In n nums ->
  rows_for n [stock_table i its nums T]
  = match T n with Some (p, cs) => [mkShuf (Some i) p (ordered_dict (divided its cs))] | None => [] end.
Proof.
  intros i its nums T n ND I. unfold rows_for. cbn [flat_map]. rewrite app_nil_r.
  assert (Z : forall l, ~ In n l -> filter (fun x => (fst x =? n)%nat) (stock_table i its l T) = []).
  { induction l as [|x l IH]; intros H; [reflexivity|]. unfold stock_table in *. cbn [flat_map]. rewrite filter_app, IH by (intros X; apply H; right; exact X).
    rewrite app_nil_r. destruct (T x) as [[p cs]|]; [|reflexivity]. cbn [filter fst]. destruct (Nat.eqb_spec x n) as [->|]; [|reflexivity].
    exfalso. apply H. left. reflexivity. }
  induction nums as [|x nums IH]; [destruct I|]. inversion ND as [|? ? NI ND']; subst. unfold stock_table in *. cbn [flat_map]. rewrite filter_app, map_app.
  destruct I as [->|I].
  - rewrite Z by exact NI. cbn [map]. rewrite app_nil_r. destruct (T n) as [[p cs]|]; [|reflexivity]. cbn [filter fst]. rewrite Nat.eqb_refl. reflexivity.
  - rewrite IH by assumption. destruct (T x) as [[p cs]|]; [|reflexivity]. cbn [filter fst]. destruct (Nat.eqb_spec x n) as [->|]; [contradiction|]. reflexivity.
Qed.
