(** * The table with several numbers of agents per stock (C91) *)

From Coq Require Import String List Arith NArith Lia ZArith QArith Qround Lqa Bool Permutation Sorted.
From Verif Require Import Base Model_Agents Model_Trade Model_Prices Model_Market Model_Ascending Model_TradeReduction Model_McAfee
  Model_Experiment Model_CompareStock Model_StockTables
  Spec_Market Spec_Trade Spec_Ascending Spec_TradeReduction Spec_McAfee Spec_Experiment Spec_StockData Spec_CompareStock Spec_StockTables
  Proof_Agents Proof_Market Proof_StockData Proof_Exp1 Proof_Exp2 Proof_Exp3 Proof_CompareStock Proof_CompareStock2 Proof_CompareStock3
  Proof_StockTables.
Import ListNotations.
Open Scope Q_scope.

Lemma guarantee : forall recipe m k k0 opt total, optimum recipe m k k0 opt -> 0 < opt -> (Qn k0 - 1) * opt <= Qn k0 * total ->
  100 * (1 - 1 / Qn k0) * opt <= 100 * total.
Proof.
  intros recipe m k k0 opt total O P H. assert (KQ : 0 < Qn k0).
  { destruct k0 as [|k0']; [exfalso|apply Qn_pos; lia]. assert (Z := optimum_zero _ _ _ _ O). lra. }
  assert (E : 100 * (1 - 1 / Qn k0) * opt == 100 * ((Qn k0 - 1) * opt) / Qn k0) by (field; lra). rewrite E. apply Qle_shift_div_r; lra.
Qed.

Lemma size_auctions_ok : forall recipe m k k0 opt auctions, good_recipe recipe -> tame recipe m -> optimum recipe m k k0 opt -> 0 <= opt ->
  Forall (fun a => meant_for recipe (snd a)) auctions ->
  exists L, size_auctions_columns recipe m k0 opt auctions = Ok (concat (map fst L), map snd L)
    /\ Forall2 (fun a p => auction_part recipe m k0 opt (py_round2 opt) a (fst p) (snd p)) auctions L.
Proof.
  intros recipe m k k0 opt auctions (NE & FP) T O P MF. induction MF as [|[name f] auctions Hf MF IH]; cbn [size_auctions_columns].
  - exists []. split; [reflexivity|constructor].
  - cbn [snd] in Hf. destruct (auction_facts recipe f m k k0 opt NE FP Hf T O) as (t & total & mkt & A & G & G' & ((S1 & S2) & S3 & S4 & S5 & S6) & BB).
    rewrite A. cbn [bind]. rewrite G'. cbn [bind]. destruct IH as (L & -> & HL). cbn [bind fst snd].
    exists ((size_auction_columns name k0 opt (num_of_deals t) mkt, (k0 <? num_of_deals t)%nat) :: L). split; [reflexivity|].
    constructor; [|exact HL]. cbn [fst snd]. exists t, total, mkt. unfold size_auction_columns. do 4 eexists.
    split; [exact A|]. split; [exact G|]. split; [exact G'|]. split; [reflexivity|].
    destruct (cut_ratio_ok _ _ S1) as [C1 C2]. destruct (rounded_ratio_ok mkt opt P S3 ltac:(lra)) as (R1 & R2 & R3).
    assert (A0 := Qn_nonneg (num_of_deals t)). assert (A1 := Qn_le _ _ S1). assert (A2 := Qn_le _ _ S2). rewrite Qn_plus in A2. change (Qn 1) with 1 in A2.
    split; [apply round2_Qn|]. split; [exact C1|]. split; [apply round2_within|]. split; [exact R1|]. rewrite !round2_Qn.
    split; [lra|]. split; [lra|]. split; [exact C2|].
    split; [split; [rewrite <- round2_0; apply round2_mono; exact S3|apply round2_mono; lra]|]. split; [exact R2|]. split.
    + intros B. specialize (BB B). split; [exact BB|]. intros OP. apply R3; [exact OP|]. assert (Z := guarantee _ _ _ _ _ _ O OP S6). lra.
    + apply Nat.ltb_ge. exact S1.
Qed.

Lemma size_row_ok : forall recipe auctions possible part m, good_recipe recipe -> Forall (fun a => meant_for recipe (snd a)) auctions ->
  stock_input recipe part -> market_of part m ->
  exists row, size_row_of recipe auctions possible m = Ok row /\ sz_possible row = possible
    /\ exists k k0 opt c c0 g parts,
       optimum recipe m k k0 opt
       /\ sz_columns row = ([("optimal_count", c); ("optimal_count_with_gft_zero", c0); ("optimal_gft", g)]%string ++ concat parts)%list
       /\ c == Qn k /\ c0 == Qn k0 /\ within (1 # 200) opt g /\ 0 <= c <= c0 /\ 0 <= g
       /\ length parts = length auctions /\ length (sz_warned row) = length auctions
       /\ forall j a cs w, nth_error auctions j = Some a -> nth_error parts j = Some cs -> nth_error (sz_warned row) j = Some w ->
            auction_part recipe m k0 opt g a cs w.
Proof.
  intros recipe auctions possible part m GR MF SI MO. assert (T := stock_tame _ _ _ GR SI MO).
  destruct (optimum_found recipe m T) as (dF & rF & dT & rT & EF & ET & OPT & _ & KK & P & _).
  destruct (size_auctions_ok recipe m _ _ _ auctions GR T OPT P MF) as (L & EL & HL).
  unfold size_row_of. rewrite EF. cbn [bind]. rewrite ET. cbn [bind fst]. cbn zeta. rewrite EL. cbn [bind fst snd].
  eexists. split; [reflexivity|]. split; [reflexivity|]. cbn [sz_columns sz_warned].
  do 6 eexists. exists (map fst L). split; [exact OPT|]. split; [reflexivity|]. split; [apply round2_Qn|]. split; [apply round2_Qn|].
  split; [apply round2_within|]. rewrite !round2_Qn. split; [split; [apply Qn_nonneg|apply Qn_le; exact KK]|].
  split; [rewrite <- round2_0; apply round2_mono; exact P|]. assert (LL : length auctions = length L) by (eapply Forall2_length; exact HL). rewrite !map_length.
  split; [auto|]. split; [auto|]. intros j a cs w Ha Hcs Hw. destruct (Forall2_nth_l _ _ _ _ _ _ _ HL Ha) as (p & Hp & X).
  assert (E1 := eq_trans (eq_sym Hcs) (map_nth_error fst j L Hp)). assert (E2 := eq_trans (eq_sym Hw) (map_nth_error snd j L Hp)).
  injection E1 as ->. injection E2 as ->. exact X.
Qed.

(** ** The values that take part *)
Fixpoint cut_values (n : nat) (stock : list (list Q)) (recipe : list nat) : list (list Q) :=
  match stock, recipe with c :: stock', r :: recipe' => firstn (n * r) c :: cut_values n stock' recipe' | _, _ => [] end.

Lemma cut_market_ok : forall n stock recipe, length stock = length recipe ->
  cut_market n stock recipe = Ok (map (new_category "agent") (cut_values n stock recipe)).
Proof.
  intros n. induction stock as [|c stock IH]; intros [|r recipe] L; try discriminate; cbn [cut_market cut_values map]; [reflexivity|].
  rewrite IH by (injection L as L; exact L). reflexivity.
Qed.

Lemma cut_values_nth : forall n stock recipe, length stock = length recipe -> length (cut_values n stock recipe) = length stock
  /\ forall j c r, nth_error stock j = Some c -> nth_error recipe j = Some r -> nth_error (cut_values n stock recipe) j = Some (firstn (n * r) c).
Proof.
  intros n. induction stock as [|c stock IH]; intros [|r recipe] L; try discriminate; cbn [cut_values].
  - split; [reflexivity|]. intros [|j] ? ? H; discriminate.
  - injection L as L. destruct (IH recipe L) as [A B]. split; [cbn; congruence|].
    intros [|j] c' r' H1 H2; cbn in *; [injection H1 as <-; injection H2 as <-; reflexivity|]. apply B; assumption.
Qed.

Lemma In_firstn : forall A n (l : list A) x, In x (firstn n l) -> In x l.
Proof. intros A n l x H. rewrite <- (firstn_skipn n l). apply in_or_app. left. exact H. Qed.

Lemma part_input : forall recipe stock N n part, stock_input recipe stock -> taking_part recipe stock N n part -> stock_input recipe part.
Proof.
  intros recipe stock N n part (L & (U & HU & SU) & (i & c & r & Hc & Hr & LC)) (LP & HP).
  assert (X : forall j p, nth_error part j = Some p -> exists c r, nth_error stock j = Some c /\ nth_error recipe j = Some r
     /\ p = if (N <? n)%nat then c else firstn (n * r) c).
  { intros j p Hj. assert (LJ : (j < length part)%nat) by (apply nth_error_Some; congruence).
    destruct (nth_error stock j) as [c'|] eqn:E1; [|apply nth_error_None in E1; lia].
    destruct (nth_error recipe j) as [r'|] eqn:E2; [|apply nth_error_None in E2; lia].
    exists c', r'. split; [reflexivity|]. split; [reflexivity|]. apply (HP j); assumption. }
  split; [congruence|]. split.
  - exists U. split; [|exact SU].
    assert (X' : forall j p, nth_error part j = Some p -> exists c, nth_error stock j = Some c /\ forall v, In v p -> In v c).
    { intros j p Hj. destruct (X j p Hj) as (c' & r' & E1 & _ & ->). exists c'. split; [exact E1|]. intros v Hv.
      destruct (N <? n)%nat; [exact Hv|]. eapply In_firstn. exact Hv. }
    clear - X' LP HU. revert part LP X'. induction HU as [|c u stock U [H1 H2] HU IH]; intros [|p part] LP X'; try discriminate; constructor.
    + split; [exact H1|]. intros v Hv. destruct (X' 0%nat p eq_refl) as (c' & E & I). injection E as <-. apply H2. apply I. exact Hv.
    + apply IH; [injection LP as LP; exact LP|]. intros j p' Hj. exact (X' (S j) p' Hj).
  - destruct (nth_error part i) as [p|] eqn:Ep.
    + destruct (X i p Ep) as (c' & r' & E1 & E2 & E3). assert (c' = c) by congruence. assert (r' = r) by congruence. subst c' r'.
      exists i, p, r. split; [exact Ep|]. split; [exact Hr|]. subst p. destruct (N <? n)%nat; [exact LC|].
      rewrite firstn_length. lia.
    + apply nth_error_None in Ep. assert (i < length stock)%nat by (apply nth_error_Some; congruence). lia.
Qed.

(** ** The rows of one stock *)
Definition b2n (b : bool) : nat := if b then 1%nat else 0%nat.

Lemma how_many_cons : forall A (p : A -> bool) x l, how_many p (x :: l) = (b2n (p x) + how_many p l)%nat.
Proof. intros A p x l. unfold how_many. cbn [filter]. destruct (p x); reflexivity. Qed.

Lemma size_rows_ok : forall recipe auctions first stock nums last, good_recipe recipe ->
  Forall (fun a => meant_for recipe (snd a)) auctions -> stock_input recipe (first :: stock) -> let N := length first in
  exists done rows rest, size_rows recipe auctions (first :: stock) last nums = Ok rows
    /\ Forall2 (size_row_facts recipe auctions (first :: stock) N) done rows
    /\ nums = (done ++ rest)%list /\ (how_many (fun n => N <? n)%nat done + b2n last <= 1)%nat
    /\ (rest = [] \/ exists n rest', rest = n :: rest' /\ (N < n)%nat /\ (how_many (fun n => N <? n)%nat done + b2n last)%nat = 1%nat).
Proof.
  intros recipe auctions first stock nums last GR MF SI N. revert last. induction nums as [|n nums IH]; intros last; cbn [size_rows].
  - exists [], [], []. split; [reflexivity|]. split; [constructor|]. split; [reflexivity|]. split; [destruct last; cbn; lia|left; reflexivity].
  - fold N. destruct (Nat.ltb_spec (Nat.min n N) n) as [H|H].
    + destruct last.
      * exists [], [], (n :: nums). split; [reflexivity|]. split; [constructor|]. split; [reflexivity|]. split; [cbn; lia|]. right.
        exists n, nums. split; [reflexivity|]. split; [lia|reflexivity].
      * assert (TP : taking_part recipe (first :: stock) N n (first :: stock)).
        { split; [reflexivity|]. intros j c r p E1 _ E2. assert (c = p) by congruence. destruct (Nat.ltb_spec N n); [congruence|lia]. }
        destruct (size_row_ok recipe auctions (Nat.min n N) (first :: stock) _ GR MF SI (new_market_of _)) as (row & -> & EP & k & k0 & opt & c & c0 & g & parts & X).
        cbn [bind]. destruct (IH true) as (done & rows & rest & -> & F & E & HM & R). cbn [bind].
        exists (n :: done), (row :: rows), rest. split; [reflexivity|]. split; [|split; [cbn; congruence|]].
        -- constructor; [|exact F]. split; [exact EP|]. exists (first :: stock), (map (new_category "agent") (first :: stock)), k, k0, opt, c, c0, g, parts.
           split; [exact TP|]. split; [apply new_market_of|exact X].
        -- rewrite how_many_cons. destruct (Nat.ltb_spec N n); [|lia]. cbn [b2n] in *. split; [lia|].
           destruct R as [R|(n' & rest' & R1 & R2 & R3)]; [left; exact R|right]. exists n', rest'. split; [exact R1|]. split; [exact R2|lia].
    + rewrite cut_market_ok by apply SI. cbn [bind]. assert (EM : Nat.min n N = n) by lia. rewrite EM.
      destruct (cut_values_nth n (first :: stock) recipe (proj1 SI)) as [LC HC].
      assert (TP : taking_part recipe (first :: stock) N n (cut_values n (first :: stock) recipe)).
      { split; [exact LC|]. intros j c r p E1 E2 E3. rewrite (HC j c r E1 E2) in E3. destruct (Nat.ltb_spec N n); [lia|congruence]. }
      destruct (size_row_ok recipe auctions n (cut_values n (first :: stock) recipe) _ GR MF (part_input _ _ _ _ _ SI TP) (new_market_of _))
        as (row & -> & EP & k & k0 & opt & c & c0 & g & parts & X).
      cbn [bind]. destruct (IH last) as (done & rows & rest & -> & F & E & HM & R). cbn [bind].
      exists (n :: done), (row :: rows), rest. split; [reflexivity|]. split; [|split; [cbn; congruence|]].
      * constructor; [|exact F]. split; [rewrite EM; exact EP|]. exists (cut_values n (first :: stock) recipe), (map (new_category "agent") (cut_values n (first :: stock) recipe)), k, k0, opt, c, c0, g, parts.
        split; [exact TP|]. split; [apply new_market_of|exact X].
      * rewrite how_many_cons. destruct (Nat.ltb_spec N n); [lia|]. cbn [b2n]. split; [lia|].
        destruct R as [R|(n' & rest' & R1 & R2 & R3)]; [left; exact R|right]. exists n', rest'. split; [exact R1|]. split; [exact R2|lia].
Qed.

Theorem size_experiment_ok : forall recipe auctions nums stocks, good_recipe recipe -> Forall (fun a => meant_for recipe (snd a)) auctions ->
  Forall (stock_input recipe) stocks ->
  exists tables, size_experiment recipe auctions nums stocks = Ok tables
    /\ Forall2 (fun stock rows => exists done, measured (length (hd [] stock)) nums done
         /\ Forall2 (size_row_facts recipe auctions stock (length (hd [] stock))) done rows) stocks tables.
Proof.
  intros recipe auctions nums stocks GR MF H. induction H as [|s stocks Hs H IH]; cbn [size_experiment].
  - exists []. split; [reflexivity|constructor].
  - destruct s as [|first s]; [exfalso; destruct GR as [NE _]; destruct Hs as [L _]; destruct recipe; [congruence|discriminate]|].
    destruct (size_rows_ok recipe auctions first s nums false GR MF Hs) as (done & rows & rest & -> & F & E & HM & R).
    destruct IH as (tables & -> & T). cbn [bind]. eexists. split; [reflexivity|]. constructor; [|exact T]. exists done.
    cbn [hd]. split; [|exact F]. exists rest. cbn [b2n] in *. rewrite Nat.add_0_r in *. split; [exact E|]. split; [exact HM|].
    destruct R as [R|(n & rest' & R1 & R2 & R3)]; [left; exact R|right; exists n, rest'; auto].
Qed.

(** ** Ascending numbers of agents *)
Lemma filter_all : forall A (p : A -> bool) l, Forall (fun x => p x = true) l -> filter p l = l.
Proof. intros A p l H. induction H as [|x l Hx H IH]; cbn; [reflexivity|]. rewrite Hx, IH. reflexivity. Qed.

Lemma filter_none : forall A (p : A -> bool) l, Forall (fun x => p x = false) l -> filter p l = [].
Proof. intros A p l H. induction H as [|x l Hx H IH]; cbn; [reflexivity|]. rewrite Hx, IH. reflexivity. Qed.

Lemma sorted_split : forall N (l : list nat), StronglySorted le l ->
  exists a b, l = (a ++ b)%list /\ Forall (fun n => (n <= N)%nat) a /\ Forall (fun n => (N < n)%nat) b.
Proof.
  intros N l S. induction S as [|n l S IH F]; [exists [], []; auto|]. destruct IH as (a & b & -> & Fa & Fb). destruct (Nat.leb_spec n N).
  - exists (n :: a), b. split; [reflexivity|]. split; [constructor; assumption|assumption].
  - exists [], (n :: a ++ b). split; [reflexivity|]. split; [constructor|]. constructor; [assumption|].
    rewrite Forall_forall in *. intros x Hx. specialize (F x Hx). lia.
Qed.

Lemma sorted_app : forall (a b : list nat), StronglySorted le (a ++ b)%list -> StronglySorted le a
  /\ forall x y, In x a -> In y b -> (x <= y)%nat.
Proof.
  induction a as [|x a IH]; intros b S; [split; [constructor|intros ? ? []]|]. cbn in S. inversion S as [|? ? S' F]; subst.
  destruct (IH b S') as [A B]. rewrite Forall_forall in F. split.
  - constructor; [exact A|]. apply Forall_forall. intros y Hy. apply F, in_or_app. left. exact Hy.
  - intros x' y [<-|Hx] Hy; [apply F, in_or_app; right; exact Hy|apply B; assumption].
Qed.

Lemma measured_sorted : forall N nums done, StronglySorted le nums -> measured N nums done ->
  map (fun n => Nat.min n N) done
  = (filter (fun n => n <=? N)%nat nums ++ (if existsb (fun n => N <? n)%nat nums then [N] else []))%list.
Proof.
  intros N nums done S (rest & -> & HM & R). destruct (sorted_app _ _ S) as [SD SO]. destruct (sorted_split N done SD) as (a & b & -> & Fa & Fb).
  assert (Fa1 : Forall (fun n => (N <? n)%nat = false) a) by (eapply Forall_impl; [|exact Fa]; intros; apply Nat.ltb_ge; assumption).
  assert (Fb1 : Forall (fun n => (N <? n)%nat = true) b) by (eapply Forall_impl; [|exact Fb]; intros; apply Nat.ltb_lt; assumption).
  assert (Fa2 : Forall (fun n => (n <=? N)%nat = true) a) by (eapply Forall_impl; [|exact Fa]; intros; apply Nat.leb_le; assumption).
  assert (Fb2 : Forall (fun n => (n <=? N)%nat = false) b) by (eapply Forall_impl; [|exact Fb]; intros; apply Nat.leb_gt; assumption).
  assert (C : how_many (fun n => N <? n)%nat (a ++ b) = length b).
  { unfold how_many. rewrite filter_app, (filter_none _ _ a), (filter_all _ _ b) by assumption. reflexivity. }
  rewrite C in *. assert (ER : b = [] -> rest = []).
  { intros ->. destruct R as [R|(n & rest' & _ & _ & X)]; [exact R|discriminate]. }
  assert (Fr : filter (fun n => n <=? N)%nat rest = []).
  { destruct b as [|x b]; [rewrite ER by reflexivity; reflexivity|]. apply filter_none. apply Forall_forall. intros y Hy.
    assert (x <= y)%nat by (apply SO; [apply in_or_app; right; left; reflexivity|exact Hy]). inversion Fb; subst. apply Nat.leb_gt. lia. }
  rewrite !filter_app, (filter_all _ _ a), (filter_none _ _ b), Fr by assumption. rewrite !app_nil_r, map_app. f_equal.
  - rewrite <- (map_id a) at 2. apply map_ext_in. intros n Hn. rewrite Forall_forall in Fa. specialize (Fa n Hn). lia.
  - rewrite !existsb_app. replace (existsb (fun n => N <? n)%nat a) with false.
    + destruct b as [|x [|y b]]; [rewrite ER by reflexivity; reflexivity| |cbn in HM; lia]. assert (HX : (N < x)%nat) by (inversion Fb; assumption).
      assert (HX' : (N <? x)%nat = true) by (apply Nat.ltb_lt; exact HX). cbn [existsb map]. cbv beta. rewrite HX'. cbn [orb]. f_equal. lia.
    + symmetry. clear - Fa1. induction Fa1 as [|x a Hx H IH]; [reflexivity|]. cbn [existsb]. rewrite Hx. exact IH.
Qed.

(** ** The number of possible trades *)
Lemma possible_exact : forall recipe stock N n part, length recipe = length stock ->
  (forall j c r, nth_error stock j = Some c -> nth_error recipe j = Some r -> length c = (N * r)%nat) ->
  taking_part recipe stock N n part ->
  forall j p r, nth_error part j = Some p -> nth_error recipe j = Some r -> length p = (Nat.min n N * r)%nat.
Proof.
  intros recipe stock N n part L H (LP & HP) j p r Hp Hr.
  destruct (nth_error stock j) as [c|] eqn:Ec; [|apply nth_error_None in Ec; assert (j < length recipe)%nat by (apply nth_error_Some; congruence); lia].
  rewrite (HP j c r p Ec Hr Hp). specialize (H j c r Ec Hr). destruct (Nat.ltb_spec N n).
  - rewrite H. f_equal. lia.
  - rewrite firstn_length, H. nia.
Qed.
