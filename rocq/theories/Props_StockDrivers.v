(** * C102: the programs in stock/ finish with all stock files *)

From Coq Require Import String List Arith NArith ZArith Lia QArith Lqa Permutation.
From Verif Require Import Base Model_Agents Model_Trade Model_Prices Model_Market Model_Ascending Model_TradeReduction Model_McAfee
  Model_StockData Model_Experiment Model_CompareStock Model_StockTables Model_Drivers Model_StockDrivers
  Spec_Market Spec_Trade Spec_TradeReduction Spec_StockData Spec_CompareStock Spec_StockTables Spec_StockDrivers
  Proof_Agents Proof_Market Proof_Exp1 Proof_Exp3 Proof_CompareStock9 Proof_StockData Proof_StockDrivers Props_StockData Props_CompareStock Props_StockTables.
Import ListNotations.
Open Scope Q_scope.
Open Scope list_scope.

(** Checking the conditions on the recipes: [w] is a number such that r_0 (r_1 + ... + r_k) <= w r_j for all other categories j. *)
Definition recipe_checkb (w : nat) (recipe : list nat) : bool :=
  ((2 <=? length recipe) && forallb (fun r => 0 <? r) recipe && forallb (fun r => nsum (tl recipe) * hd 0 recipe <=? w * r) (tl recipe))%nat.

Lemma recipe_check : forall w recipe P, recipe_checkb w recipe = true -> 0 <= P -> 1000 * P * Qn w < 100000000 ->
  good_recipe recipe /\ (2 <= length recipe)%nat /\ buyers_fit recipe (1000 * P * Qn (nsum (tl recipe)) * Qn (hd 0%nat recipe)).
Proof.
  intros w recipe P H P0 HP. unfold recipe_checkb in H. repeat rewrite Bool.andb_true_iff in H. destruct H as [[H1 H2] H3].
  apply Nat.leb_le in H1. assert (FP : Forall (fun r => (0 < r)%nat) recipe).
  { apply Forall_forall. intros r Hr. rewrite forallb_forall in H2. apply Nat.ltb_lt. apply H2. exact Hr. }
  split; [split; [intros ->; cbn in H1; lia|exact FP]|]. split; [exact H1|]. intros r Hr. rewrite forallb_forall in H3. specialize (H3 r Hr). apply Nat.leb_le in H3.
  apply Qn_le in H3. rewrite !Qn_mult in H3. assert (R1 : 1 <= Qn r).
  { change 1 with (Qn 1). apply Qn_le. rewrite Forall_forall in FP. apply FP. destruct recipe as [|x l]; [destruct Hr|right; exact Hr]. }
  rewrite <- Qmult_assoc. set (a := Qn (nsum (tl recipe)) * Qn (hd 0%nat recipe)) in *. assert (1000 * P * a <= 1000 * P * (Qn w * Qn r)) by nra.
  assert (1000 * P * (Qn w * Qn r) < Qn r * 100000000) by nra. lra.
Qed.

Lemma in_check : forall A (b : A -> bool) l x, forallb b l = true -> In x l -> b x = true.
Proof. intros A b l x H I. rewrite forallb_forall in H. apply H. exact I. Qed.

Lemma calls_meant : forall x recipe, In (x, recipe) stock_calls -> meant_for recipe (run_mechanism x).
Proof.
  assert (A : Forall (fun c => meant_for (snd c) (run_mechanism (fst c))) stock_calls).
  { unfold stock_calls. repeat (apply Forall_cons; [cbn [fst snd run_mechanism]; first [apply mf_balanced; constructor|apply mf_mcafee; [repeat constructor|left; cbn; lia]]|]). constructor. }
  intros x recipe H. rewrite Forall_forall in A. exact (A _ H).
Qed.

Lemma pair_meant : forall recipe a b, Forall (fun x => meant_for recipe (snd x)) (sbb_pair a b).
Proof. intros recipe a b. constructor; [apply mf_balanced; constructor|]. constructor; [apply mf_balanced; constructor|constructor]. Qed.

(** ascending_auction_experiment_stock.py, mcafee_experiment_stock.py and experiment_sbb_with_vectors_of_ones_stock.py: for all files with prices
    below 25000, every call ends with a table, one row per file, and the row tells the outcome on the agents made of the file. *)
Theorem C102_stock : forall P x recipe files, 0 <= P < 25000 -> Forall (file_ok P) files -> In (x, recipe) stock_calls ->
  exists stocks rows, Forall2 (prices_of recipe) files stocks /\ stock_program x recipe files = Ok rows
    /\ Forall2 (fun stock row => stock_row_facts (run_mechanism x) recipe stock row /\ stock_row_bounds row) stocks rows.
Proof.
  intros P x recipe files [P0 P1] HF HI.
  assert (C : recipe_checkb 4 recipe = true) by (apply (in_check _ (fun c => recipe_checkb 4 (snd c)) stock_calls (x, recipe)); [vm_compute; reflexivity|exact HI]).
  destruct (recipe_check 4 recipe P C P0) as (GR & L & BF); [change (Qn 4) with 4; lra|].
  destruct (files_input P recipe files P0 HF GR L BF) as (stocks & E & F1 & F2).
  destruct (C90_rows recipe (run_mechanism x) stocks GR (calls_meant _ _ HI) F2) as (rows & E2 & F3).
  exists stocks, rows. split; [exact F1|]. split; [unfold stock_program; rewrite E; exact E2|].
  clear - F3. induction F3 as [|s r ss rs (H1 & H2 & _) F3 IH]; constructor; auto.
Qed.
Print Assumptions C102_stock.

(** experiment_sbb_stock_vectors_multi.py and experiment_sbb_stock_vectors_ones.py: prices up to 4166. *)
Theorem C102_sizes : forall P recipe files, 0 <= P <= 4166 -> Forall (file_ok P) files -> In recipe size_recipes ->
  exists stocks tables, Forall2 (prices_of recipe) files stocks /\ size_program recipe underlined_pair size_nums files = Ok tables
    /\ Forall2 (fun stock rows => exists done, measured (length (hd [] stock)) size_nums done
         /\ Forall2 (size_row_facts recipe underlined_pair stock (length (hd [] stock))) done rows) stocks tables.
Proof.
  intros P recipe files [P0 P1] HF HI.
  assert (C : recipe_checkb 24 recipe = true) by (apply (in_check _ (recipe_checkb 24) size_recipes recipe); [vm_compute; reflexivity|exact HI]).
  destruct (recipe_check 24 recipe P C P0) as (GR & L & BF); [change (Qn 24) with 24; lra|].
  destruct (files_input P recipe files P0 HF GR L BF) as (stocks & E & F1 & F2).
  destruct (C91_rows recipe underlined_pair size_nums stocks GR (pair_meant _ _ _) F2) as (tables & E2 & F3).
  exists stocks, tables. split; [exact F1|]. split; [unfold size_program; rewrite E; exact E2|exact F3].
Qed.
Print Assumptions C102_sizes.

(** ** The shuffled prices *)

Lemma perm_prices : forall f l l', Permutation l l' -> shuffled_prices_of f l -> shuffled_prices_of f l'.
Proof. intros f l l' H (zs & T & P). exists zs. split; [exact T|]. rewrite <- H. exact P. Qed.

Lemma all_prices_ok : forall s1 s2 f, (forall l, Permutation l (s1 l)) -> (forall l, Permutation l (s2 l)) ->
  shuffled_prices_of f (map inject_Z (s2 (s1 (all_prices f)))).
Proof.
  intros s1 s2 f H1 H2. exists (all_prices f). split.
  - unfold all_prices, in_thousandths. repeat rewrite <- map_app. generalize (high f ++ close f ++ open_ f ++ low f). intros l.
    induction l as [|x l IH]; constructor; [|exact IH]. apply Proof_StockData4.thousands_thousandth.
  - apply Permutation_map. rewrite <- H2, <- H1. reflexivity.
Qed.

(** getStocksPricesShuffled: every list has the thousandths of its file, in some order, as long as the lists that are already kept are so; what is
    kept afterwards is so too.  (At first nothing is kept; the experiments only permute the lists.) *)
Theorem C102_shuffled_prices : forall shuffles files i cache,
  (forall k l, Permutation l (fst (shuffles k) l)) -> (forall k l, Permutation l (snd (shuffles k) l)) ->
  NoDup (map fst files) -> cache_ok cache files ->
  Forall2 (fun f l => shuffled_prices_of (snd f) l) files (fst (get_stocks_prices_shuffled shuffles i cache files))
  /\ cache_ok (snd (get_stocks_prices_shuffled shuffles i cache files)) files.
Proof.
  intros shuffles files i cache H1 H2 ND CO.
  assert (G : forall todo i cache, incl todo files -> NoDup (map fst todo) -> cache_ok cache files ->
    Forall2 (fun f l => shuffled_prices_of (snd f) l) todo (fst (get_stocks_prices_shuffled shuffles i cache todo))
    /\ cache_ok (snd (get_stocks_prices_shuffled shuffles i cache todo)) files).
  { clear i cache CO. induction todo as [|[name f] todo IH]; intros i cache HI ND' CO; [split; [constructor|exact CO]|].
    cbn [get_stocks_prices_shuffled]. inversion ND' as [|? ? N1 N2]; subst.
    unfold get_all_prices_shuffled. destruct (lookup name cache) as [l|] eqn:EL.
    - destruct (IH (S i) cache (fun x Hx => HI x (or_intror Hx)) N2 CO) as [A B]. destruct (get_stocks_prices_shuffled shuffles (S i) cache todo) as [rest c'] eqn:EG.
      cbn [fst snd] in *. split; [|exact B]. constructor; [|exact A]. apply (CO name); [apply HI; left; reflexivity|exact EL].
    - set (l := snd (shuffles i) (fst (shuffles i) (all_prices f))).
      assert (CO' : cache_ok ((name, l) :: cache) files).
      { intros name' f' l' I E. cbn [lookup] in E. destruct (String.eqb_spec name name') as [->|NE]; [|exact (CO name' f' l' I E)].
        injection E as <-. assert (f' = f).
        { assert (I2 := HI _ (or_introl eq_refl)). clear - ND I I2. induction files as [|[n g] files IH]; [destruct I|]. cbn [map fst] in ND. inversion ND as [|? ? N1 N2]; subst.
          destruct I as [I|I]; destruct I2 as [I2|I2]; try congruence.
          - injection I as -> ->. exfalso. apply N1. apply (in_map fst) in I2. exact I2.
          - injection I2 as -> ->. exfalso. apply N1. apply (in_map fst) in I. exact I.
          - apply IH; assumption. }
        subst f'. apply all_prices_ok; auto. }
      destruct (IH (S i) ((name, l) :: cache) (fun x Hx => HI x (or_intror Hx)) N2 CO') as [A B].
      destruct (get_stocks_prices_shuffled shuffles (S i) ((name, l) :: cache) todo) as [rest c'] eqn:EG.
      cbn [fst snd] in *. split; [|exact B]. constructor; [|exact A]. apply all_prices_ok; auto. }
  apply G; [apply incl_refl|exact ND|exact CO].
Qed.
Print Assumptions C102_shuffled_prices.

Lemma shuffled_bound : forall P files stocks, 0 <= P -> Forall (file_ok P) files -> Forall2 shuffled_prices_of files stocks ->
  Forall (Forall (fun p => 0 <= p <= 1000 * P)) stocks.
Proof.
  intros P files stocks P0 HF H. induction H as [|f l files stocks (zs & T & PE) H IH]; constructor.
  - inversion HF as [|? ? (n & _ & _ & HP) _]; subst. apply Forall_forall. intros p Hp. apply (Permutation_in _ PE) in Hp. apply in_map_iff in Hp. destruct Hp as (z & <- & Hz).
    eapply thousandths_bound; [exact T| |exact Hz]. intros x Hx. rewrite Forall_forall in HP. specialize (HP x Hx). lra.
  - apply IH. inversion HF; assumption.
Qed.

Lemma to_nat_nodup : forall l : list N, NoDup l -> NoDup (map N.to_nat l).
Proof. intros l H. apply FinFun.Injective_map_NoDup; [|exact H]. intros a b E. apply N2Nat.inj. exact E. Qed.

Fixpoint distinctb (l : list N) : bool := match l with [] => true | x :: l' => (negb (existsb (N.eqb x) l') && distinctb l')%bool end.
Lemma distinct_nodup : forall l, distinctb l = true -> NoDup l.
Proof.
  induction l as [|x l IH]; intros H; constructor; cbn [distinctb] in H; apply andb_prop in H; destruct H as [H1 H2]; [|apply IH; exact H2].
  intros I. apply Bool.negb_true_iff in H1. assert (X : existsb (N.eqb x) l = true) by (apply existsb_exists; exists x; split; [exact I|apply N.eqb_refl]). congruence.
Qed.

Definition nums_checkb (l : list N) : bool := (distinctb l && forallb (fun n => n <=? 2000000)%N l)%bool.
Lemma nums_check : forall l, nums_checkb l = true -> NoDup (map N.to_nat l) /\ Forall (fun n => (N.of_nat n <= 2000000)%N) (map N.to_nat l).
Proof.
  intros l H. apply andb_prop in H. destruct H as [H1 H2]. split; [apply to_nat_nodup, distinct_nodup; exact H1|].
  apply Forall_forall. intros n Hn. apply in_map_iff in Hn. destruct Hn as (x & <- & Hx). rewrite forallb_forall in H2. specialize (H2 x Hx). apply N.leb_le in H2. rewrite N2Nat.id. exact H2.
Qed.

Lemma shuffled_fit : forall w recipe P, recipe_checkb w recipe = true -> 0 <= P -> 1000 * P * Qn w < 100000000 -> prices_fit recipe (1000 * P).
Proof.
  intros w recipe P C P0 HP. destruct (recipe_check w recipe P C P0 HP) as (GR & L & BF). split; [|exact BF].
  destruct recipe as [|r0 [|r rest]]; [cbn in L; lia|cbn in L; lia|]. cbn [hd tl] in *. specialize (BF r (or_introl eq_refl)). cbn [nsum fold_right] in BF. fold (nsum rest) in BF. rewrite Qn_plus in BF.
  destruct GR as [_ FP]. inversion FP as [|? ? R0 F2]; subst. inversion F2 as [|? ? R1 _]; subst. assert (1 <= Qn r) by (change 1 with (Qn 1); apply Qn_le; lia). assert (X := Qn_nonneg (nsum rest)).
  assert (Y := Qn_nonneg r0). set (p := 1000 * P * Qn r0) in *. assert (0 <= p) by (unfold p; nra). assert (p * (Qn r + Qn (nsum rest)) < Qn r * 100000000).
  { assert (EQ : 1000 * P * (Qn r + Qn (nsum rest)) * Qn r0 == p * (Qn r + Qn (nsum rest))) by (unfold p; ring). lra. }
  destruct (Qlt_le_dec 100000000 p) as [H3|H3]; [exfalso; nra|exact H3].
Qed.

(** experiment_sbb_stock_vectors_multi_shuffled.py and experiment_sbb_stock_vectors_ones_shuffled.py: prices below 6250. *)
Theorem C102_shuffled : forall P recipe nums files stocks, 0 <= P < 6250 -> Forall (file_ok P) files -> Forall2 shuffled_prices_of files stocks ->
  In (recipe, nums) shuffled_calls ->
  exists (tables : list table) (averages : table),
    shuffled_experiment recipe underlined_pair 1000 (map N.to_nat nums) stocks = Ok (map snd (concat tables ++ averages))
    /\ length tables = length stocks
    /\ (forall i prices t, nth_error stocks i = Some prices -> nth_error tables i = Some t ->
          map fst t = with_row (length prices / nsum recipe) (map N.to_nat nums)
          /\ Forall (fun x => shuffled_row_facts recipe underlined_pair 1000 i prices (fst x) (snd x)) t)
    /\ map fst averages = filter (fun n => match rows_for n tables with [] => false | _ => true end) (map N.to_nat nums)
    /\ Forall (fun x => average_row_facts underlined_pair tables (fst x) (snd x)) averages.
Proof.
  intros P recipe nums files stocks [P0 P1] HF HS HI.
  assert (C : (recipe_checkb 16 recipe && nums_checkb nums)%bool = true).
  { apply (in_check _ (fun c => (recipe_checkb 16 (fst c) && nums_checkb (snd c))%bool) shuffled_calls (recipe, nums)); [vm_compute; reflexivity|exact HI]. }
  apply andb_prop in C. destruct C as [C1 C2]. destruct (nums_check nums C2) as [ND NB].
  assert (PW : 1000 * P * Qn 16 < 100000000) by (change (Qn 16) with 16; lra).
  apply C92_table. split; [exact (proj1 (recipe_check 16 recipe P C1 P0 PW))|]. split; [lia|]. split; [exact ND|]. split.
  { unfold underlined_pair, sbb_pair, column_names. cbn. repeat (constructor; [cbn; intuition discriminate|]). constructor. }
  split; [|split; [exact NB|]].
  - assert (A : forall s, py_contains "mcafee" s = false -> avoids "mcafee" s) by (intros s H X; apply contains_iff in X; congruence).
    constructor; [split; [apply mf_balanced; constructor|apply A; reflexivity]|]. constructor; [split; [apply mf_balanced; constructor|apply A; reflexivity]|constructor].
  - exists (1000 * P). split; [lra|]. split; [eapply shuffled_bound; eassumption|]. eapply shuffled_fit; eassumption.
Qed.
Print Assumptions C102_shuffled.

(** ** The comparisons *)
Lemma comparison_check : forall recipe auctions nums its, In (recipe, auctions, nums, its) comparison_calls ->
  compare_input recipe auctions (map N.to_nat nums) /\ (0 < its)%nat /\ (nsum recipe < 1000)%nat
  /\ forall r, In r (tl recipe) -> (nsum (tl recipe) <= 16 * r)%nat.
Proof.
  intros recipe auctions nums its HI.
  assert (A : forallb (fun c => let '(r, a, n, i) := c in (negb (length r =? 0)%nat && forallb (fun x => 0 <? x)%nat r && nums_checkb n && (0 <? i)%nat && (nsum r <? 1000)%nat
     && forallb (fun x => nsum (tl r) <=? 16 * x)%nat (tl r))%bool) comparison_calls = true) by (vm_compute; reflexivity).
  assert (B : Forall (fun c => let '(r, a, n, i) := c in Forall (fun x => meant_for r (snd x)) a) comparison_calls).
  { assert (F : Forall (fun x => meant_for [1; 1]%nat (snd x)) four_auctions).
    { unfold four_auctions. repeat (apply Forall_cons; [cbn [snd run_mechanism]; first [apply mf_balanced; constructor|apply mf_mcafee; [repeat constructor|left; cbn; lia]]|]). constructor. }
    unfold comparison_calls. constructor; [exact F|]. constructor; [exact F|]. apply Forall_forall. intros c Hc. apply in_map_iff in Hc. destruct Hc as (r & <- & _). apply pair_meant. }
  rewrite forallb_forall in A. specialize (A _ HI). rewrite Forall_forall in B. specialize (B _ HI). cbn beta iota in A, B.
  repeat rewrite Bool.andb_true_iff in A. destruct A as [[[[[A1 A2] A3] A4] A5] A6]. destruct (nums_check nums A3) as [ND NB].
  split; [|split; [apply Nat.ltb_lt; exact A4|split; [apply Nat.ltb_lt; exact A5|]]].
  - split; [intros ->; discriminate A1|]. split; [|split; [exact ND|split; [exact NB|exact B]]].
    apply Forall_forall. intros r Hr. rewrite forallb_forall in A2. apply Nat.ltb_lt. apply A2. exact Hr.
  - intros r Hr. rewrite forallb_forall in A6. apply Nat.leb_le. apply A6. exact Hr.
Qed.

(** experiment_comparing_mcafee_to_sbb_stock.py and experiment_comparing_all_with_all_recipes.py with prices from the files: at least one
    file, every file with at least one day, prices below 6250. *)
Theorem C102_comparison : forall P shuffle recipe auctions nums its files stocks, 0 <= P < 6250 ->
  (forall i j it l, Permutation (shuffle i j it l) l) ->
  Forall (file_ok P) files -> files <> [] -> Forall (fun f => high f <> []) files -> Forall2 shuffled_prices_of files stocks ->
  In (recipe, auctions, nums, its) comparison_calls ->
  exists rows, compare_experiment_stock (FromStock shuffle) recipe auctions its (map N.to_nat nums) stocks = Ok rows
    /\ map fst rows = map N.to_nat nums
    /\ forall j n row, nth_error rows j = Some (n, row) ->
         exists ms L, Forall2 (fun s ml => length ml = its /\ Forall (stock_market recipe (map N.to_nat nums) s j) ml) stocks ms
           /\ Forall2 (columns_of recipe auctions) (concat ms) L /\ row_facts recipe auctions L row.
Proof.
  intros P shuffle recipe auctions nums its files stocks [P0 P1] SH HF NE HD HS HI. destruct (comparison_check _ _ _ _ HI) as (CI & I0 & _ & W).
  apply C86_stock; auto.
  - intros ->. inversion HS; subst. congruence.
  - clear - HS HD. induction HS as [|f l files stocks (zs & T & PE) HS IH]; constructor.
    + inversion HD as [|? ? H _]; subst. destruct (high f) as [|x h] eqn:EH; [congruence|]. cbn [app] in T. inversion T; subst. intros ->.
      apply Permutation_length in PE. cbn in PE. discriminate PE.
    + apply IH. inversion HD; assumption.
  - exists (1000 * P). split; [lra|]. split; [eapply shuffled_bound; eassumption|]. split; [lra|]. intros r Hr. specialize (W r Hr). apply Qn_le in W. rewrite Qn_mult in W.
    change (Qn 16) with 16 in W. destruct CI as (_ & FP & _). assert (R1 : 1 <= Qn r).
    { change 1 with (Qn 1). apply Qn_le. rewrite Forall_forall in FP. apply FP. destruct recipe as [|x l]; [destruct Hr|right; exact Hr]. }
    assert (1000 * P * Qn (nsum (tl recipe)) <= 1000 * P * (16 * Qn r)) by nra. nra.
Qed.
Print Assumptions C102_comparison.

(** The same programs with random values, whatever is drawn. *)
Theorem C102_comparison_random : forall draws recipe auctions nums its stocks, stocks <> [] ->
  In (recipe, auctions, nums, its) comparison_calls ->
  (forall i j it, (j < length nums)%nat -> random_stock_market recipe (map N.to_nat nums) j (map (uniformly_random "agent") (draws i j it))) ->
  exists rows, compare_experiment_stock (FromRandom draws) recipe auctions its (map N.to_nat nums) stocks = Ok rows
    /\ map fst rows = map N.to_nat nums
    /\ forall j n row, nth_error rows j = Some (n, row) ->
         exists ms L, Forall2 (fun s ml => length ml = its /\ Forall (random_stock_market recipe (map N.to_nat nums) j) ml) stocks ms
           /\ Forall2 (columns_of recipe auctions) (concat ms) L /\ row_facts recipe auctions L row.
Proof.
  intros draws recipe auctions nums its stocks NE HI HD. destruct (comparison_check _ _ _ _ HI) as (CI & I0 & SM & _).
  apply C86_random; auto. intros i j it Hj. apply HD. rewrite map_length in Hj. exact Hj.
Qed.
Print Assumptions C102_comparison_random.

(** ** Examples *)

(** A file that meets the conditions, the lists of values, and the tables of two of the programs. *)
Example C102_file : file_ok 14 two_days /\ high two_days <> [].
Proof.
  split; [|discriminate]. exists 2%nat. split; [repeat split|]. split; [reflexivity|]. cbn. repeat (apply Forall_cons; [lra|]). constructor.
Qed.

Example C102_cache : cache_ok [] [("ABC", two_days)]%string
  /\ cache_ok [("ABC", [11000; 9500; 12000; 10000; 13000; 11000; 14000; 12000]%Z)]%string [("ABC", two_days)]%string.
Proof.
  split; [intros n f l _ H; discriminate H|]. intros n f l [H|[]] E. injection H as <- <-. cbn in E. injection E as <-.
  change [11000; 9500; 12000; 10000; 13000; 11000; 14000; 12000]%Z with (rev (all_prices two_days)).
  apply (all_prices_ok (fun l => l) (@rev Z) two_days); [reflexivity|apply Permutation_rev].
Qed.

(** A file whose prices are kept already is not shuffled again. *)
Example C102_shuffled_case : get_stocks_prices_shuffled (fun _ => (@rev Z, fun l => l)) 0 [("B", [5; 7]%Z)]%string [("A", two_days); ("B", flat)]%string
  = ([[11000; 9500; 12000; 10000; 13000; 11000; 14000; 12000]; [5; 7]],
     [("A", [11000; 9500; 12000; 10000; 13000; 11000; 14000; 12000]%Z); ("B", [5; 7]%Z)]%string).
Proof. vm_compute. reflexivity. Qed.

Example C102_stock_case : exists a b, stock_program Ascending [1; 1]%nat [two_days; flat] = Ok [a; b]
  /\ num_possible_trades a = 4%Z /\ optimal_count a == 3 /\ auction_count a == 3 /\ optimal_gft a == 8500
  /\ num_possible_trades b = 4%Z /\ optimal_gft b == 0.
Proof. vm_compute. do 2 eexists. split; [reflexivity|]. repeat apply conj; reflexivity. Qed.

Example C102_size_case : exists a b c, size_program [1; 2]%nat underlined_pair [1; 2; 3]%nat [two_days] = Ok [[a; b; c]]
  /\ map sz_possible [a; b; c] = [1; 2; 2]%nat /\ lookup "optimal_gft"%string (sz_columns b) = Some (Qmake 750000 100).
Proof. vm_compute. do 3 eexists. split; [reflexivity|]. split; reflexivity. Qed.

(** The calls, in full: what the theorems range over. *)
Example C102_calls_stock : stock_calls =
  [(Ascending, [1; 1]); (Ascending, [1; 1; 1]); (Ascending, [1; 1; 1; 1]); (Ascending, [2; 1]); (Ascending, [1; 2]); (Ascending, [2; 1; 1]);
   (McAfee true, [1; 1]); (McAfee false, [1; 1]); (Ascending, [1; 1; 1; 1])]%nat.
Proof. reflexivity. Qed.

Example C102_calls_sizes : size_recipes =
  [[1; 2]; [1; 4]; [1; 8]; [1; 16]; [2; 2]; [2; 3]; [3; 3]; [1; 2; 2]; [2; 2; 2]; [1; 2; 3]; [4; 2; 6]; [1; 2; 3; 4]; [4; 3; 2; 1];
   [1; 1; 1]; [1; 1; 1; 1; 1]; [1; 1; 1; 1; 1; 1; 1; 1; 1]; [1; 1; 1; 1; 1; 1; 1; 1; 1; 1; 1; 1; 1; 1; 1; 1; 1]]%nat
  /\ map N.of_nat size_nums
     = [2; 3; 4; 5; 10; 15; 25; 50; 100; 500; 1000; 2000; 5000; 10000; 20000; 50000; 100000; 200000; 500000; 1000000]%N
  /\ underlined_pair = [("SBB_External_Competition", run_mechanism TradeReduction); ("SBB_Ascending_Prices", run_mechanism Ascending)]%string.
Proof.
  split; [reflexivity|]. split; [|reflexivity]. unfold size_nums. rewrite map_map. rewrite (map_ext _ (fun x => x)); [apply map_id|]. intros x. apply N2Nat.id.
Qed.

Example C102_calls_shuffled : shuffled_calls =
  (let n14 := [2; 3; 4; 5; 10; 15; 25; 50; 100; 500; 1000; 2000; 5000; 10000]%N in let n13 := [2; 3; 4; 5; 10; 15; 25; 50; 100; 500; 1000; 2000; 5000]%N in
   [([1; 2], n14); ([1; 4], n14); ([1; 8], n14); ([1; 16], n14);
    ([1; 1; 1], n13); ([1; 1; 1; 1; 1], n13); ([1; 1; 1; 1; 1; 1; 1; 1; 1], n13); ([1; 1; 1; 1; 1; 1; 1; 1; 1; 1; 1; 1; 1; 1; 1; 1; 1], n13)]%nat).
Proof. reflexivity. Qed.

Example C102_calls_comparison :
  map (fun c => let '(r, a, n, i) := c in (r, map fst a, n, N.of_nat i)) comparison_calls =
  (let four := ["McAfee"; "McAfeeWithoutHeuristic"; "SBBExternalCompetition"; "SBBAscendingPrices"]%string in
   let two := ["SBBExternalCompetition"; "SBBAscendingPrices"]%string in let n11 := [2; 3; 4; 5; 10; 15; 25; 50; 100; 500; 1000]%N in
   ([1; 1]%nat, four, [2; 3; 4; 5; 10; 15; 25; 50; 100; 500; 1000; 2000; 5000]%N, 1000%N) :: ([1; 1]%nat, four, n11, 30%N)
   :: map (fun r => (r, two, n11, 30%N))
     [[4; 3; 2; 1]; [3; 2; 1]; [2; 1]; [2; 2]; [2; 3]; [3; 3]; [3; 2; 2]; [2; 2; 2]; [1; 2; 3]; [4; 2; 6]; [10; 2; 3; 4];
      [1; 1; 1]; [1; 1; 1; 1; 1]; [1; 1; 1; 1; 1; 1; 1; 1; 1]; [1; 1; 1; 1; 1; 1; 1; 1; 1; 1; 1; 1; 1; 1; 1; 1; 1]; [1; 2]; [1; 4]; [1; 8]; [1; 16]]%nat)
  /\ four_auctions = [("McAfee", run_mechanism (McAfee true)); ("McAfeeWithoutHeuristic", run_mechanism (McAfee false));
       ("SBBExternalCompetition", run_mechanism TradeReduction); ("SBBAscendingPrices", run_mechanism Ascending)]%string.
Proof. split; [vm_compute|]; reflexivity. Qed.
