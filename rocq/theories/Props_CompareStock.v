(** * C86 - C88: the comparison of the auctions on stock prices *)

From Coq Require Import String Ascii List Arith NArith Lia ZArith QArith Qabs Lqa Permutation.
From Verif Require Import Base Model_Agents Model_Trade Model_Market Model_Ascending Model_TradeReduction Model_McAfee
  Model_Experiment Model_CompareStock Spec_Market Spec_Trade Spec_Ascending Spec_TradeReduction Spec_StockData Spec_CompareStock Proof_Exp3
  Proof_CompareStock7 Proof_CompareStock8 Proof_CompareStock9.
Import ListNotations.
Open Scope Q_scope.

(** ** C86: the rows *)

(** C86.  On stock prices: one row per number of agents; its columns are the averages, over all stocks and all iterations, of
    the columns of markets made of different prices of the stock (doubled as often as necessary, and multiplied, for the
    buyers, by the number of sellers per buyer), whatever the shuffles; and the bounds of the documentation hold. *)
Theorem C86_stock : forall shuffle recipe auctions its nums stocks, (forall i j it l, Permutation (shuffle i j it l) l) ->
  compare_input recipe auctions nums -> (0 < its)%nat -> stocks <> [] -> Forall (fun s => s <> []) stocks -> stock_prices_ok recipe stocks ->
  exists rows, compare_experiment_stock (FromStock shuffle) recipe auctions its nums stocks = Ok rows
    /\ map fst rows = nums
    /\ forall j n row, nth_error rows j = Some (n, row) ->
         exists ms L, Forall2 (fun s ml => length ml = its /\ Forall (stock_market recipe nums s j) ml) stocks ms
           /\ Forall2 (columns_of recipe auctions) (concat ms) L /\ row_facts recipe auctions L row.
Proof. exact stock_experiment. Qed.
Print Assumptions C86_stock.

(** C86.  The same with random valuations, for every outcome of the random numbers. *)
Theorem C86_random : forall draws recipe auctions its nums stocks,
  compare_input recipe auctions nums -> (nsum recipe < 1000)%nat -> (0 < its)%nat -> stocks <> [] ->
  (forall i j it, (j < length nums)%nat -> random_stock_market recipe nums j (map (uniformly_random "agent") (draws i j it))) ->
  exists rows, compare_experiment_stock (FromRandom draws) recipe auctions its nums stocks = Ok rows
    /\ map fst rows = nums
    /\ forall j n row, nth_error rows j = Some (n, row) ->
         exists ms L, Forall2 (fun s ml => length ml = its /\ Forall (random_stock_market recipe nums j) ml) stocks ms
           /\ Forall2 (columns_of recipe auctions) (concat ms) L /\ row_facts recipe auctions L row.
Proof. exact random_stock_experiment. Qed.
Print Assumptions C86_random.

(** C86.  A stock without prices: the program does not end (if it is the first one; here the first number of agents is
    positive). *)
Theorem C86_empty_stock : forall shuffle recipe auctions its nums stocks n,
  recipe <> [] -> Forall (fun r => (0 < r)%nat) recipe -> (0 < its)%nat -> (0 < n)%nat ->
  compare_experiment_stock (FromStock shuffle) recipe auctions its (n :: nums) ([] :: stocks) = Timeout.
Proof. exact empty_stock. Qed.
Print Assumptions C86_empty_stock.

(** ... no number of doublings makes it long enough. *)
Theorem C86_empty_stock_forever : forall need fuel, (0 < need)%nat -> double_until fuel need [] = Timeout.
Proof. intros need fuel H. induction fuel as [|f IH]; cbn; destruct need; try lia; [reflexivity|]. exact IH. Qed.
Print Assumptions C86_empty_stock_forever.

(** C86.  Without iterations or stocks: rows without results. *)
Theorem C86_no_iterations : forall src recipe auctions nums stocks its, recipe <> [] -> Forall (fun r => (0 < r)%nat) recipe ->
  its = 0%nat \/ stocks = [] -> compare_experiment_stock src recipe auctions its nums stocks = Ok (map (fun n => (n, [])) nums).
Proof. exact no_iterations. Qed.
Print Assumptions C86_no_iterations.

(** C86.  The buyers' factor divides by the first entry of the recipe. *)
Theorem C86_bad_recipe : forall src recipe auctions nums stocks its,
  (recipe = [] -> compare_experiment_stock src recipe auctions its nums stocks = Raise IndexError)
  /\ (forall recipe', recipe = 0%nat :: recipe' -> compare_experiment_stock src recipe auctions its nums stocks = Raise ZeroDivisionError).
Proof. exact bad_recipe. Qed.
Print Assumptions C86_bad_recipe.

(** C86.  A number of agents that is listed twice makes the whole experiment fail, after all the iterations. *)
Theorem C86_repeated_number : forall shuffle recipe auctions its nums stocks, (forall i j it l, Permutation (shuffle i j it l) l) ->
  recipe <> [] -> Forall (fun r => (0 < r)%nat) recipe -> Forall (fun n => (N.of_nat n <= 2000000)%N) nums ->
  Forall (fun a => meant_for recipe (snd a)) auctions ->
  (0 < its)%nat -> stocks <> [] -> Forall (fun s => s <> []) stocks -> stock_prices_ok recipe stocks ->
  ~ NoDup nums -> compare_experiment_stock (FromStock shuffle) recipe auctions its nums stocks = Raise TypeError.
Proof. exact repeated_number. Qed.
Print Assumptions C86_repeated_number.

Definition tr : auction := ("SBBExternalCompetition"%string, fun m r => trade_reduction m r true).
Definition asc : auction := ("SBBAscendingPrices"%string, ascending_auction).
Definition identity : nat -> nat -> nat -> list Q -> list Q := fun _ _ _ l => l.

(** The hypotheses are met: two stocks, one of which has to be doubled. *)
Example C86_witness : compare_input [1; 2]%nat [asc; tr] [2; 3]%nat /\ stock_prices_ok [1; 2]%nat [[20; 10; 5; 6; 7; 8]; [9; 4; 3]]
  /\ Forall (fun s : list Q => s <> []) [[20; 10; 5; 6; 7; 8]; [9; 4; 3]].
Proof.
  split; [split; [discriminate|split; [repeat constructor|split; [|split]]]|split].
  - repeat constructor; cbn; intuition discriminate.
  - repeat constructor; vm_compute; discriminate.
  - repeat constructor.
  - exists 20. split; [discriminate|]. split; [|split; [discriminate|intros r [<-|[]]; reflexivity]].
    repeat constructor; discriminate.
  - repeat constructor; discriminate.
Qed.

(** What it computes for the first stock (two deals are optimal, one is done). *)
Example C86_run : exists row, compare_experiment_stock (FromStock identity) [1; 2]%nat [asc; tr] 1 [2]%nat [[20; 10; 5; 6; 7; 8]] = Ok [(2%nat, row)]
  /\ col row optimalcount == 2 /\ col row optimalgft == 34 /\ col row gftratioformula == 100 # 3
  /\ acol row 0 count == 1 /\ acol row 0 totalgft == 27 /\ acol row 1 totalgft == 27.
Proof. eexists. split; [vm_compute; reflexivity|]. vm_compute. repeat split; reflexivity. Qed.

(** The column withoutgftzerocountratio is not a percentage of something: it exceeds 100 when there are deals without gain. *)
Theorem C86_withoutgftzero_refuted : ~ forall shuffle recipe auctions its nums stocks rows, (forall i j it l, Permutation (shuffle i j it l) l) ->
  compare_input recipe auctions nums -> (0 < its)%nat -> stocks <> [] -> Forall (fun s => s <> []) stocks -> stock_prices_ok recipe stocks ->
  compare_experiment_stock (FromStock shuffle) recipe auctions its nums stocks = Ok rows ->
  forall n row a, In (n, row) rows -> (a < length auctions)%nat -> acol row a withoutgftzerocountratio <= 100.
Proof.
  intros H.
  assert (X : exists row, compare_experiment_stock (FromStock identity) [1; 1]%nat [asc] 1 [3]%nat [[10; 5; 5; 1; 5; 5]] = Ok [(3%nat, row)]
    /\ acol row 0 withoutgftzerocountratio == 200) by (eexists; split; [vm_compute; reflexivity|reflexivity]).
  destruct X as (row & E & V).
  assert (B := H identity [1; 1]%nat [asc] 1%nat [3]%nat [[10; 5; 5; 1; 5; 5]] [(3%nat, row)]).
  assert (L : acol row 0 withoutgftzerocountratio <= 100); [|rewrite V in L; apply L; reflexivity].
  apply B with (n := 3%nat).
  - intros. apply Permutation_refl.
  - split; [discriminate|]. split; [repeat constructor|]. split; [repeat constructor; intros []|]. split; [repeat constructor; vm_compute; discriminate|].
    repeat constructor.
  - repeat constructor.
  - discriminate.
  - repeat constructor; discriminate.
  - exists 10. split; [discriminate|]. split; [repeat constructor; discriminate|]. split; [discriminate|intros r Hr; cbn in Hr; repeat (destruct Hr as [<-|Hr]; [reflexivity|]); destruct Hr].
  - exact E.
  - left. reflexivity.
  - repeat constructor.
Qed.
Print Assumptions C86_withoutgftzero_refuted.

(** ** C87: padding_zeroes *)

(** C87.  A number in positional notation keeps its sign, is cut (towards zero, not rounded) to exactly [n] digits after the
    point, and differs by less than one unit of the last digit. *)
Theorem C87_truncates : forall s q n, numeral s q -> exists s' q', padding_zeroes s n = Ok s' /\ numeral s' q'
  /\ (0 <= q -> 0 <= q' <= q) /\ (q <= 0 -> q <= q' <= 0)
  /\ Qabs (q - q') < 1 / inject_Z (10 ^ Z.of_nat n)
  /\ exists before fs, s' = (before ++ "."%char :: fs)%list /\ length fs = n /\ Forall is_digit fs.
Proof. exact padding_truncates. Qed.
Print Assumptions C87_truncates.

(** C87.  In general: [n] characters after the first point, filled up with zeros. *)
Theorem C87_shape : forall a b n, ~ In "."%char a ->
  padding_zeroes a n = Ok (a ++ "."%char :: repeat "0"%char n)%list
  /\ padding_zeroes (a ++ "."%char :: b) n = Ok (a ++ "."%char :: firstn n (b ++ repeat "0"%char n))%list.
Proof. exact padding_shape. Qed.
Print Assumptions C87_shape.

Definition padded (s : string) (n : nat) : option string :=
  match padding_zeroes (list_ascii_of_string s) n with Ok l => Some (string_of_list_ascii l) | _ => None end.

Example C87_witness : padded "33.333333333333336" 3 = Some "33.333"%string /\ padded "100" 2 = Some "100.00"%string
  /\ padded "-0.5" 3 = Some "-0.500"%string /\ numeral (list_ascii_of_string "-0.5") (-(1 # 2)).
Proof.
  repeat split; try reflexivity. right. exists (list_ascii_of_string "0.5"), (1 # 2). split; [reflexivity|]. split; [|reflexivity].
  exists ["0"%char], ["5"%char]. split; [repeat constructor; intros H; discriminate H|].
  split; [repeat constructor; intros H; discriminate H|]. split; [right; reflexivity|reflexivity].
Qed.

(** Numbers that Python writes in scientific notation lose their exponent (or get a point after it). *)
Theorem C87_scientific_refuted : padded "1.5e-05" 3 = Some "1.5e-"%string /\ padded "1.234e-05" 3 = Some "1.234"%string
  /\ padded "1e-05" 3 = Some "1e-05.000"%string.
Proof. repeat split. Qed.
Print Assumptions C87_scientific_refuted.

(** ** C88: the files with the differences *)

(** C88.  The tests on the column names are those of Python. *)
Theorem C88_tests : (forall x s, py_contains x s = true <-> exists before after, s = (before ++ x ++ after)%string)
  /\ (forall s x, py_endswith s x = true <-> exists before, s = (before ++ x)%string).
Proof. exact (conj contains_iff endswith_iff). Qed.
Print Assumptions C88_tests.

(** C88.  A line is written exactly if, among the auctions with SBB in their names, some other auction has a smaller gain (or
    number of deals) than the first; with report_diff, exactly if some other auction has another gain (number of deals). *)
Theorem C88_written : forall report recipe auctions m cs os sel, compare_columns recipe auctions m = Ok cs ->
  (forall a o, In a auctions -> gain_and_deals recipe m a o -> 0 <= fst o) ->
  Forall2 (gain_and_deals recipe m) auctions os -> sbb_outcomes auctions os sel ->
  (fst (diff_files report cs) = true <-> exists first others o, sel = first :: others /\ In o others
     /\ (fst o < fst first \/ report = true /\ ~ fst o == fst first))
  /\ (snd (diff_files report cs) = true <-> exists first others o, sel = first :: others /\ In o others
     /\ ((snd o < snd first)%nat \/ report = true /\ snd o <> snd first)).
Proof. exact diff_written. Qed.
Print Assumptions C88_written.

(** C88.  With a recipe of ones the files stay empty: trade reduction and the ascending auction always have the same number of
    deals and the same gain. *)
Theorem C88_ones : forall report recipe m n1 n2 cs, recipe <> [] -> all_ones recipe ->
  length recipe = length m -> values_small MAX_VALUE recipe m -> values_at_least (- MAX_VALUE) m ->
  cap_suffices default_max_iterations m recipe -> sorted_market m ->
  compare_columns recipe [(n1, fun m r => trade_reduction m r true); (n2, ascending_auction)] m = Ok cs ->
  diff_files report cs = (false, false).
Proof. intros report recipe m n1 n2 cs NE O A B C D E. apply diff_ones; [assumption|assumption|]. split; [exact A|]. split; [exact B|]. split; [exact C|]. split; assumption. Qed.
Print Assumptions C88_ones.

Definition differing_market : market :=
  [new_category "agent" (map inject_Z [0; 7; 5; 11]); new_category "agent" (map inject_Z [-10; -2])]%Z.

(** For the recipe 2:1 they do not: the ascending auction gains more. *)
Theorem C88_two_to_one_refuted : exists cs, compare_columns [2; 1]%nat [asc; tr] differing_market = Ok cs
  /\ diff_files false cs = (true, false) /\ acol cs 0 totalgft == 40 # 3 /\ acol cs 1 totalgft == 12.
Proof. eexists. split; [vm_compute; reflexivity|]. vm_compute. repeat split; reflexivity. Qed.
Print Assumptions C88_two_to_one_refuted.

Example C88_written_witness : exists cs os sel, compare_columns [2; 1]%nat [asc; tr] differing_market = Ok cs
  /\ Forall2 (gain_and_deals [2; 1]%nat differing_market) [asc; tr] os /\ sbb_outcomes [asc; tr] os sel /\ length sel = 2%nat
  /\ (forall a o, In a [asc; tr] -> gain_and_deals [2; 1]%nat differing_market a o -> 0 <= fst o).
Proof.
  assert (A : exists t, ascending_auction differing_market [2; 1]%nat = Ok t /\ exists g, gain_from_trade t true = Ok g /\ 0 <= g)
    by (eexists; split; [vm_compute; reflexivity|]; eexists; split; [vm_compute; reflexivity|]; discriminate).
  assert (B : exists t, trade_reduction differing_market [2; 1]%nat true = Ok t /\ exists g, gain_from_trade t true = Ok g /\ 0 <= g)
    by (eexists; split; [vm_compute; reflexivity|]; eexists; split; [vm_compute; reflexivity|]; discriminate).
  destruct A as (t & A & g & GA & PA). destruct B as (t' & B & g' & GB & PB).
  eexists. exists [(g, num_of_deals t); (g', num_of_deals t')], [(g, num_of_deals t); (g', num_of_deals t')].
  split; [vm_compute; reflexivity|]. split; [constructor; [exists t; auto|]; constructor; [exists t'; auto|constructor]|].
  split; [apply sbb_take; [exists ""%string, "AscendingPrices"%string; reflexivity|]; apply sbb_take; [exists ""%string, "ExternalCompetition"%string; reflexivity|]; constructor|].
  split; [reflexivity|]. intros a o [<-|[<-|[]]] (t0 & E & G & _); cbn [snd asc tr] in E.
  - assert (t0 = t) by congruence. subst t0. assert (fst o = g) by congruence. rewrite H. exact PA.
  - assert (t0 = t') by congruence. subst t0. assert (fst o = g') by congruence. rewrite H. exact PB.
Qed.

Definition ones_market : market := [new_category "agent" [10; 5; 5]; new_category "agent" [-(1); -(5); -(6)]].

Example C88_ones_witness : all_ones [1; 1]%nat /\ values_small MAX_VALUE [1; 1]%nat ones_market /\ values_at_least (- MAX_VALUE) ones_market
  /\ cap_suffices default_max_iterations ones_market [1; 1]%nat /\ sorted_market ones_market
  /\ exists cs, compare_columns [1; 1]%nat [tr; asc] ones_market = Ok cs /\ diff_files true cs = (false, false) /\ acol cs 0 count == 1.
Proof.
  split; [repeat constructor|]. split; [|split; [|split; [|split]]].
  - split; [intros c v H1 H2; cbn in H1; destruct H1 as [<-|[<-|[]]]; cbn in H2;
    repeat (destruct H2 as [<-|H2]; [discriminate|]); destruct H2|]. exists [10; -(1)]. split.
    + repeat constructor; try discriminate; intros v H2; cbn in H2; repeat (destruct H2 as [<-|H2]; [discriminate|]); destruct H2.
    + intros [|[|l]] r u H1 _ H2; cbn in H1, H2; try (destruct l; discriminate); injection H1 as <-; injection H2 as <-; reflexivity.
  - intros c v H1 H2. cbn in H1. destruct H1 as [<-|[<-|[]]]; cbn in H2;
    repeat (destruct H2 as [<-|H2]; [discriminate|]); destruct H2.
  - exists 0%nat. eexists. exists 1%nat. split; [reflexivity|]. split; [reflexivity|].
    split; [repeat constructor|]. apply Nat.leb_le. vm_compute. reflexivity.
  - repeat constructor; discriminate.
  - eexists. split; [vm_compute; reflexivity|]. vm_compute. repeat split; reflexivity.
Qed.
