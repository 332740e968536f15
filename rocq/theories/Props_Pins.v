(** * C101: which exception a malformed input raises; C70, C89, C99: further statements *)

From Coq Require Import String Ascii List Arith NArith ZArith QArith Lia.
From Verif Require Import Base Model_Agents Model_Market Model_Prices Model_RecipeTree Model_TreeAuction Model_IntPrices Model_IntTree Model_OldPrices Model_Multibuyer
  Model_StockData Model_StockTables Model_StockExperiment Model_Experiment Model_Report Model_Drivers Model_Float Model_TradeReduction Model_OldMulti.
Import ListNotations.
Open Scope Q_scope.

(** ** Collections of price vectors *)

(** prices_integer.py: no recipe, or recipes of different lengths: ValueError. *)
Theorem C101_integer_vectors : forall rs bound counts,
  rs = [] \/ (exists r r', In r rs /\ In r' rs /\ length r <> length r') -> new_int_sim_prices rs bound counts = Raise ValueError.
Proof.
  intros rs bound counts [->|(r & r' & H & H' & N)]; [reflexivity|]. destruct rs as [|r0 rs]; [destruct H|]. unfold new_int_sim_prices.
  destruct (forallb _ (r0 :: rs)) eqn:F; [|reflexivity]. exfalso. rewrite forallb_forall in F. assert (A := F r H). assert (B := F r' H'). apply Nat.eqb_eq in A. apply Nat.eqb_eq in B. congruence.
Qed.
Print Assumptions C101_integer_vectors.

(** old/SimultaneousAscendingPriceVector.py: the same, whatever the linear program returns. *)
Theorem C101_old_vectors : forall lp recipes initial_price_sum,
  recipes = [] \/ (exists r r', In r recipes /\ In r' recipes /\ length r <> length r') -> old_new lp recipes initial_price_sum = Raise ValueError.
Proof.
  intros lp rs s [->|(r & r' & H & H' & N)]; [reflexivity|]. destruct rs as [|r0 rs]; [destruct H|]. unfold old_new.
  destruct (forallb _ (r0 :: rs)) eqn:F; [|reflexivity]. exfalso. rewrite forallb_forall in F. assert (A := F r H). assert (B := F r' H'). apply Nat.eqb_eq in A. apply Nat.eqb_eq in B. congruence.
Qed.
Print Assumptions C101_old_vectors.

(** An empty list of increases: ValueError, in both implementations. *)
Theorem C101_no_increases : forall sp bound, increase_prices sp [] bound = Raise ValueError.
Proof.
  intros sp bound. unfold increase_prices. assert (K : forall rs, map_result (fun recipe => increases_in recipe []) rs = Ok (map (fun _ => 0%nat) rs)).
  { induction rs as [|r rs IH]; [reflexivity|]. cbn [map_result]. change (increases_in r []) with (Ok 0%nat). cbn [bind]. rewrite IH. reflexivity. }
  rewrite K. cbn [bind]. destruct (sp_recipes sp) as [|r rs]; reflexivity.
Qed.
Print Assumptions C101_no_increases.

Theorem C101_no_increases_integer : forall sp bound, int_increase_prices sp [] bound = Raise ValueError.
Proof.
  intros sp bound. unfold int_increase_prices. assert (K : forall rs, exists l, map_result (fun recipe => int_count_increases (isp_counts sp) recipe []) rs = Ok l).
  { induction rs as [|r rs [l IH]]; [eexists; reflexivity|]. cbn [map_result]. change (int_count_increases (isp_counts sp) r []) with (Ok tt). rewrite IH. eexists. reflexivity. }
  destruct (K (isp_recipes sp)) as [l ->]. reflexivity.
Qed.
Print Assumptions C101_no_increases_integer.

(** ** Recipe trees of recipetree_integer.py: a list with an odd number of elements: ValueError; an empty list: IndexError; anything else: TypeError. *)
Theorem C101_integer_tree : forall cats counts s,
  (forall l, s = SList l -> Nat.odd (length l) = true -> new_int_tree cats counts s = Raise ValueError)
  /\ (s = SList [] -> new_int_tree cats counts s = Raise IndexError)
  /\ ((forall l, s <> SList l) -> new_int_tree cats counts s = Raise TypeError).
Proof.
  intros cats counts s. split; [|split].
  - intros l -> O. unfold new_int_tree. rewrite <- Nat.negb_odd, O. reflexivity.
  - intros ->. reflexivity.
  - intros N. destruct s as [| |l]; [reflexivity|reflexivity|destruct (N l eq_refl)].
Qed.
Print Assumptions C101_integer_tree.

(** ** old/ascending_auction_multibuyer_protocol.py *)

(** A recipe of the wrong length: ValueError; a market without categories: IndexError. *)
Theorem C101_multibuyer_recipe : forall M fuel m r rs, length r <> length m -> multibuyer_auction M fuel m (r :: rs) = Raise ValueError.
Proof.
  intros M fuel m r rs N. unfold multibuyer_auction, convert_recipes_to_seller_counts. cbn [convert_recipes]. apply Nat.eqb_neq in N. rewrite N. reflexivity.
Qed.
Print Assumptions C101_multibuyer_recipe.

Theorem C101_multibuyer_empty : forall M fuel rs, Forall (fun r => r = []) rs -> multibuyer_auction M fuel [] rs = Raise IndexError.
Proof. intros M fuel rs H. destruct H as [|r rs -> _]; reflexivity. Qed.
Print Assumptions C101_multibuyer_empty.

(** ** The stock experiments *)

(** No category of prices, or fewer counts than categories: IndexError. *)
Theorem C101_stock_no_prices : forall auction struct counts last n nums T, stock_sizes auction struct counts [] last (n :: nums) T = Raise IndexError.
Proof. reflexivity. Qed.
Print Assumptions C101_stock_no_prices.

Theorem C101_stock_short_recipe : forall n stock recipe, (length recipe < length stock)%nat -> cut_market n stock recipe = Raise IndexError.
Proof.
  intros n stock. induction stock as [|c stock IH]; intros recipe H; cbn [length] in H; [lia|]. destruct recipe as [|r recipe]; [reflexivity|]. cbn [cut_market].
  rewrite IH by (cbn [length] in H; lia). reflexivity.
Qed.
Print Assumptions C101_stock_short_recipe.

(** ** Recipes of zeros: ValueError, also with doubles (Python's max of an empty list). *)
Theorem C101_float_zero_recipe : forall cats recipe, length recipe = length cats -> Forall (fun r => r = 0%nat) recipe -> f_auction cats recipe = Raise ValueError.
Proof.
  intros cats recipe L H. unfold f_auction. rewrite L, Nat.eqb_refl. cbn [f_loop].
  assert (K : filter (fun i => Nat.ltb 0 (nth i recipe 0%nat)) (seq 0 (length recipe)) = []).
  { assert (Z : forall i, nth i recipe 0%nat = 0%nat). { clear L. induction H as [|r recipe -> H IH]; intros [|i]; cbn; auto. }
    generalize (seq 0 (length recipe)). intros s. induction s as [|i s IH]; [reflexivity|]. cbn [filter]. rewrite Z. exact IH. }
  rewrite K. reflexivity.
Qed.
Print Assumptions C101_float_zero_recipe.

(** ** old/SimultaneousAscendingPriceVector.py: the map from categories to prices *)

(** More categories than recipe entries, or a used category without a price: IndexError. *)
Example C101_old_map_short : old_map_row [1; 1]%nat [5] [None; None] = Raise IndexError
  /\ old_map_row [1]%nat [5] [None; None] = Raise IndexError
  /\ old_map_row [1; 0]%nat [5] [None; None] = Ok [Some 5; None]
  /\ old_map_row [1; 1]%nat [5; 6] [Some 4; None] = Raise ValueError
  /\ old_map_row [1; 1]%nat [5; 6] [Some 5; None] = Ok [Some 5; Some 6].
Proof. repeat split. Qed.

Theorem C101_old_map : forall recipe prices acc, (length prices < length recipe)%nat -> (length recipe <= length acc)%nat -> Forall (fun r => 0 < r)%nat recipe -> Forall (fun a => a = None) acc ->
  old_map_row recipe prices acc = Raise IndexError.
Proof.
  induction recipe as [|r recipe IH]; intros prices acc H L P A; [cbn in H; lia|]. destruct acc as [|a acc]; [cbn in L; lia|]. cbn [length] in *.
  inversion P as [|? ? P1 P2]; subst. inversion A as [|? ? A1 A2]; subst. cbn [old_map_row]. apply Nat.ltb_lt in P1. rewrite P1. destruct prices as [|p prices]; [reflexivity|].
  cbn [bind]. rewrite (IH prices acc) by (cbn [length] in *; auto; lia). reflexivity.
Qed.
Print Assumptions C101_old_map.

(** ** C89: Python's [str.isspace] on ASCII characters: tab, line feed, vertical tab, form feed, carriage return, the separators 28-31 and the space. *)
Theorem C89_is_space : forall c, is_space c = true <-> In (nat_of_ascii c) [9; 10; 11; 12; 13; 28; 29; 30; 31; 32]%nat.
Proof.
  intros c. unfold is_space. rewrite Bool.orb_true_iff, !Bool.andb_true_iff, !Nat.leb_le. cbn [In]. generalize (nat_of_ascii c). intros n. lia.
Qed.
Print Assumptions C89_is_space.

(** ** C70: with a tree of a single category the integer experiment does write rows: the averages *)

Theorem C70_single_category : forall auction i counts n ms (opts : list (nat * Q * N * N)) results row,
  (forall m, In m ms -> new_int_tree m counts (SList [SInt i; SNone]) = Ok (Node i [])) ->
  Forall2 (fun m o => exists trade, int_optimal_trade_with_counters m counts (Node i []) = Ok (trade, o)) ms opts ->
  Forall2 (fun m r => auction m = Ok r) ms results -> ms <> [] ->
  int_experiment auction (SList [SInt i; SNone]) counts [(n, ms)] = Ok [row] ->
  tr_numofagents row = n /\ tr_iterations row = length ms
  /\ meanoptimalcount row * Qn (length ms) == Qsum (map (fun o => Qn (fst (fst (fst o)))) opts)
  /\ meanoptimalgft row * Qn (length ms) == Qsum (map (fun o => snd (fst (fst o))) opts)
  /\ meanoptimalkmin row * Qn (length ms) == Qsum (map (fun o => QN (snd (fst o))) opts)
  /\ meanoptimalkmax row * Qn (length ms) == Qsum (map (fun o => QN (snd o)) opts)
  /\ meanauctioncount row * Qn (length ms) == Qsum (map (fun r => Qn (fst r)) results)
  /\ meanauctiontotalgft row * Qn (length ms) == Qsum (map snd results).
Proof.
  intros auction i counts n ms opts results row T O R NE H.
  assert (K : forall ms opts results s, (forall m, In m ms -> new_int_tree m counts (SList [SInt i; SNone]) = Ok (Node i [])) ->
    Forall2 (fun m (o : nat * Q * N * N) => exists trade, int_optimal_trade_with_counters m counts (Node i []) = Ok (trade, o)) ms opts ->
    Forall2 (fun m r => auction m = Ok r) ms results ->
    exists s', int_iterations auction (SList [SInt i; SNone]) counts s ms = Ok s'
      /\ QN (ts_optimal_count s') == QN (ts_optimal_count s) + Qsum (map (fun o => Qn (fst (fst (fst o)))) opts)
      /\ ts_optimal_gft s' == ts_optimal_gft s + Qsum (map (fun o => snd (fst (fst o))) opts)
      /\ QN (ts_kmin s') == QN (ts_kmin s) + Qsum (map (fun o => QN (snd (fst o))) opts)
      /\ QN (ts_kmax s') == QN (ts_kmax s) + Qsum (map (fun o => QN (snd o)) opts)
      /\ Qn (ts_auction_count s') == Qn (ts_auction_count s) + Qsum (map (fun r => Qn (fst r)) results)
      /\ ts_total_gft s' == ts_total_gft s + Qsum (map snd results)).
  { clear. assert (QNP : forall a b, QN (a + b) == QN a + QN b) by (intros a b; unfold QN; rewrite N2Z.inj_add, inject_Z_plus; reflexivity).
    assert (QNN : forall k, QN (N.of_nat k) == Qn k) by (intros k; unfold QN, Qn; rewrite nat_N_Z; reflexivity).
    assert (QP : forall a b, Qn (a + b) == Qn a + Qn b) by (intros a b; unfold Qn; rewrite Nat2Z.inj_add, inject_Z_plus; reflexivity).
    induction ms as [|m ms IH]; intros opts results s T O R.
    - inversion O; subst. inversion R; subst. exists s. cbn [map Qsum fold_right int_iterations]. split; [reflexivity|].
      split; [ring|]. split; [ring|]. split; [ring|]. split; [ring|]. split; ring.
    - inversion O as [|? [[[k g] a] b] ? opts' [tr O1] O2]; subst. inversion R as [|? r ? results' R1 R2]; subst. cbn [int_iterations]. unfold int_iteration. rewrite (T m (or_introl eq_refl)). cbn [bind]. rewrite O1. cbn [bind]. rewrite R1. cbn [bind].
      destruct (IH opts' results' (mkTS (ts_optimal_count s + N.of_nat k) (ts_auction_count s + fst r) (ts_kmin s + a) (ts_kmax s + b) (ts_optimal_gft s + g) (ts_total_gft s + snd r)) (fun m' I => T m' (or_intror I)) O2 R2) as (s' & E & E1 & E2 & E3 & E4 & E5 & E6). exists s'. rewrite E. split; [reflexivity|].
      cbn [ts_optimal_count ts_optimal_gft ts_kmin ts_kmax ts_auction_count ts_total_gft] in *. cbn [map fst snd]. rewrite !Qsum_cons.
      rewrite E1, E2, E3, E4, E5, E6, !QNP, QNN, QP. cbn [fst snd]. split; [ring|]. split; [ring|]. split; [ring|]. split; [ring|]. split; ring. }
  destruct (K ms opts results (mkTS 0 0 0 0 0 0) T O R) as (s' & E & E1 & E2 & E3 & E4 & E5 & E6). clear K.
  cbn [int_experiment] in H. rewrite E in H. cbn [bind] in H. unfold tree_experiment_row in H.
  assert (L : exists l, length ms = S l) by (destruct ms as [|m0 ms0]; [congruence|exists (length ms0); reflexivity]). destruct L as [l L].
  change (@length market ms) with (@length (list category) ms) in *. rewrite L in *. cbn [Nat.eqb bind] in H. injection H as <-.
  cbn [tr_numofagents tr_iterations meanoptimalcount meanoptimalgft meanoptimalkmin meanoptimalkmax meanauctioncount meanauctiontotalgft].
  cbn [ts_optimal_count ts_optimal_gft ts_kmin ts_kmax ts_auction_count ts_total_gft] in *.
  assert (D : ~ Qn (S l) == 0) by (unfold Qn; intros C; unfold Qeq in C; cbn in C; lia).
  split; [reflexivity|]. split; [reflexivity|].
  change (QN 0) with 0 in *. change (Qn 0) with 0 in *. rewrite Qplus_0_l in E1, E2, E3, E4, E5, E6. rewrite <- E1, <- E2, <- E3, <- E4, <- E5, <- E6.
  repeat match goal with |- _ /\ _ => split end; unfold Qdiv; rewrite <- Qmult_assoc, (Qmult_comm (/ _)), Qmult_inv_r by exact D; apply Qmult_1_r.
Qed.
Print Assumptions C70_single_category.

(** One category with groups of two: [9; 8; 3; -20] has one group with a positive total, and [-1; -2] none. *)
Example C70_single_run :
  int_experiment (fun m => Ok (csize (nth 0 m (mkCat "" [])), 7)) (SList [SInt 0; SNone]) [2]%nat
    [(4%nat, [[mkCat "a" [9; 8; 3; -20]]; [mkCat "a" [-1; -2]]])]
  = Ok [mkTR_ 2 4 (1 / 2) (100000 / 2) (1 / 2) ((100000 / 2 - 1) / (100000 / 2 + 1) * 100) (6 / 2) (6 / 1 * 100) (17 / 2) (14 / 2) (14 / 17 * 100)].
Proof. vm_compute. reflexivity. Qed.

(** ** Slices with a negative end (Python's [l[0:z]]) *)

Example slice_negative : py_slice [1; 2; 3; 4] (-1) = [1; 2; 3] /\ py_slice [1; 2; 3; 4] (-4) = [] /\ py_slice [1; 2; 3; 4] (-9) = []
  /\ py_slice [1; 2; 3; 4] 0 = [] /\ py_slice [1; 2; 3; 4] 2 = [1; 2] /\ py_slice [1; 2; 3; 4] 9 = [1; 2; 3; 4].
Proof. repeat split. Qed.

(** ** C99: the parameters of the programs, in full *)

(** The scaling of experiment_comparing_sbb.py: the range of the first category times the total count of the others, the others' times the count of the first. *)
Example C99_scaled : scaled_ranges [2; 3; 1]%nat [(1, 1000); (-1000, 1); (-700, 5)]%Z = [(4, 4000); (-2000, 2); (-1400, 10)]%Z
  /\ scaled_ranges [1; 2; 3; 4]%nat sbb_ranges = [(9, 9000); (-1000, 1); (-1000, 1); (-1000, 1)]%Z
  /\ scaled_ranges [2; 3]%nat sbb_ranges = [(3, 3000); (-2000, 2)]%Z.
Proof. vm_compute. auto. Qed.

(** All calls of [experiment]: recipe, value ranges, numbers of agents. *)
Example C99_calls : map (fun c => (c_recipe c, c_ranges c)) comparing_mcafee = repeat ([1; 1]%nat, [(1, 1000); (-1000, -1)]%Z) 4
  /\ map (fun c => (c_recipe c, c_ranges c, c_sizes c, c_iterations c)) mcafee_calls = repeat ([1; 1]%nat, [(1, 1000); (-1000, -1)]%Z, [2; 3; 4; 5; 10]%nat, 500%nat) 2
  /\ map (fun c => (c_recipe c, c_ranges c, c_sizes c, c_iterations c)) ascending_calls
     = [([1; 1]%nat, [(1, 1000); (-1000, -1)]%Z, [100; 1000]%nat, 50%nat); ([1; 1; 1]%nat, [(1, 2000); (-1000, -1); (-1000, -1)]%Z, [100; 1000]%nat, 50%nat);
        ([2; 1]%nat, [(1, 500); (-1000, -1)]%Z, [100; 1000]%nat, 50%nat)]
  /\ map (fun c => (c_recipe c, c_ranges c)) two_categories_calls
     = [([1; 2]%nat, [(1, 2000); (-1000, -1)]%Z); ([1; 4]%nat, [(1, 4000); (-1000, -1)]%Z); ([1; 8]%nat, [(1, 8000); (-1000, -1)]%Z); ([1; 16]%nat, [(1, 16000); (-1000, -1)]%Z)]
  /\ map (fun c => (length (c_recipe c), nsum (c_recipe c), hd (0, 0)%Z (c_ranges c), last (c_ranges c) (0, 0)%Z, length (c_ranges c))) ones_calls
     = [(3, 3, (1, 2000)%Z, (-1000, 1)%Z, 3); (3, 3, (1, 2000)%Z, (-1000, 1)%Z, 3); (5, 5, (1, 4000)%Z, (-1000, 1)%Z, 5); (5, 5, (1, 4000)%Z, (-1000, 1)%Z, 5);
        (9, 9, (1, 8000)%Z, (-1000, 1)%Z, 9); (9, 9, (1, 8000)%Z, (-1000, 1)%Z, 9); (17, 17, (1, 16000)%Z, (-1000, 1)%Z, 17); (17, 17, (1, 16000)%Z, (-1000, 1)%Z, 17)]%nat
  /\ map (fun c => (c_recipe c, c_ranges c, c_sizes c, c_iterations c)) demo_11_calls = repeat ([1; 1]%nat, [(1, 2); (-2, -1)]%Z, [50; 50]%nat, 1%nat) 4
  /\ map c_mechanism all_calls = [McAfee true; TradeReduction; Ascending; McAfee false; McAfee true; McAfee false; Ascending; Ascending; Ascending; Ascending; Ascending; Ascending; Ascending;
        Ascending; TradeReduction; Ascending; TradeReduction; Ascending; TradeReduction; Ascending; TradeReduction; McAfee true; TradeReduction; Ascending; McAfee false].
Proof. repeat split. Qed.

Example C99_sbb_data : sbb_recipes = [[1; 2]; [1; 3]; [1; 4]; [1; 8]; [1; 16]; [2; 2]; [2; 3]; [1; 1; 1]; [2; 2; 2]; [1; 2; 3; 4]; [1; 2; 3]; [1; 2; 2]]%nat
  /\ sbb_ranges = [(1, 1000); (-1000, 1); (-1000, 1); (-1000, 1); (-1000, 1)]%Z
  /\ sbb_sizes = [2; 3; 4; 5; 10; 15; 25; 50; 100; 200; 300; 400; 500; 600; 700; 800; 900; 1000; 1500; 2000]%nat.
Proof. repeat split. Qed.

(** ** More malformed inputs *)

(** markets.py: a recipe that is shorter than the market: IndexError (unless an earlier category has too few agents, which gives None). *)
Theorem C101_highest_agents_short : forall m recipe, (length recipe < length m)%nat -> Forall2 (fun c r => r <= csize c)%nat (firstn (length recipe) m) recipe ->
  get_highest_agents m recipe = Raise IndexError.
Proof.
  induction m as [|c m IH]; intros recipe L H; [cbn in L; lia|]. destruct recipe as [|r recipe]; [reflexivity|]. cbn [length firstn] in *. inversion H as [|? ? ? ? H1 H2]; subst.
  cbn [get_highest_agents]. apply Nat.ltb_ge in H1. rewrite H1, IH by (auto; lia). reflexivity.
Qed.
Print Assumptions C101_highest_agents_short.

Theorem C101_integer_initial_prices : forall bound, int_initial_prices [] bound = Raise IndexError.
Proof. reflexivity. Qed.
Print Assumptions C101_integer_initial_prices.

Theorem C101_stock_no_lists : forall recipe auctions last n nums, size_rows recipe auctions [] last (n :: nums) = Raise IndexError.
Proof. reflexivity. Qed.
Print Assumptions C101_stock_no_lists.

(** old/ascending_auction_multirecipe_protocol.py: no recipe has a category of its own: ValueError. *)
Theorem C101_multirecipe_no_unique : forall iter s, multi_round iter [] [] s = Raise ValueError.
Proof. intros iter [cats sp]. reflexivity. Qed.
Print Assumptions C101_multirecipe_no_unique.

(** ** trade_reduction_protocol.py, convert_category_index: the category of the agent at a given position of a procurement set; a position beyond the set gives
    the last category *)
Theorem C101_category_of_position : forall recipe k,
  ((k < nsum recipe)%nat -> (nsum (firstn (convert_category_index recipe k) recipe) <= k < nsum (firstn (S (convert_category_index recipe k)) recipe))%nat)
  /\ ((nsum recipe <= k)%nat -> convert_category_index recipe k = (length recipe - 1)%nat).
Proof.
  intros recipe k. unfold convert_category_index.
  assert (A : forall n r i k, (k < nsum r)%nat -> exists c, convert_from n i r k = (i + c)%nat /\ (nsum (firstn c r) <= k < nsum (firstn (S c) r))%nat).
  { intros n r. induction r as [|a r IH]; intros i k0 H; [cbn in H; lia|]. cbn [convert_from]. destruct (k0 <? a)%nat eqn:L.
    - apply Nat.ltb_lt in L. exists 0%nat. split; [lia|]. cbn [firstn nsum fold_right]. destruct r; cbn; lia.
    - apply Nat.ltb_ge in L. cbn [nsum fold_right] in H. destruct (IH (S i) (k0 - a)%nat) as (c & E & B); [unfold nsum in *; cbn in *; lia|]. exists (S c). split; [rewrite E; lia|].
      cbn [firstn]. unfold nsum in *. cbn [fold_right]. cbn [firstn] in B. lia. }
  split; intros H.
  - destruct (A (length recipe) recipe 0%nat k H) as (c & -> & B). exact B.
  - assert (B : forall n r i k, (nsum r <= k)%nat -> convert_from n i r k = (n - 1)%nat).
    { intros n r. induction r as [|a r IH]; intros i k0 L; [reflexivity|]. unfold nsum in *. cbn [convert_from fold_right] in *. assert (G : (k0 <? a)%nat = false) by (apply Nat.ltb_ge; lia). rewrite G. apply IH. lia. }
    apply B. exact H.
Qed.
Print Assumptions C101_category_of_position.

Example C101_positions : map (convert_category_index [1; 2; 0; 1]%nat) [0; 1; 2; 3; 4; 9]%nat = [0; 1; 1; 3; 3; 3]%nat.
Proof. reflexivity. Qed.

(** ** C66: a table row without any optimal deal: the ratios are 0 *)
Theorem C66_no_deals_row : forall n its s row, experiment_row n its s = Ok row -> s_optimal_count s = 0%nat -> s_optimal_gft s == 0 ->
  mean_optimal_count row == 0 /\ count_ratio row = 0 /\ total_gft_ratio row = 0 /\ market_gft_ratio row = 0.
Proof.
  intros n its s row H C G. unfold experiment_row in H. destruct (its =? 0)%nat; [discriminate|]. injection H as <-. cbn [mean_optimal_count count_ratio total_gft_ratio market_gft_ratio].
  rewrite C. assert (Z : Qeq_bool (s_optimal_gft s) 0 = true) by (apply Qeq_bool_iff; exact G). rewrite Z. cbn [Nat.eqb]. split; [|auto]. unfold Qn, Qdiv. change (inject_Z (Z.of_nat 0)) with 0.
  unfold py_round2. reflexivity.
Qed.
Print Assumptions C66_no_deals_row.

(** The same for the table of the tree experiments. *)
Theorem C66_no_deals_tree_row : forall n its s row, tree_experiment_row n its s = Ok row -> ts_optimal_count s = 0%N -> ts_optimal_gft s == 0 ->
  meanoptimalcount row == 0 /\ countratio row = 0 /\ totalgftratio row = 0.
Proof.
  intros n its s row H C G. unfold tree_experiment_row in H. destruct (its =? 0)%nat; [discriminate|]. injection H as <-. cbn [meanoptimalcount countratio totalgftratio].
  rewrite C. assert (Z : Qeq_bool (ts_optimal_gft s) 0 = true) by (apply Qeq_bool_iff; exact G). rewrite Z. cbn [N.eqb]. split; [reflexivity|auto].
Qed.
Print Assumptions C66_no_deals_tree_row.

(** A recipe of another length than the market. *)
Theorem C101_float_recipe_length : forall cats recipe, length recipe <> length cats -> f_auction cats recipe = Raise ValueError.
Proof. intros cats recipe H. unfold f_auction. apply Nat.eqb_neq in H. rewrite H. reflexivity. Qed.
Print Assumptions C101_float_recipe_length.

(** old/SimultaneousAscendingPriceVector.py: the linear program has no optimum: ValueError. *)
Theorem C101_old_vectors_solver : forall lp recipes initial_price_sum, lp recipes initial_price_sum = None -> old_new lp recipes initial_price_sum = Raise ValueError.
Proof. intros lp [|r0 rs] s H; [reflexivity|]. unfold old_new. destruct (forallb _ (r0 :: rs)); [rewrite H|]; reflexivity. Qed.
Print Assumptions C101_old_vectors_solver.
