(** * C103: the stock part of experiment_recpietree.py *)

From Coq Require Import String List Arith NArith ZArith Lia QArith Qround Lqa Permutation Sorted.
From Verif Require Import Base Model_Agents Model_Trade Model_Prices Model_Market Model_RecipeTree Model_TreeAuction Model_TreeCalc
  Model_Experiment Model_StockExperiment Model_StockData Model_CompareStock Model_Drivers Model_TreeStock
  Spec_Market Spec_RecipeTree Spec_TreeAuction Spec_TreeCalc Spec_Experiment Spec_StockExperiment Spec_StockData Spec_Drivers Spec_CompareStock Spec_StockDrivers Spec_TreeStock
  Proof_Agents Proof_Exp1 Proof_Exp2 Proof_TreeCalc Proof_StockData Proof_StockDrivers Proof_Stock Proof_TreeStock Props_Ties Props_Stock Props_StockData Props_Drivers.
Import ListNotations.
Open Scope Q_scope.
Open Scope list_scope.

(** get_prices_tree with counts that need not be integers: as C51. *)
Theorem C103_split : forall data counts values, Forall (fun c => 0 <= c) counts -> 0 < Qsum counts -> (length counts <= length values)%nat ->
  exists split pieces, split_prices_q data counts values = Ok split
    /\ pieces_of data pieces
    /\ map (@length Q) pieces = map (fun c => Z.to_nat (Qfloor (Qn (length data) * c / Qsum counts))) counts
    /\ length split = length counts
    /\ (forall i, (i < length counts)%nat -> nth i split [] =
         map (fun d => (if (0 <? i)%nat then -(1) else 1) * d * nth i values 0)%Q (nth i pieces [])).
Proof. exact split_prices_q_spec. Qed.
Print Assumptions C103_split.

Lemma list_values : forall name l v, In v (cvalues (new_category name l)) <-> In v l.
Proof.
  intros. unfold new_category. cbn [cvalues]. split; intros H; [apply (Permutation_in _ (sort_desc_perm _)) in H|apply (Permutation_in _ (Permutation_sym (sort_desc_perm _)))]; exact H.
Qed.
Lemma list_size : forall name l, csize (new_category name l) = length l.
Proof. intros. unfold csize, new_category. cbn [cvalues]. apply sort_desc_length. Qed.

Lemma firstn_In : forall A n (l : list A) x, In x (firstn n l) -> In x l.
Proof. intros A n l x H. rewrite <- (firstn_skipn n l). apply in_or_app. left. exact H. Qed.

(** A market of the four lists, cut or not. *)
Lemma four_ok : forall B p0 fuel a0 a1 a2 a3, (forall v, In v (a0 ++ a1 ++ a2 ++ a3) -> - B <= v <= B) -> 2 * B * 3 <= MAX_VALUE ->
  a0 <> [] -> a1 <> [] -> a2 <> [] -> a3 <> [] -> (length a0 + (length a1 + (length a2 + length a3)) < fuel)%nat ->
  let m := [new_category "agent" a0; new_category "agent" a1; new_category "agent" a2; new_category "agent" a3] in
  initial_prices_ok 4 paper_recipes (- MAX_VALUE) (p0 m) ->
  tree_input MAX_VALUE p0 paper_struct m /\ exists r, tree_auction MAX_VALUE (p0 m) fuel m paper_struct = Ok r.
Proof.
  intros B p0 fuel a0 a1 a2 a3 HB HM N0 N1 N2 N3 HF m HP.
  assert (W : values_within B m).
  { intros c v Hc Hv. apply HB. unfold m in Hc. destruct Hc as [<-|[<-|[<-|[<-|[]]]]]; apply list_values in Hv; rewrite !in_app_iff; auto. }
  assert (B0 : 0 <= B). { destruct a0 as [|x a0]; [congruence|]. specialize (HB x (or_introl eq_refl)). lra. }
  split.
  - split; [unfold m; repeat constructor; apply sort_desc_desc|]. split.
    + intros c v Hc Hv. specialize (W c v Hc Hv). unfold MAX_VALUE in *. lra.
    + intros t rs Ht Hrs. unfold m in Ht. rewrite paper_new_tree in Ht. injection Ht as <-. split; [exact paper_distinct|].
      vm_compute in Hrs. injection Hrs as <-. exact HP.
  - eapply (C38_three_levels_terminate MAX_VALUE B _ fuel _ paper_struct paper_tree paper_recipes).
    + reflexivity.
    + reflexivity.
    + exact paper_distinct.
    + discriminate.
    + vm_compute; lia.
    + reflexivity.
    + exact HP.
    + exact W.
    + exact HM.
    + assert (L : forall l : list Q, l <> [] -> (0 < length l)%nat) by (intros [|? ?] H; [congruence|cbn; lia]).
      intros i Hi. cbn in Hi. destruct Hi as [<-|[<-|[<-|[<-|[]]]]]; unfold cat_at, m; cbn [nth]; rewrite list_size; apply L; assumption.
    + unfold agents_number, nsum, m. cbn [map fold_right]. rewrite !list_size. lia.
Qed.

Lemma half_floor : forall n, Z.to_nat (Qfloor (Qn n * (1 # 2))) = Nat.div n 2.
Proof.
  intros n. assert (E : Qn n * (1 # 2) == Z.of_nat n # 2) by (unfold Qn, inject_Z, Qeq; cbn -[Z.mul Z.of_nat]; lia).
  rewrite (Qfloor_comp _ _ E). unfold Qfloor. change 2%Z with (Z.of_nat 2). rewrite <- Nat2Z.inj_div. apply Nat2Z.id.
Qed.
Lemma one_floor : forall n, Z.to_nat (Qfloor (Qn n * 1)) = n.
Proof. intros n. assert (E : Qn n * 1 == inject_Z (Z.of_nat n)) by (unfold Qn; ring). rewrite (Qfloor_comp _ _ E), Qfloor_Z. apply Nat2Z.id. Qed.

Lemma tree_run_ok : forall P p0 fuel f cats cats', 0 <= P <= 8333 -> file_ok P f -> (2 <= length (high f))%nat -> tree_prices_of f cats ->
  Forall2 (@Permutation Q) cats cats' -> (forall m, initial_prices_ok 4 paper_recipes (- MAX_VALUE) (p0 m)) -> (4000000 < N.of_nat fuel)%N ->
  run_ok MAX_VALUE p0 fuel paper_struct tree_agent_counts tree_stock_sizes cats'.
Proof.
  intros P p0 fuel f cats cats' [P0 P1] (dn & (D1 & D2 & D3 & D4) & DM & HB) H2 (zs & q0 & q1 & q2 & q3 & rest & T & PE & L0 & L1 & L2 & L3 & ->) HS HP HF.
  assert (LZ : length zs = (4 * dn)%nat).
  { unfold in_thousandths in T. apply Forall2_length in T. rewrite <- T, !app_length. lia. }
  assert (ZB : forall z, In z zs -> 0 <= inject_Z z <= 1000 * P).
  { eapply thousandths_bound; [exact T|]. intros x Hx. rewrite Forall_forall in HB. specialize (HB x Hx). lra. }
  assert (QB : forall z, In z (q0 ++ q1 ++ q2 ++ q3) -> 0 <= inject_Z z <= 1000 * P).
  { intros z Hz. apply ZB. apply (Permutation_in _ PE). rewrite !in_app_iff in *. tauto. }
  assert (H2b : (2 <= dn)%nat) by lia. clear D1 D2 D3 D4 H2. inversion HS as [|? a0 ? l0 E0 HS0]; subst. inversion HS0 as [|? a1 ? l1 E1 HS1]; subst. inversion HS1 as [|? a2 ? l2 E2 HS2]; subst. inversion HS2 as [|? a3 ? l3 E3 HS3]; subst. inversion HS3; subst. clear HS HS0 HS1 HS2 HS3.
  assert (M0 : length a0 = length q0) by (apply Permutation_length in E0; rewrite map_length in E0; congruence).
  assert (M1 : length a1 = length q1) by (apply Permutation_length in E1; rewrite map_length in E1; congruence).
  assert (M2 : length a2 = length q2) by (apply Permutation_length in E2; rewrite map_length in E2; congruence).
  assert (M3 : length a3 = length q3) by (apply Permutation_length in E3; rewrite map_length in E3; congruence).
  assert (AB : forall v, In v (a0 ++ a1 ++ a2 ++ a3) -> - (2000 * P) <= v <= 2000 * P).
  { intros v Hv. rewrite !in_app_iff in Hv.
    assert (G : exists z, In z (q0 ++ q1 ++ q2 ++ q3) /\ (v = inject_Z (2 * z) \/ v = inject_Z (- (2 * z)) \/ v = inject_Z (- z))).
    { destruct Hv as [Hv|[Hv|[Hv|Hv]]].
      - apply (Permutation_in _ (Permutation_sym E0)) in Hv. apply in_map_iff in Hv. destruct Hv as (z & <- & Hz). exists z. rewrite !in_app_iff. auto.
      - apply (Permutation_in _ (Permutation_sym E1)) in Hv. apply in_map_iff in Hv. destruct Hv as (z & <- & Hz). exists z. rewrite !in_app_iff. auto.
      - apply (Permutation_in _ (Permutation_sym E2)) in Hv. apply in_map_iff in Hv. destruct Hv as (z & <- & Hz). exists z. rewrite !in_app_iff. auto.
      - apply (Permutation_in _ (Permutation_sym E3)) in Hv. apply in_map_iff in Hv. destruct Hv as (z & <- & Hz). exists z. rewrite !in_app_iff. auto. }
    destruct G as (z & Hz & G). assert (X := QB z Hz).
    assert (S1 : inject_Z (2 * z) == 2 * inject_Z z) by (rewrite inject_Z_mult; reflexivity).
    assert (S2 : inject_Z (- (2 * z)) == - (2 * inject_Z z)) by (rewrite inject_Z_opp, inject_Z_mult; reflexivity).
    assert (S3 : inject_Z (- z) == - inject_Z z) by (rewrite inject_Z_opp; reflexivity).
    destruct G as [->|[->| ->]]; [rewrite S1|rewrite S2|rewrite S3]; lra. }
  assert (D5 : (2 <= dn)%nat) by lia. assert (K1 : (1 <= Nat.div (4 * dn) 5)%nat) by (apply Nat.div_le_lower_bound; lia).
  assert (K2 : (2 * Nat.div (4 * dn) 5 <= Nat.div (2 * (4 * dn)) 5)%nat).
  { apply Nat.div_le_lower_bound; [lia|]. assert (X := Nat.mul_div_le (4 * dn) 5). lia. }
  rewrite LZ in L0, L1, L2, L3.
  assert (TOT : (length a0 + (length a1 + (length a2 + length a3)) < fuel)%nat).
  { assert (X : (5 * Nat.div (2 * (4 * dn)) 5 <= 2 * (4 * dn))%nat) by (apply Nat.mul_div_le; lia).
    assert (Y : (5 * Nat.div (4 * dn) 5 <= 4 * dn)%nat) by (apply Nat.mul_div_le; lia). lia. }
  split; [discriminate|]. split; [cbn; lia|]. intros n [HI _]. unfold available. 
  assert (N2 : (2 <= n)%nat).
  { unfold tree_stock_sizes in HI. apply in_map_iff in HI. destruct HI as (x & <- & Hx). assert (2 <= x)%N; [|lia].
    cbn in Hx. repeat (destruct Hx as [<-|Hx]; [lia|]). destruct Hx. }
  assert (NE : forall l : list Q, (1 <= length l)%nat -> l <> []) by (intros [|? ?] H; [cbn in H; lia|discriminate]).
  assert (MB : 2 * (2000 * P) * 3 <= MAX_VALUE) by (unfold MAX_VALUE; lra).
  set (b := (length a0 <? n)%nat). 
  set (c0 := if b then a0 else firstn n a0). set (c1 := if b then a1 else firstn (Nat.div n 2) a1).
  set (c2 := if b then a2 else firstn (Nat.div n 2) a2). set (c3 := if b then a3 else firstn (Nat.div n 2) a3).
  assert (H2' : (1 <= Nat.div n 2)%nat) by (apply Nat.div_le_lower_bound; lia).
  destruct (four_ok (2000 * P) p0 fuel c0 c1 c2 c3) as [TI (r & TR)].
  - intros v Hv. apply AB. rewrite !in_app_iff in *. unfold c0, c1, c2, c3 in Hv. destruct b; [exact Hv|].
    destruct Hv as [Hv|[Hv|[Hv|Hv]]]; apply firstn_In in Hv; auto.
  - exact MB.
  - apply NE. unfold c0. destruct b; [lia|rewrite firstn_length; lia].
  - apply NE. unfold c1. destruct b; [lia|rewrite firstn_length; lia].
  - apply NE. unfold c2. destruct b; [lia|rewrite firstn_length; lia].
  - apply NE. unfold c3. destruct b; [lia|rewrite firstn_length; lia].
  - assert (F : forall k (l : list Q), (length (if b then l else firstn k l) <= length l)%nat) by (intros k l; destruct b; [lia|rewrite firstn_length; lia]).
    assert (F0 := F n a0). assert (F1 := F (Nat.div n 2) a1). assert (F2 := F (Nat.div n 2) a2). assert (F3 := F (Nat.div n 2) a3). unfold c0, c1, c2, c3. lia.
  - apply HP.
  - exists [new_category "agent" c0; new_category "agent" c1; new_category "agent" c2; new_category "agent" c3], r. split; [|split; [exact TI|exact TR]].
    split; [reflexivity|]. unfold available, tree_agent_counts. fold b.
    intros [|[|[|[|j]]]] prices k X1 X2; cbn [nth_error] in X1, X2; try (injection X1 as <-; injection X2 as <-; cbn [nth_error]; rewrite ?one_floor, ?half_floor; reflexivity).
    destruct j; discriminate X1.
Qed.

Lemma sizes_increase : StronglySorted lt tree_stock_sizes.
Proof.
  unfold tree_stock_sizes. match goal with |- StronglySorted lt (map N.to_nat ?l) => set (ns := l) end.
  assert (H : StronglySorted N.lt ns) by (unfold ns; repeat (constructor; [|repeat (constructor; [reflexivity|]); constructor]); constructor).
  clearbody ns. induction H as [|x l H IH F]; cbn [map]; constructor; [exact IH|]. apply Forall_forall. intros y Hy. apply in_map_iff in Hy.
  destruct Hy as (z & <- & Hz). rewrite Forall_forall in F. specialize (F z Hz). lia.
Qed.

(** The table of the stock part of experiment_recpietree.py, for all files of at least two days with prices up to 8333, all shuffles and all
    feasible initial prices: the program ends, with a row for each of the nineteen numbers of agents. *)
Theorem C103_program : forall P p0 fuel shuffles shuffle files, 0 <= P <= 8333 -> files <> [] -> Forall (file_ok P) files ->
  Forall (fun f => (2 <= length (high f))%nat) files ->
  (forall i l, Permutation l (shuffles i l)) -> (forall i it j l, Permutation l (shuffle i it j l)) ->
  (forall m, initial_prices_ok 4 paper_recipes (- MAX_VALUE) (p0 m)) -> (4000000 < N.of_nat fuel)%N ->
  let auction := fun m => tree_auction MAX_VALUE (p0 m) fuel m paper_struct in
  exists stocks runs rows, Forall2 tree_prices_of files stocks
    /\ Forall2 (fun cats its => length its = 50%nat /\ Forall (Forall2 (@Permutation Q) cats) its) stocks runs
    /\ tree_stock_program auction shuffles shuffle files = Ok rows
    /\ Forall2 (tree_stock_row_facts auction paper_struct tree_agent_counts tree_stock_sizes runs 50) tree_stock_sizes rows.
Proof.
  intros P p0 fuel shuffles shuffle files HP NE HF HD S1 S2 HI HU auction.
  destruct (files_split shuffles S1 files 0) as (stocks & E & FT). set (runs := map (fun p => shuffled_runs (shuffle (fst p)) 0 50 (snd p)) (combine (seq 0 (length stocks)) stocks)).
  assert (FR : Forall2 (fun cats its => length its = 50%nat /\ Forall (Forall2 (@Permutation Q) cats) its) stocks runs).
  { unfold runs. assert (G : forall l a, Forall2 (fun cats its => length its = 50%nat /\ Forall (Forall2 (@Permutation Q) cats) its) l
      (map (fun p => shuffled_runs (shuffle (fst p)) 0 50 (snd p)) (combine (seq a (length l)) l))); [|apply G].
    clear - S2. induction l as [|c l IH]; intros a; [constructor|].
    cbn [length seq combine map fst snd]. constructor; [apply runs_perm; intros; apply S2|apply IH]. }
  assert (FO : Forall (fun s => length s = 50%nat /\ Forall (run_ok MAX_VALUE p0 fuel paper_struct tree_agent_counts tree_stock_sizes) s) runs).
  { clear E. revert FR. generalize runs. clear runs. revert HF HD. clear NE. induction FT as [|f cats files stocks T FT IH]; intros HF HD runs FR; inversion FR as [|? its ? rest [L PE] FR']; subst; constructor.
    - split; [exact L|]. eapply Forall_impl; [|exact PE]. intros c HC. inversion HF; subst. inversion HD; subst. eapply tree_run_ok; eassumption.
    - inversion HF; subst. inversion HD; subst. apply IH; assumption. }
  destruct (C69_rows MAX_VALUE p0 fuel paper_struct tree_agent_counts tree_stock_sizes 50 runs) as (rows & ER & FF).
  - reflexivity.
  - lia.
  - intros X. destruct stocks as [|c stocks]; [inversion FT; subst; congruence|discriminate X].
  - repeat constructor; discriminate.
  - apply sizes_increase.
  - exact FO.
  - exists stocks, runs, rows. split; [exact FT|]. split; [exact FR|]. split.
    + unfold tree_stock_program. change (get_agents_analyze paper_struct) with (Ok [2; 2; 1; 1]%nat). cbn [bind]. rewrite E. cbn [bind]. exact ER.
    + eapply Forall2_weaken; [|exact FF]. intros n row (ms & os & U & O & Z & S). exists ms, os. split; [exact U|]. split; [exact O|]. split; [exact Z|].
      intros NO. destruct (S NO) as (r & R1 & R2 & R3 & R4 & R5 & _). exists r. auto.
Qed.
Print Assumptions C103_program.

(** Two files meet the conditions; a file of two days has three buyers and one seller of each kind. *)
Example C103_files : Forall (file_ok 14) [two_days; two_days] /\ Forall (fun f => (2 <= length (high f))%nat) [two_days; two_days].
Proof.
  assert (F : file_ok 14 two_days) by (exists 2%nat; split; [repeat split|]; split; [reflexivity|]; cbn; repeat (apply Forall_cons; [lra|]); constructor).
  split; repeat constructor; assumption.
Qed.

Example C103_initial : initial_prices_ok 4 paper_recipes (- MAX_VALUE) [-(MAX_VALUE); -(2 * MAX_VALUE); -(MAX_VALUE); -(MAX_VALUE)].
Proof.
  split; [reflexivity|]. split; [repeat (apply Forall_cons; [unfold MAX_VALUE; lra|]); constructor|]. exists (-(3 * MAX_VALUE)).
  intros r [<-|[<-|[]]]; vm_compute; reflexivity.
Qed.

Example C103_split_case : get_prices_tree (@rev Z) two_days tree_agent_counts tree_agent_values
  = Ok [[22000; 19000; 24000]; [-(20000)]; [-(13000)]; [-(11000)]].
Proof. vm_compute. reflexivity. Qed.

(** The runs: two iterations, the second one shuffles what the first one left. *)
Example C103_runs_case : shuffled_runs (fun it j l => if (it =? j)%nat then rev l else l) 0 2 [[1; 2]; [3; 4]] = [[[2; 1]; [3; 4]]; [[2; 1]; [4; 3]]].
Proof. reflexivity. Qed.

Example C103_sizes : map N.of_nat tree_stock_sizes = [2; 4; 6; 10; 16; 26; 50; 100; 500; 1000; 2000; 5000; 10000; 20000; 50000; 100000; 200000; 500000; 1000000]%N.
Proof. unfold tree_stock_sizes. rewrite map_map. rewrite (map_ext _ (fun x => x)); [apply map_id|]. intros x. apply N2Nat.id. Qed.

(** With integer counts it is the function of C51. *)
Theorem C103_integer_counts : forall data counts values, split_prices_q data (map Qn counts) values = split_prices data counts values.
Proof. exact split_prices_q_nat. Qed.
Print Assumptions C103_integer_counts.
