(** * C99: the experiment programs finish with every draw *)

From Coq Require Import String List Arith NArith ZArith Lia QArith Lqa Permutation Sorted.
From Verif Require Import Base Model_Agents Model_Trade Model_Prices Model_Market Model_Ascending Model_TradeReduction Model_McAfee Model_RecipeTree
  Model_TreeAuction Model_TreeCalc Model_IntTree Model_Experiment Model_StockExperiment Model_Drivers
  Spec_Market Spec_Trade Spec_TradeReduction Spec_RecipeTree Spec_TreeAuction Spec_Experiment Spec_Drivers Proof_Exp1
  Props_Experiment Props_TreeAuction Props_Ties Props_Stock.
Import ListNotations.
Open Scope Q_scope.
Open Scope string_scope.

(** ** The calls of experiment() *)

Lemma Forall2_weaken : forall {A B} (P Q : A -> B -> Prop) l l', (forall a b, P a b -> Q a b) -> Forall2 P l l' -> Forall2 Q l l'.
Proof. intros A B P Q l l' H F. induction F; constructor; auto. Qed.


Definition call_fine (c : call) : Prop :=
  experiment_input (c_recipe c) (c_ranges c) /\ (0 < c_iterations c)%nat /\ Forall (fun n => (N.of_nat n <= 2000000)%N) (c_sizes c)
  /\ match c_mechanism c with McAfee h => all_ones (c_recipe c) /\ ((length (c_recipe c) <= 2)%nat \/ h = false) | _ => True end.

Definition input_checkb (B : Z) (recipe : list nat) (ranges : list (Z * Z)) : bool :=
  (negb (length recipe =? 0)%nat && forallb (fun r => 0 <? r)%nat recipe && (length ranges =? length recipe)%nat
   && forallb (fun r => (- B <=? fst r)%Z && (snd r <=? B)%Z) ranges && (B * Z.of_nat (nsum recipe) <? 100000000)%Z)%bool.

Lemma input_check : forall B recipe ranges, (0 <= B)%Z -> input_checkb B recipe ranges = true -> experiment_input recipe ranges.
Proof.
  intros B recipe ranges HB H. unfold input_checkb in H. repeat rewrite Bool.andb_true_iff in H. destruct H as [[[[H1 H2] H3] H4] H5].
  split; [intros ->; discriminate H1|]. split.
  { apply Forall_forall. intros r Hr. rewrite forallb_forall in H2. apply Nat.ltb_lt. apply H2. exact Hr. }
  split; [apply Nat.eqb_eq; exact H3|]. exists B. split; [exact HB|]. split; [|apply Z.ltb_lt; exact H5].
  intros lo hi Hi. rewrite forallb_forall in H4. specialize (H4 _ Hi). apply andb_prop in H4. cbn [fst snd] in H4. destruct H4 as [A C].
  split; [apply Z.leb_le; exact A|apply Z.leb_le; exact C].
Qed.

Definition call_checkb (c : call) : bool :=
  (input_checkb 20000 (c_recipe c) (c_ranges c) && (0 <? c_iterations c)%nat && forallb (fun n => N.of_nat n <=? 2000000)%N (c_sizes c)
   && match c_mechanism c with McAfee h => forallb (fun r => r =? 1)%nat (c_recipe c) && ((length (c_recipe c) <=? 2)%nat || negb h) | _ => true end)%bool.

Lemma call_check : forall c, call_checkb c = true -> call_fine c.
Proof.
  intros c H. unfold call_checkb in H. repeat rewrite Bool.andb_true_iff in H. destruct H as [[[H1 H2] H3] H4].
  split; [apply (input_check 20000); [lia|exact H1]|]. split; [apply Nat.ltb_lt; exact H2|]. split.
  { apply Forall_forall. intros n Hn. rewrite forallb_forall in H3. apply N.leb_le. apply H3. exact Hn. }
  destruct (c_mechanism c) as [| |h]; [exact I|exact I|]. rewrite Bool.andb_true_iff in H4. destruct H4 as [A C]. split.
  - apply Forall_forall. intros r Hr. rewrite forallb_forall in A. apply Nat.eqb_eq. apply A. exact Hr.
  - apply Bool.orb_true_iff in C. destruct C as [C|C]; [left; apply Nat.leb_le; exact C|right; destruct h; [discriminate C|reflexivity]].
Qed.

Lemma calls_fine : forall c, In c all_calls -> call_fine c.
Proof.
  assert (H : forallb call_checkb all_calls = true) by (vm_compute; reflexivity).
  intros c Hc. apply call_check. rewrite forallb_forall in H. apply H. exact Hc.
Qed.

Lemma samples_ok : forall c samples, call_fine c -> call_samples c samples ->
  Forall (fun s => experiment_sample (c_recipe c) (c_ranges c) (fst s) (snd s)) samples.
Proof.
  intros c samples (_ & I & S & _) (HF & HS). apply Forall_forall. intros s Hs. rewrite Forall_forall in HS. destruct (HS s Hs) as [L R].
  split; [intros E; rewrite E in L; cbn in L; lia|]. split; [|exact R].
  rewrite Forall_forall in S. apply S. rewrite <- HF. apply in_map. exact Hs.
Qed.

(** Every call of experiment() in the programs experiment_comparing_mcafee_to_sbb.py, mcafee_experiment.py, ascending_auction_experiment.py,
    experiment_sbb_with_two_categories.py, experiment_sbb_with_vectors_of_ones.py and stock/comparing_results_for_demo_11.py, whatever is drawn. *)
Theorem C99_calls : forall c samples, In c all_calls -> call_samples c samples ->
  exists rows, experiment (run_mechanism (c_mechanism c)) (c_recipe c) samples = Ok rows
  /\ Forall2 (fun s r => num_of_agents r = fst s /\ iterations r = c_iterations c /\ row_bounds r
       /\ match c_mechanism c with McAfee _ => True | _ => market_gft_ratio r == total_gft_ratio r end
       /\ exists os, Forall2 (outcome_of (run_mechanism (c_mechanism c)) (c_recipe c)) (snd s) os /\ row_averages os r /\ row_ratio os r)
     samples rows
  /\ map num_of_agents rows = c_sizes c.
Proof.
  intros c samples Hc HS. assert (F := calls_fine c Hc). assert (V := samples_ok c samples F HS). destruct F as (FI & _ & _ & FM).
  assert (K : exists rows, experiment (run_mechanism (c_mechanism c)) (c_recipe c) samples = Ok rows
    /\ Forall2 (fun s r => num_of_agents r = fst s /\ row_bounds r
         /\ match c_mechanism c with McAfee _ => True | _ => market_gft_ratio r == total_gft_ratio r end
         /\ exists os, Forall2 (outcome_of (run_mechanism (c_mechanism c)) (c_recipe c)) (snd s) os /\ row_averages os r /\ row_ratio os r) samples rows).
  { destruct (c_mechanism c) as [| |h]; cbn [run_mechanism].
    - destruct (C66_ascending _ _ _ FI V) as (rows & E & R). exists rows. split; [exact E|]. eapply Forall2_weaken; [|exact R].
      intros s r (A & B & _ & D & X). split; [exact A|]. split; [exact B|]. split; [exact D|exact X].
    - destruct (C66_trade_reduction _ _ _ FI V) as (rows & E & R). exists rows. split; [exact E|]. eapply Forall2_weaken; [|exact R].
      intros s r (A & B & _ & D & X). split; [exact A|]. split; [exact B|]. split; [exact D|exact X].
    - destruct FM as [F1 F2]. destruct (C66_mcafee h _ _ _ FI F1 F2 V) as (rows & E & R). exists rows. split; [exact E|]. eapply Forall2_weaken; [|exact R].
      intros s r (A & B & X). split; [exact A|]. split; [exact B|]. split; [exact I|exact X]. }
  destruct K as (rows & E & R). exists rows. split; [exact E|]. destruct HS as (HF & HS). split.
  - clear E HF V. induction R as [|s r ss rs H R IH]; [constructor|]. inversion HS as [|? ? H1 H2]; subst. constructor; [|apply IH; exact H2].
    destruct H as (A & B & C & os & O & P & W). split; [exact A|]. split; [|split; [exact B|split; [exact C|exists os; auto]]].
    destruct P as [P _]. rewrite P. apply Forall2_length in O. rewrite <- O. apply H1.
  - rewrite <- HF. clear E HS HF V. induction R as [|s r ss rs H R IH]; [reflexivity|]. cbn. rewrite IH. f_equal. apply H.
Qed.
Print Assumptions C99_calls.

(** ** comparing_sbbs.py *)

Lemma sbb_inputs : forall r, In r sbb_recipes -> experiment_input r (scaled_ranges r sbb_ranges).
Proof.
  assert (H : forallb (fun r => input_checkb 20000 r (scaled_ranges r sbb_ranges)) sbb_recipes = true) by (vm_compute; reflexivity).
  intros r Hr. rewrite forallb_forall in H. apply (input_check 20000); [lia|]. apply H. exact Hr.
Qed.

Lemma sbb_sizes_bound : Forall (fun n => (N.of_nat n <= 2000000)%N) sbb_sizes.
Proof.
  assert (H : forallb (fun n => N.of_nat n <=? 2000000)%N sbb_sizes = true) by (vm_compute; reflexivity).
  apply Forall_forall. intros n Hn. rewrite forallb_forall in H. apply N.leb_le. apply H. exact Hn.
Qed.

Lemma sbb_run : forall run, In (fst run) sbb_recipes -> sbb_samples run ->
  snd run <> [] /\ exists ranges, experiment_input (fst run) ranges /\ Forall (fun ms => exists n, experiment_sample (fst run) ranges n ms) (snd run).
Proof.
  intros run Hr (L & HS). split; [intros E; rewrite E in L; discriminate L|]. exists (scaled_ranges (fst run) sbb_ranges). split; [apply sbb_inputs; exact Hr|].
  clear L. revert HS. assert (SB := sbb_sizes_bound). revert SB. generalize (snd run), sbb_sizes. intros l. induction l as [|ms l IH]; intros ns SB HS; [constructor|].
  inversion HS as [|n ? ns' ? H1 H2]; subst. inversion SB as [|? ? B1 B2]; subst. constructor; [|eapply IH; eassumption]. exists n. destruct H1 as [L R]. split; [intros ->; discriminate L|]. split; assumption.
Qed.

Lemma sbb_runs : forall runs, incl (map fst runs) sbb_recipes -> Forall sbb_samples runs ->
  Forall (fun run => snd run <> [] /\ exists ranges, experiment_input (fst run) ranges
    /\ Forall (fun ms => exists n, experiment_sample (fst run) ranges n ms) (snd run)) runs.
Proof.
  intros runs HI HS. apply Forall_forall. intros run Hr. rewrite Forall_forall in HS. apply sbb_run; [apply HI; apply in_map; exact Hr|apply HS; exact Hr].
Qed.

Lemma compare_cons : forall run runs rows, compare_experiment (run :: runs) = Ok rows ->
  exists r rs, rows = r :: rs /\ compare_experiment [run] = Ok [r] /\ compare_experiment runs = Ok rs.
Proof.
  intros [rc ss] runs rows H. cbn [compare_experiment] in *. apply bind_Ok in H. destruct H as (w & H1 & H). apply bind_Ok in H. destruct H as (r & H2 & H).
  apply bind_Ok in H. destruct H as (rs & H3 & H). injection H as <-. exists r, rs. split; [reflexivity|]. rewrite H1. cbn [bind]. rewrite H2. cbn [bind]. auto.
Qed.

(** Twelve rows, whatever is drawn; every row counts the twenty numbers of agents once.  For the recipes of ones except for the last entry
    (the first five and the eighth), all are ties. *)
Theorem C99_comparing_sbbs : forall runs, map fst runs = sbb_recipes -> Forall sbb_samples runs ->
  exists rows, compare_experiment runs = Ok rows
  /\ Forall2 (fun run r => (external_wins r + ties r + ascending_wins r = 20)%nat /\ cmp_consistent run r
       /\ (exists os, Forall2 (size_total_of (fst run)) (snd run) os /\ cmp_row_of os r)
       /\ (ones_but_last (fst run) -> r = mkCR 0 100 0 0 100 0 0 20 0)) runs rows.
Proof.
  intros runs HF HS. assert (HI : incl (map fst runs) sbb_recipes) by (rewrite HF; apply incl_refl).
  destruct (C67_succeeds runs (sbb_runs runs HI HS)) as (rows & E & R). exists rows. split; [exact E|]. clear R HF.
  assert (R := C67_counts runs rows E). revert HI HS rows E R. induction runs as [|run runs IH]; intros HI HS rows E R; [inversion R; constructor|].
  destruct (compare_cons _ _ _ E) as (r & rs & -> & E1 & E2). inversion R as [|? ? ? ? R1 R2]; subst.
  inversion HS as [|? ? S1 S2]; subst. assert (HI2 : incl (map fst runs) sbb_recipes) by (intros x Hx; apply HI; right; exact Hx).
  assert (Hr : In (fst run) sbb_recipes) by (apply HI; left; reflexivity).
  assert (L20 : length (snd run) = 20%nat) by (apply S1). constructor; [|apply IH; assumption].
  destruct R1 as [A B]. split; [rewrite <- L20; apply B|]. split; [exact B|]. split; [exact A|]. intros O.
  assert (T : compare_experiment [run] = Ok (map (fun run => mkCR 0 100 0 0 100 0 0 (length (snd run)) 0) [run])).
  { apply C67_last_tie. constructor; [|constructor]. destruct (sbb_run run Hr S1) as (N & X). split; [exact N|split; [exact O|exact X]]. }
  cbn [map] in T. rewrite L20, E1 in T. injection T as ->. reflexivity.
Qed.
Print Assumptions C99_comparing_sbbs.

(** ** experiment_recpietree.py *)

(** What is drawn: the numbers of agents and the ends of the ranges. *)
Theorem C99_tree_draws : forall n, In n tree_sizes ->
  category_draws n 0 = Ok (Z.of_nat n, 2, 2000) /\ category_draws n 1 = Ok (Z.of_nat (Nat.div n 2), -(2000), -(2))
  /\ category_draws n 2 = Ok (Z.of_nat (Nat.div n 2), -(1000), -(1)) /\ category_draws n 3 = Ok (Z.of_nat (Nat.div n 2), -(1000), -(1)).
Proof.
  intros n H. unfold tree_sizes in H. repeat (destruct H as [<-|H]; [split; [|split; [|split]]; vm_compute; reflexivity|]). destruct H.
Qed.
Print Assumptions C99_tree_draws.

Lemma uniform_within : forall name (lo hi : Z) d, (forall x, In x d -> inject_Z lo <= x <= inject_Z hi) ->
  forall v, In v (cvalues (uniformly_random name d)) -> inject_Z lo <= v <= inject_Z hi.
Proof.
  intros name lo hi d H v Hv. unfold uniformly_random, new_category in Hv. cbn [cvalues] in Hv.
  apply (Permutation_in _ (sort_desc_perm _)) in Hv. apply in_map_iff in Hv. destruct Hv as (x & <- & Hx). destruct (H x Hx) as [A B].
  apply py_round_mono in A. apply py_round_mono in B. rewrite py_round_int in A, B. split; rewrite <- Zle_Qle; assumption.
Qed.

Lemma uniform_size : forall name d, csize (uniformly_random name d) = length d.
Proof. intros. unfold csize, uniformly_random, new_category. cbn [cvalues]. rewrite sort_desc_length, map_length. reflexivity. Qed.

Lemma uniform_sorted : forall name d, desc (cvalues (uniformly_random name d)).
Proof. intros. unfold uniformly_random, new_category. cbn [cvalues]. apply sort_desc_desc. Qed.

Lemma paper_within : forall n m, paper_market n m -> values_within 2000 m.
Proof.
  intros n m (d0 & d1 & d2 & d3 & -> & _ & _ & _ & _ & H0 & H1 & H2 & H3) c v Hc Hv. cbn [map] in Hc.
  destruct Hc as [<-|[<-|[<-|[<-|[]]]]].
  - apply (uniform_within "agent" 2 2000) in Hv; [unfold inject_Z in Hv; lra|exact H0].
  - apply (uniform_within "agent" (-2000) (-2)) in Hv; [unfold inject_Z in Hv; lra|exact H1].
  - apply (uniform_within "agent" (-1000) (-1)) in Hv; [unfold inject_Z in Hv; lra|exact H2].
  - apply (uniform_within "agent" (-1000) (-1)) in Hv; [unfold inject_Z in Hv; lra|exact H3].
Qed.

Lemma paper_shape : forall n m, paper_market n m -> exists c0 c1 c2 c3, m = [c0; c1; c2; c3]
  /\ csize c0 = n /\ csize c1 = Nat.div n 2 /\ csize c2 = Nat.div n 2 /\ csize c3 = Nat.div n 2 /\ sorted_market m.
Proof.
  intros n m (d0 & d1 & d2 & d3 & -> & L0 & L1 & L2 & L3 & _). cbn [map].
  exists (uniformly_random "agent" d0), (uniformly_random "agent" d1), (uniformly_random "agent" d2), (uniformly_random "agent" d3).
  rewrite !uniform_size. split; [reflexivity|]. split; [exact L0|]. split; [exact L1|]. split; [exact L2|]. split; [exact L3|].
  repeat constructor; apply uniform_sorted.
Qed.

Lemma paper_new_tree : forall c0 c1 c2 c3, new_tree [c0; c1; c2; c3] paper_struct = Ok paper_tree.
Proof. reflexivity. Qed.

Lemma paper_distinct : distinct_categories paper_tree.
Proof. unfold distinct_categories; simpl; repeat constructor; simpl; intuition discriminate. Qed.

Lemma paper_input : forall p0 n m, paper_market n m -> initial_prices_ok 4 paper_recipes (- MAX_VALUE) (p0 m) ->
  tree_input MAX_VALUE p0 paper_struct m.
Proof.
  intros p0 n m HM HP. assert (HV := paper_within _ _ HM). destruct (paper_shape _ _ HM) as (c0 & c1 & c2 & c3 & E & _ & _ & _ & _ & S).
  split; [exact S|]. split.
  { intros c v Hc Hv. assert (X := HV c v Hc Hv). unfold MAX_VALUE. lra. }
  intros t rs Ht Hrs. subst m. rewrite paper_new_tree in Ht. injection Ht as <-. split; [exact paper_distinct|].
  vm_compute in Hrs. injection Hrs as <-. exact HP.
Qed.

Lemma paper_ends : forall p0 fuel n m, paper_market n m -> initial_prices_ok 4 paper_recipes (- MAX_VALUE) (p0 m) ->
  (2 <= n)%nat -> (n + 3 * Nat.div n 2 < fuel)%nat -> exists r, tree_auction MAX_VALUE (p0 m) fuel m paper_struct = Ok r.
Proof.
  intros p0 fuel n m HM HP Hn HF. assert (HV := paper_within _ _ HM). destruct (paper_shape _ _ HM) as (c0 & c1 & c2 & c3 & -> & L0 & L1 & L2 & L3 & S).
  assert (D : (1 <= Nat.div n 2)%nat) by (apply Nat.div_le_lower_bound; lia).
  eapply (C38_three_levels_terminate MAX_VALUE 2000 _ fuel _ paper_struct paper_tree paper_recipes).
  - reflexivity.
  - reflexivity.
  - exact paper_distinct.
  - discriminate.
  - vm_compute; lia.
  - reflexivity.
  - exact HP.
  - exact HV.
  - unfold Qle; simpl; lia.
  - intros i Hi. cbn in Hi. destruct Hi as [<-|[<-|[<-|[<-|[]]]]]; unfold cat_at; cbn [nth]; lia.
  - unfold agents_number, nsum. cbn [map fold_right]. lia.
Qed.

Lemma tree_size_range : forall n, In n tree_sizes -> (2 <= N.of_nat n <= 5000)%N.
Proof.
  intros n H. unfold tree_sizes in H. repeat (destruct H as [<-|H]; [vm_compute; split; discriminate|]). destruct H.
Qed.

(** The part of experiment_recpietree.py with random values: no auction raises an exception or loops forever, whatever is drawn and whatever
    initial prices the linear program finds; the table has a row for each of the twelve numbers of agents, with the averages of the fifty
    iterations, within the bounds of C68. *)
Theorem C99_tree : forall p0 fuel samples, paper_samples samples -> (forall m, initial_prices_ok 4 paper_recipes (- MAX_VALUE) (p0 m)) ->
  (12500 < N.of_nat fuel)%N ->
  exists rows, tree_driver (fun m => tree_auction MAX_VALUE (p0 m) fuel m paper_struct) samples = Ok rows
  /\ map tr_numofagents rows = tree_sizes
  /\ Forall2 (fun s r => tr_iterations r = 50%nat /\ tree_row_bounds r
       /\ exists os, Forall2 (tree_outcome_of (fun m => tree_auction MAX_VALUE (p0 m) fuel m paper_struct) paper_struct) (snd s) os
          /\ tree_row_averages os r) samples rows.
Proof.
  intros p0 fuel samples (HF & HS) HP Hfuel.
  destruct (C68_rows MAX_VALUE p0 fuel paper_struct samples) as (rows & E & R).
  - reflexivity.
  - apply Forall_forall. intros s Hs. rewrite Forall_forall in HS. destruct (HS s Hs) as [L F].
    assert (B : In (fst s) tree_sizes) by (rewrite <- HF; apply in_map; exact Hs). apply tree_size_range in B.
    split; [intros X; rewrite X in L; discriminate L|]. split; (eapply Forall_impl; [|exact F]); intros m Hm.
    + eapply paper_input; [exact Hm|apply HP].
    + eapply paper_ends; [exact Hm|apply HP|lia|]. assert (X := Nat.div_le_upper_bound (fst s) 2 (fst s)). 
      assert (Y : (2 * Nat.div (fst s) 2 <= fst s)%nat) by (apply Nat.mul_div_le; lia). lia.
  - exists rows. split; [|split].
    + unfold tree_driver. change (get_agents_analyze paper_struct) with (Ok [2; 2; 1; 1]%nat). cbn [bind]. 
      match goal with |- bind ?x _ = _ => assert (X : exists y, x = Ok y) by (eexists; reflexivity) end. destruct X as [y ->]. cbn [bind]. exact E.
    + rewrite <- HF. clear E HS HF. induction R as [|s r ss rs H R IH]; [reflexivity|]. cbn. rewrite IH. f_equal. apply H.
    + clear E HF. induction R as [|s r ss rs H R IH]; [constructor|]. inversion HS as [|? ? H1 H2]; subst. constructor; [|apply IH; exact H2].
      destruct H as (_ & B & _ & os & O & P & _). split; [|split; [exact B|exists os; auto]].
      destruct P as [P _]. rewrite P. apply Forall2_length in O. rewrite <- O. apply H1.
Qed.
Print Assumptions C99_tree.

(** experiment_recpietree_integer.py fails in the first iteration, whatever is drawn. *)
Theorem C99_int_tree : forall auction n c0 c1 c2 c3 ms samples,
  int_tree_driver auction ((n, [c0; c1; c2; c3] :: ms) :: samples) = Raise TypeError
  \/ int_tree_driver auction ((n, [c0; c1; c2; c3] :: ms) :: samples) = Raise IndexError.
Proof.
  intros. unfold int_tree_driver. apply C70_raises with (i := 0%nat) (ch := [Node 1 []; Node 2 [Node 3 []]]); [reflexivity|discriminate].
Qed.
Print Assumptions C99_int_tree.

(** ** Concrete draws *)

Definition flat_market (n : nat) (recipe : list nat) (ranges : list (Z * Z)) : market :=
  map (fun p => uniformly_random "agent" (repeat (inject_Z (fst (snd p))) (n * fst p))) (combine recipe ranges).

Lemma flat_market_random : forall n recipe ranges, length ranges = length recipe -> Forall (fun rg => (fst rg <= snd rg)%Z) ranges ->
  random_market n recipe ranges (flat_market n recipe ranges).
Proof.
  intros n recipe ranges L F. exists (map (fun p => repeat (inject_Z (fst (snd p))) (n * fst p)) (combine recipe ranges)).
  split; [unfold flat_market; rewrite map_map; reflexivity|]. split; [rewrite map_length, combine_length; lia|].
  revert ranges L F. induction recipe as [|r0 recipe IH]; intros [|rg ranges] L F i d r lo hi Hd Hr Hg; try (destruct i; discriminate).
  inversion F as [|? ? F1 F2]; subst. destruct i as [|i]; cbn in Hd, Hr, Hg.
  - injection Hd as <-. injection Hr as <-. injection Hg as ->. cbn [fst snd] in *. split; [apply repeat_length|].
    intros x Hx. apply repeat_spec in Hx. subst x. split; [apply Qle_refl|rewrite <- Zle_Qle; exact F1].
  - eapply IH; eauto.
Qed.

Example C99_calls_witness : forall c, In c all_calls ->
  call_samples c (map (fun n => (n, repeat (flat_market n (c_recipe c) (c_ranges c)) (c_iterations c))) (c_sizes c)).
Proof.
  intros c Hc. assert (G : forallb (fun c => forallb (fun rg => fst rg <=? snd rg)%Z (c_ranges c)) all_calls = true) by (vm_compute; reflexivity).
  assert (F := calls_fine c Hc). destruct F as ((_ & _ & L & _) & _). rewrite forallb_forall in G. specialize (G c Hc). rewrite forallb_forall in G. split.
  - rewrite map_map. cbn. apply map_id.
  - apply Forall_forall. intros s Hs. apply in_map_iff in Hs. destruct Hs as (n & <- & Hn). cbn [fst snd]. split; [apply repeat_length|].
    apply Forall_forall. intros m Hm. apply repeat_spec in Hm. subst m. apply flat_market_random; [exact L|].
    apply Forall_forall. intros rg Hr. apply Z.leb_le. apply G. exact Hr.
Qed.

Example C99_sbb_witness : let runs := map (fun r => (r, map (fun n => repeat (flat_market n r (scaled_ranges r sbb_ranges)) 10) sbb_sizes)) sbb_recipes in
  map fst runs = sbb_recipes /\ Forall sbb_samples runs.
Proof.
  cbv zeta. split; [rewrite map_map; cbn; reflexivity|]. apply Forall_forall. intros run Hr. apply in_map_iff in Hr. destruct Hr as (r & <- & Hr).
  split; [cbn [snd]; apply map_length|]. cbn [fst snd].
  assert (G : forallb (fun r => forallb (fun rg => fst rg <=? snd rg)%Z (scaled_ranges r sbb_ranges)) sbb_recipes = true) by (vm_compute; reflexivity).
  destruct (sbb_inputs r Hr) as (_ & _ & L & _). rewrite forallb_forall in G. specialize (G r Hr). rewrite forallb_forall in G.
  generalize sbb_sizes. intros l. induction l as [|n l IH]; [constructor|]. cbn [map]. constructor; [|exact IH]. split; [apply repeat_length|].
  apply Forall_forall. intros m Hm. apply repeat_spec in Hm. subst m. apply flat_market_random; [exact L|].
  apply Forall_forall. intros rg Hg. apply Z.leb_le. apply G. exact Hg.
Qed.

Definition paper_flat (n : nat) : market :=
  map (uniformly_random "agent") [repeat 7 n; repeat (-(4)) (Nat.div n 2); repeat (-(2)) (Nat.div n 2); repeat (-(1)) (Nat.div n 2)].

Example C99_tree_witness : paper_samples (map (fun n => (n, repeat (paper_flat n) 50)) tree_sizes)
  /\ initial_prices_ok 4 paper_recipes (- MAX_VALUE) paper_p0.
Proof.
  split.
  - split; [rewrite map_map; apply map_id|]. apply Forall_forall. intros s Hs. apply in_map_iff in Hs. destruct Hs as (n & <- & Hn). cbn [fst snd].
    split; [apply repeat_length|]. apply Forall_forall. intros m Hm. apply repeat_spec in Hm. subst m.
    exists (repeat 7 n), (repeat (-(4)) (Nat.div n 2)), (repeat (-(2)) (Nat.div n 2)), (repeat (-(1)) (Nat.div n 2)).
    split; [reflexivity|]. rewrite !repeat_length. repeat (split; [reflexivity|]).
    split; [|split; [|split]]; intros x Hx; apply repeat_spec in Hx; subst x; split; vm_compute; discriminate.
  - split; [reflexivity|]. split; [repeat constructor; unfold Qle; simpl; lia|]. exists (- (3) * MAX_VALUE). intros r [<-|[<-|[]]]; reflexivity.
Qed.
