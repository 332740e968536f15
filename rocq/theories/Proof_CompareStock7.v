(** * The stock comparison: markets from stocks, random markets, and the exceptional cases *)

From Coq Require Import String List Arith NArith Lia ZArith QArith Qround Lqa Bool Permutation.
From Verif Require Import Base Model_Agents Model_Trade Model_Prices Model_Market Model_Experiment Model_CompareStock
  Spec_Market Spec_Trade Spec_StockData Spec_CompareStock Proof_Exp2 Proof_Exp3 Proof_CompareStock Proof_CompareStock2 Proof_CompareStock3
  Proof_CompareStock4 Proof_CompareStock5 Proof_CompareStock6.
Import ListNotations.
Open Scope Q_scope.

Lemma drawn_perm : forall recipe n l l' m, Permutation l l' -> drawn_market recipe n l m -> drawn_market recipe n l' m.
Proof. intros recipe n l l' m P (used & rest & A & B). exists used, rest. split; [|exact B]. etransitivity; eassumption. Qed.

Lemma firstn_S_max : forall nums j n, nth_error nums j = Some n -> list_max (firstn (S j) nums) = Nat.max (list_max (firstn j nums)) n.
Proof.
  induction nums as [|x nums IH]; intros [|j] n H; try discriminate.
  - injection H as ->. cbn. lia.
  - cbn [firstn list_max fold_right]. specialize (IH j n H). cbn [firstn] in IH. unfold list_max in *. rewrite IH. lia.
Qed.

Lemma copies_in : forall k l x, In x (copies k l) -> In x l.
Proof.
  intros k l x H. unfold copies in H. apply in_concat in H. destruct H as (y & A & B). apply repeat_spec in A. subst y. exact B.
Qed.

Lemma kept_nonempty : forall need l prices, l <> [] -> kept need l prices -> prices <> [].
Proof.
  intros need l prices NE (l' & (e & -> & _) & P) ->. apply Permutation_length in P. rewrite copies_length in P. cbn in P.
  assert (X : (2 ^ e <> 0)%nat) by (apply Nat.pow_nonzero; lia). destruct l; [congruence|]. cbn in P. lia.
Qed.

Lemma stock_step : forall shuffle recipe nums s factor q j n it prices, (forall i j it l, Permutation (shuffle i j it l) l) ->
  recipe <> [] -> Forall (fun r => (0 < r)%nat) recipe -> s <> [] -> buyer_factor recipe = Ok factor -> nth_error nums j = Some n ->
  let I := fun j prices => kept (list_max (firstn j nums) * nsum recipe) s prices in
  I j prices \/ I (S j) prices ->
  exists prices' m, next_market (FromStock shuffle) recipe factor n q j it prices = Ok (prices', m) /\ I (S j) prices' /\ stock_market recipe nums s j m.
Proof.
  intros shuffle recipe nums s factor q j n it prices SH NE FP NS EF Hn I HI.
  assert (EM := firstn_S_max nums j n Hn).
  assert (HI' : exists need, kept need s prices /\ Nat.max need (n * nsum recipe) = (list_max (firstn (S j) nums) * nsum recipe)%nat).
  { rewrite EM, <- Nat.mul_max_distr_r. destruct HI as [HI|HI]; unfold I in HI; [exists (list_max (firstn j nums) * nsum recipe)%nat; split; [exact HI|reflexivity]|].
    rewrite EM, <- Nat.mul_max_distr_r in HI. eexists. split; [exact HI|]. lia. }
  destruct HI' as (need & K & EN).
  destruct (double_nonempty (n * nsum recipe) prices) as (l & EL & DL); [left; eapply kept_nonempty; eassumption|].
  assert (K' := kept_step _ _ _ _ _ K DL). rewrite EN in K'. apply (kept_perm _ _ _ (shuffle q j it l)) in K'; [|apply SH].
  cbn [next_market]. rewrite EL. cbn [bind]. cbn zeta. eexists. eexists. split; [reflexivity|]. split; [exact K'|].
  destruct K' as (l' & D' & P'). exists n, l'. split; [exact Hn|]. split; [exact D'|].
  eapply drawn_perm; [exact P'|]. apply categories_drawn; auto.
  rewrite (Permutation_length (SH q j it l)). destruct DL as (e & _ & X & _). exact X.
Qed.

Theorem stock_experiment : forall shuffle recipe auctions its nums stocks, (forall i j it l, Permutation (shuffle i j it l) l) ->
  compare_input recipe auctions nums -> (0 < its)%nat -> stocks <> [] -> Forall (fun s => s <> []) stocks -> stock_prices_ok recipe stocks ->
  exists rows, compare_experiment_stock (FromStock shuffle) recipe auctions its nums stocks = Ok rows
    /\ map fst rows = nums
    /\ forall j n row, nth_error rows j = Some (n, row) ->
         exists ms L, Forall2 (fun s ml => length ml = its /\ Forall (stock_market recipe nums s j) ml) stocks ms
           /\ Forall2 (columns_of recipe auctions) (concat ms) L /\ row_facts recipe auctions L row.
Proof.
  intros shuffle recipe auctions its nums stocks SH CI ITS NS NE (P & P0 & HP & PM & PS). pose proof CI as (RN & FP & ND & HN & MF).
  apply (experiment_any (FromStock shuffle) recipe auctions its nums stocks
           (fun s j prices => s <> [] -> kept (list_max (firstn j nums) * nsum recipe) s prices) (stock_market recipe nums)); auto.
  - intros s j m (n & l & Hn & (e & -> & _) & D) Hs. apply drawn_tame with (n := n) (l := copies (2 ^ e) s) (P := P); auto.
    + rewrite Forall_forall in HN. apply HN. eapply nth_error_In; exact Hn.
    + apply Forall_forall. intros x Hx. apply copies_in in Hx. rewrite Forall_forall in HP. specialize (HP s Hs). rewrite Forall_forall in HP. apply HP. exact Hx.
  - intros factor q s j n it prices EF Hq Hj HI. assert (SN : s <> []) by (rewrite Forall_forall in NE; apply NE; eapply nth_error_In; exact Hq).
    destruct (stock_step shuffle recipe nums s factor q j n it prices SH RN FP SN EF Hj) as (p' & m & A & B & C).
    + destruct HI as [HI|HI]; [left|right]; apply HI; exact SN.
    + exists p', m. auto.
  - intros s Hs _. apply kept_start.
Qed.

Theorem random_stock_experiment : forall draws recipe auctions its nums stocks,
  compare_input recipe auctions nums -> (nsum recipe < 1000)%nat -> (0 < its)%nat -> stocks <> [] ->
  (forall i j it, (j < length nums)%nat -> random_stock_market recipe nums j (map (uniformly_random "agent") (draws i j it))) ->
  exists rows, compare_experiment_stock (FromRandom draws) recipe auctions its nums stocks = Ok rows
    /\ map fst rows = nums
    /\ forall j n row, nth_error rows j = Some (n, row) ->
         exists ms L, Forall2 (fun s ml => length ml = its /\ Forall (random_stock_market recipe nums j) ml) stocks ms
           /\ Forall2 (columns_of recipe auctions) (concat ms) L /\ row_facts recipe auctions L row.
Proof.
  intros draws recipe auctions its nums stocks CI SMALL ITS NS HD. pose proof CI as (RN & FP & ND & HN & MF).
  apply (experiment_any (FromRandom draws) recipe auctions its nums stocks (fun _ _ _ => True) (fun _ => random_stock_market recipe nums)); auto.
  - intros s j m H _. eapply random_stock_tame; eassumption.
  - intros factor q s j n it prices _ _ Hj _. cbn [next_market]. eexists. eexists. split; [reflexivity|]. split; [exact Logic.I|].
    apply HD. apply nth_error_Some. congruence.
Qed.

(** ** Exceptional cases *)
Theorem empty_stock : forall shuffle recipe auctions its nums stocks n,
  recipe <> [] -> Forall (fun r => (0 < r)%nat) recipe -> (0 < its)%nat -> (0 < n)%nat ->
  compare_experiment_stock (FromStock shuffle) recipe auctions its (n :: nums) ([] :: stocks) = Timeout.
Proof.
  intros shuffle recipe auctions its nums stocks n NE FP ITS HN. unfold compare_experiment_stock.
  destruct (buyer_factor_ok recipe NE FP) as (factor & EF). rewrite EF. cbn [bind compare_stocks compare_nums].
  destruct its as [|its]; [lia|]. cbn [compare_iterations next_market]. rewrite double_empty; [reflexivity|].
  destruct recipe as [|r recipe]; [congruence|]. inversion FP; subst. cbn [nsum fold_right]. nia.
Qed.

Lemma no_iterations_nums : forall src recipe factor auctions i nums j prices T, compare_nums src recipe factor auctions 0 i j nums prices T = Ok T.
Proof. intros src recipe factor auctions i nums. induction nums as [|n nums IH]; intros j prices T; [reflexivity|]. cbn. apply IH. Qed.

Lemma no_iterations_stocks : forall src recipe factor auctions stocks i nums T, compare_stocks src recipe factor auctions 0 i nums stocks T = Ok T.
Proof.
  intros src recipe factor auctions stocks. induction stocks as [|s stocks IH]; intros i nums T; [reflexivity|]. cbn [compare_stocks].
  rewrite no_iterations_nums. cbn [bind]. apply IH.
Qed.

Theorem no_iterations : forall src recipe auctions nums stocks its, recipe <> [] -> Forall (fun r => (0 < r)%nat) recipe ->
  its = 0%nat \/ stocks = [] -> compare_experiment_stock src recipe auctions its nums stocks = Ok (map (fun n => (n, [])) nums).
Proof.
  intros src recipe auctions nums stocks its NE FP H. unfold compare_experiment_stock.
  destruct (buyer_factor_ok recipe NE FP) as (factor & EF). rewrite EF. cbn [bind]. destruct H as [-> | ->].
  - rewrite no_iterations_stocks. cbn [bind]. apply rows_none.
  - cbn [compare_stocks bind]. apply rows_none.
Qed.

Theorem bad_recipe : forall src recipe auctions nums stocks its,
  (recipe = [] -> compare_experiment_stock src recipe auctions its nums stocks = Raise IndexError)
  /\ (forall recipe', recipe = 0%nat :: recipe' -> compare_experiment_stock src recipe auctions its nums stocks = Raise ZeroDivisionError).
Proof. intros. split; [intros ->; reflexivity|intros recipe' ->; reflexivity]. Qed.
