(** * The stock comparison as a whole *)

From Coq Require Import String List Arith NArith Lia ZArith QArith Qround Lqa Bool Permutation.
From Verif Require Import Base Model_Agents Model_Trade Model_Prices Model_Market Model_Experiment Model_CompareStock
  Spec_Market Spec_Trade Spec_StockData Spec_CompareStock Proof_Exp2 Proof_Exp3 Proof_CompareStock Proof_CompareStock2 Proof_CompareStock3
  Proof_CompareStock4 Proof_CompareStock5.
Import ListNotations.
Open Scope Q_scope.

(** ** Averages keep the bounds *)
Lemma avg_col : forall lab L row p, L <> [] -> (forall cs, In cs L -> map fst cs = lab) -> map fst row = lab -> averages L row ->
  col row p == average (map (fun cs => col cs p) L).
Proof.
  intros lab L row p NL HL HR [_ H]. destruct (Nat.lt_ge_cases p (length row)) as [X|X]; [exact (H p X)|].
  unfold col at 1. rewrite nth_overflow by exact X. cbn [snd].
  assert (Z : map (fun cs => col cs p) L = map (fun _ => 0) L).
  { apply map_ext_in. intros cs Hc. unfold col. rewrite nth_overflow; [reflexivity|].
    rewrite <- (map_length fst cs), (HL cs Hc), <- HR, map_length. exact X. }
  rewrite Z. unfold average. assert (S0 : Qsum (map (fun _ : results => 0) L) == 0).
  { clear. induction L as [|x L IH]; [reflexivity|]. cbn [map Qsum fold_right]. fold (Qsum (map (fun _ : results => 0) L)). rewrite IH. reflexivity. }
  rewrite S0. unfold Qdiv. ring.
Qed.

Section Averages.
Variables (lab : list string) (L : list results) (row : results).
Hypothesis NL : L <> [].
Hypothesis HL : forall cs, In cs L -> map fst cs = lab.
Hypothesis HR : map fst row = lab.
Hypothesis HA : averages L row.

Lemma len_pos : 0 < Qn (length L).
Proof. apply Qn_pos. destruct L; [congruence|cbn; lia]. Qed.

Lemma avg_lin : forall (f g : results -> Q), (forall cs, In cs L -> f cs <= g cs) -> average (map f L) <= average (map g L).
Proof.
  intros f g H. unfold average. rewrite !map_length. apply div_le; [exact len_pos|]. apply Qsum_map_le. apply Forall_forall. exact H.
Qed.

Lemma le_cols : forall p q, (forall cs, In cs L -> col cs p <= col cs q) -> col row p <= col row q.
Proof. intros p q H. rewrite !(avg_col lab L row) by assumption. apply avg_lin. exact H. Qed.

Lemma avg_const : forall c, average (map (fun _ : results => c) L) == c.
Proof.
  intros c. unfold average. rewrite map_length. assert (P := len_pos).
  assert (S : Qsum (map (fun _ : results => c) L) == c * Qn (length L)).
  { clear. induction L as [|x l IH]; [change (0 == c * 0); ring|]. cbn [map Qsum fold_right length]. fold (Qsum (map (fun _ : results => c) l)).
    rewrite IH. replace (S (length l)) with (1 + length l)%nat by lia. rewrite Qn_plus. change (Qn 1) with 1. ring. }
  rewrite S. field. lra.
Qed.

Lemma ge_const : forall p c, (forall cs, In cs L -> c <= col cs p) -> c <= col row p.
Proof. intros p c H. rewrite (avg_col lab L row) by assumption. rewrite <- (avg_const c) at 1. apply avg_lin. exact H. Qed.

Lemma le_const : forall p c, (forall cs, In cs L -> col cs p <= c) -> col row p <= c.
Proof. intros p c H. rewrite (avg_col lab L row) by assumption. rewrite <- (avg_const c). apply avg_lin. exact H. Qed.

Lemma lt_const : forall p c, (forall cs, In cs L -> col cs p < c) -> col row p < c.
Proof.
  intros p c H. rewrite (avg_col lab L row) by assumption. unfold average. rewrite map_length. apply Qlt_shift_div_r; [exact len_pos|].
  clear - H NL. induction L as [|x l IH]; [congruence|]. cbn [map Qsum fold_right length]. fold (Qsum (map (fun cs => col cs p) l)).
  replace (S (length l)) with (1 + length l)%nat by lia. rewrite Qn_plus. change (Qn 1) with 1.
  assert (X := H x (or_introl eq_refl)). destruct l as [|y l].
  - cbn [map Qsum fold_right length]. change (Qn 0) with 0. lra.
  - assert (Y : Qsum (map (fun cs => col cs p) (y :: l)) < c * Qn (length (y :: l))); [|lra].
    apply IH; [discriminate|]. intros cs Hc. apply H. right. exact Hc.
Qed.

Lemma eq_cols : forall p q, (forall cs, In cs L -> col cs p == col cs q) -> col row p == col row q.
Proof. intros p q H. apply Qle_antisym; apply le_cols; intros cs Hc; rewrite (H cs Hc); apply Qle_refl. Qed.

Lemma avg_plus1 : forall f, average (map (fun cs => f cs - 1) L) == average (map f L) - 1.
Proof.
  intros f. unfold average. rewrite !map_length. assert (P := len_pos).
  assert (S : Qsum (map (fun cs => f cs - 1) L) == Qsum (map f L) - Qn (length L)).
  { clear. induction L as [|x l IH]; [reflexivity|]. cbn [map Qsum fold_right length]. fold (Qsum (map (fun cs => f cs - 1) l)). fold (Qsum (map f l)).
    rewrite IH. replace (S (length l)) with (1 + length l)%nat by lia. rewrite Qn_plus. change (Qn 1) with 1. ring. }
  rewrite S. field. lra.
Qed.

Lemma le_cols_1 : forall p q, (forall cs, In cs L -> col cs p - 1 <= col cs q) -> col row p - 1 <= col row q.
Proof. intros p q H. rewrite !(avg_col lab L row) by assumption. rewrite <- avg_plus1. apply avg_lin. exact H. Qed.

Lemma row_fine : forall auctions, (forall cs, In cs L -> iteration_fine auctions cs) -> optimum_bounds row
  /\ forall a A, nth_error auctions a = Some A -> row_bounds_stock row a
       /\ (budget_balanced (snd A) -> acol row a marketgft == acol row a totalgft /\ acol row a marketgftratio == acol row a totalgftratio).
Proof.
  intros auctions H. split.
  - assert (O : forall cs, In cs L -> optimum_bounds cs) by (intros cs Hc; apply (H cs Hc)). unfold optimum_bounds in *.
    split; [split; [apply ge_const|apply le_cols]; intros cs Hc; apply (O cs Hc)|].
    split; [split; [apply ge_const|apply lt_const]; intros cs Hc; apply (O cs Hc)|].
    split; [apply ge_const|apply eq_cols]; intros cs Hc; apply (O cs Hc).
  - intros a A HA'. assert (O : forall cs, In cs L -> row_bounds_stock cs a
       /\ (budget_balanced (snd A) -> acol cs a marketgft == acol cs a totalgft /\ acol cs a marketgftratio == acol cs a totalgftratio)).
    { intros cs Hc. apply (H cs Hc). exact HA'. }
    unfold row_bounds_stock in *. unfold acol in *. split.
    + repeat match goal with |- _ /\ _ => split end;
      first [apply le_cols_1; intros cs Hc; apply (O cs Hc) | apply ge_const; intros cs Hc; apply (O cs Hc) | apply le_const; intros cs Hc; apply (O cs Hc)
            | apply eq_cols; intros cs Hc; apply (O cs Hc) | apply le_cols; intros cs Hc; apply (O cs Hc)].
    + intros B. split; apply eq_cols; intros cs Hc; apply (O cs Hc); exact B.
Qed.
End Averages.

(** ** Any source of markets *)
Lemma buyer_factor_ok : forall recipe, recipe <> [] -> Forall (fun r => (0 < r)%nat) recipe -> exists factor, buyer_factor recipe = Ok factor.
Proof.
  intros [|r recipe] NE FP; [congruence|]. inversion FP; subst. cbn [buyer_factor]. destruct (Nat.eqb_spec r 0); [lia|]. eauto.
Qed.

Lemma concat_cols : forall recipe auctions (ms : list (list market)) csl,
  Forall2 (Forall2 (fun m cs => compare_columns recipe auctions m = Ok cs)) ms csl ->
  Forall2 (fun m cs => compare_columns recipe auctions m = Ok cs) (concat ms) (concat csl).
Proof. intros recipe auctions ms csl H. induction H; cbn [concat]; [constructor|apply Forall2_app; assumption]. Qed.

Lemma experiment_any : forall src recipe auctions its nums stocks (I : list Q -> nat -> list Q -> Prop) (good : list Q -> nat -> market -> Prop),
  compare_input recipe auctions nums -> (0 < its)%nat -> stocks <> [] ->
  (forall s j m, good s j m -> In s stocks -> tame recipe m) ->
  (forall factor q s j n it prices, buyer_factor recipe = Ok factor -> nth_error stocks q = Some s -> nth_error nums j = Some n -> I s j prices \/ I s (S j) prices ->
     exists prices' m, next_market src recipe factor n q j it prices = Ok (prices', m) /\ I s (S j) prices' /\ good s j m) ->
  (forall s, In s stocks -> I s 0%nat s) ->
  exists rows, compare_experiment_stock src recipe auctions its nums stocks = Ok rows
    /\ map fst rows = nums
    /\ forall j n row, nth_error rows j = Some (n, row) ->
         exists ms L, Forall2 (fun s ml => length ml = its /\ Forall (good s j) ml) stocks ms
           /\ Forall2 (columns_of recipe auctions) (concat ms) L /\ row_facts recipe auctions L row.
Proof.
  intros src recipe auctions its nums stocks I good (NE & FP & ND & HN & MF) ITS NS TAME STEP START.
  destruct (buyer_factor_ok recipe NE FP) as (factor & EF).
  set (good' := fun s j m => good s j m /\ In s stocks).
  destruct (stocks_ok src recipe factor auctions its nums I good' ITS ND) with (stocks := stocks) (i := 0%nat) (T := fun _ : nat => @nil (string * Q)) as (T & css & E & HT).
  { intros s j m [G Hs]. destruct (iteration_ok recipe m auctions NE FP (TAME s j m G Hs) MF) as (cs & EC & _). eauto. }
  { intros q s j n it prices Hq Hj Hp. destruct (STEP factor q s j n it prices EF Hq Hj Hp) as (p' & m & A & B & C). exists p', m. split; [exact A|]. split; [exact B|].
    split; [exact C|eapply nth_error_In; exact Hq]. }
  { exact START. }
  assert (FACTS : forall j n, nth_error nums j = Some n -> let L := concat (map (fun csll => nth j csll []) css) in
    T n = fold_left accumulate L [] /\ length L = (its * length stocks)%nat /\ (forall cs, In cs L -> iteration_fine auctions cs)
    /\ exists ms, Forall2 (fun s ml => length ml = its /\ Forall (good s j) ml) stocks ms /\ Forall2 (columns_of recipe auctions) (concat ms) L).
  { intros j n Hn L. destruct (HT j n Hn) as [X (ms & Y & Z)]. apply concat_cols in Z. fold L in X, Z. split; [exact X|].
    assert (TM : Forall (tame recipe) (concat ms)).
    { apply Forall_forall. intros m Hm. apply in_concat in Hm. destruct Hm as (ml & H1 & H2).
      assert (W : forall ss ms0, Forall2 (fun s ml => length ml = its /\ Forall (good' s j) ml) ss ms0 -> In ml ms0 -> exists s, Forall (good' s j) ml).
      { intros ss ms0 F2 Hin. induction F2 as [|s ml' ss ms0 [_ G] F2 IH]; [destruct Hin|]. destruct Hin as [->|Hin]; [eauto|auto]. }
      destruct (W _ _ Y H1) as (s & G). rewrite Forall_forall in G. destruct (G m H2) as [G1 G2]. eapply TAME; eassumption. }
    assert (LM : length (concat ms) = (its * length stocks)%nat).
    { clear - Y. revert Y. generalize (fun s => Forall (good' s j)). intros Gd Y. induction Y as [|s ml ss ms [L1 _] Y IH]; [cbn; lia|]. cbn [concat length]. rewrite app_length, L1, IH. lia. }
    split; [rewrite <- LM; symmetry; eapply Forall2_length; exact Z|].
    assert (ALL : Forall2 (fun m cs => columns_of recipe auctions m cs /\ iteration_fine auctions cs) (concat ms) L).
    { clear - Z TM NE FP MF. induction Z as [|m cs ms' L' EC Z IH]; constructor; inversion TM; subst; auto.
      destruct (iteration_ok recipe m auctions NE FP H1 MF) as (cs' & EC' & A & B). assert (cs' = cs) by congruence. subst cs'. auto. }
    split.
    - intros cs Hc. clear - ALL Hc. induction ALL as [|m c ms' L' [_ B] ALL IH]; [destruct Hc|]. destruct Hc as [<-|Hc]; auto.
    - exists ms. split.
      + assert (W : forall ss ms0, Forall2 (fun s ml => length ml = its /\ Forall (good' s j) ml) ss ms0 -> Forall2 (fun s ml => length ml = its /\ Forall (good s j) ml) ss ms0).
        { intros ss ms0 F2. induction F2 as [|s ml ss ms0 [L1 G] F2 IH]; constructor; auto. split; [exact L1|]. eapply Forall_impl; [|exact G]. intros m [X0 _]. exact X0. }
        apply W. exact Y.
      + clear - ALL. induction ALL as [|m c ms' L' [B _] ALL IH]; constructor; auto. }
  assert (DP : (0 < its * length stocks)%nat) by (destruct stocks; [congruence|cbn [length]; nia]).
  assert (LAB : labels auctions <> []) by discriminate.
  assert (TNE : forall n, In n nums -> T n <> []).
  { intros n Hn. apply In_nth_error in Hn. destruct Hn as (j & Hj). destruct (FACTS j n Hj) as (X & Y & Z & _). set (L := concat (map (fun csll => nth j csll []) css)) in *.
    destruct (totals_spec (labels auctions) L LAB) as [W _]; [destruct L; [cbn in Y; lia|discriminate]|intros cs Hc; apply (Z cs Hc)|].
    rewrite X. intros E0. rewrite E0 in W. discriminate. }
  eexists. split; [|split].
  - unfold compare_experiment_stock. rewrite EF. cbn [bind]. rewrite E. cbn [bind]. apply rows_ok; auto.
  - rewrite map_map. cbn [fst]. apply map_id.
  - intros j n row Hr. rewrite nth_error_map in Hr. destruct (nth_error nums j) as [n'|] eqn:Hj; [|discriminate]. cbn [option_map] in Hr. injection Hr as -> <-.
    destruct (FACTS j n Hj) as (X & Y & Z & ms & M1 & M2). set (L := concat (map (fun csll => nth j csll []) css)) in *.
    exists ms, L. split; [exact M1|]. split; [exact M2|]. rewrite X, <- Y.
    assert (LL : (0 < length L)%nat) by (rewrite Y; exact DP).
    assert (HL : forall cs, In cs L -> map fst cs = labels auctions) by (intros cs Hc; apply (Z cs Hc)).
    assert (AV := averages_of_totals (labels auctions) L (length L) LAB eq_refl LL HL).
    assert (NL : L <> []) by (intros EL; rewrite EL in LL; cbn in LL; lia).
    split; [exact AV|]. apply (row_fine (labels auctions) L); auto.
    rewrite map_map. cbn [fst]. apply (totals_spec (labels auctions) L LAB NL HL).
Qed.
