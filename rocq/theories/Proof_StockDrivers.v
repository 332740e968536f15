(** * The programs on the stock files *)

From Coq Require Import String List Arith NArith ZArith Lia QArith Lqa Permutation.
From Verif Require Import Base Model_Agents Model_Trade Model_Prices Model_Market Model_Ascending Model_TradeReduction Model_McAfee
  Model_StockData Model_Experiment Model_CompareStock Model_StockTables Model_Drivers Model_StockDrivers
  Spec_Market Spec_Trade Spec_StockData Spec_CompareStock Spec_StockTables Spec_StockDrivers
  Proof_Agents Proof_Market Proof_StockData Proof_StockData2 Proof_StockData4 Proof_Exp3 Proof_CompareStock2 Proof_CompareStock7 Proof_StockTables Proof_StockTables2 Proof_StockTables5.
Import ListNotations.
Open Scope Q_scope.

Lemma truncation_bound : forall q z B, truncation q z -> 0 <= q <= B -> 0 <= inject_Z z <= B.
Proof.
  intros q z B [H _] [Q1 Q2]. destruct (H Q1) as [A C]. split; [|lra]. change 0 with (inject_Z 0). rewrite <- Zle_Qle. exact A.
Qed.

Lemma truncation_bound_neg : forall q z B, truncation q z -> - B <= q <= 0 -> - B <= inject_Z z <= 0.
Proof.
  intros q z B [_ H] [Q1 Q2]. destruct (H Q2) as [A C]. split; [lra|]. change 0 with (inject_Z 0). rewrite <- Zle_Qle. exact A.
Qed.

Lemma thousandths_bound : forall xs zs B, in_thousandths xs zs -> (forall x, In x xs -> 0 <= 1000 * x <= B) -> forall z, In z zs -> 0 <= inject_Z z <= B.
Proof.
  intros xs zs B H. induction H as [|x z0 xs zs T H IH]; intros HB z Hz; [destruct Hz|]. destruct Hz as [<-|Hz].
  - eapply truncation_bound; [exact T|]. apply HB. left. reflexivity.
  - apply IH; [|exact Hz]. intros y Hy. apply HB. right. exact Hy.
Qed.

Lemma thousandths_bound_neg : forall xs zs B, in_thousandths xs zs -> (forall x, In x xs -> - B <= 1000 * x <= 0) -> forall z, In z zs -> - B <= inject_Z z <= 0.
Proof.
  intros xs zs B H. induction H as [|x z0 xs zs T H IH]; intros HB z Hz; [destruct Hz|]. destruct Hz as [<-|Hz].
  - eapply truncation_bound_neg; [exact T|]. apply HB. left. reflexivity.
  - apply IH; [|exact Hz]. intros y Hy. apply HB. right. exact Hy.
Qed.

Lemma special_dec : forall recipe, special_recipe recipe \/ ~ special_recipe recipe.
Proof.
  intros recipe. unfold special_recipe.
  destruct (list_eq_dec Nat.eq_dec recipe [1; 1]%nat) as [E|E1]; [tauto|].
  destruct (list_eq_dec Nat.eq_dec recipe [2; 1]%nat) as [E|E2]; [tauto|].
  destruct (list_eq_dec Nat.eq_dec recipe [1; 2]%nat) as [E|E3]; [tauto|].
  destruct (list_eq_dec Nat.eq_dec recipe [2; 1; 1]%nat) as [E|E4]; [tauto|].
  destruct (list_eq_dec Nat.eq_dec recipe (repeat (hd 0%nat recipe) 3)) as [E|E5].
  - left. right. right. right. right. exists (hd 0%nat recipe). exact E.
  - right. intros [X|[X|[X|[X|[a X]]]]]; try tauto. apply E5. rewrite X. reflexivity.
Qed.

Lemma possible_some : forall n recipe, Forall (fun r => (0 < r)%nat) recipe -> exists d, deals_possible n recipe d /\ (d <= 2 * n)%nat.
Proof.
  intros n recipe FP. destruct (special_dec recipe) as [[E|[E|[E|[E|[a E]]]]]|E].
  - exists (2 * n)%nat. split; [left; auto|lia].
  - exists n. split; [right; left; auto|lia].
  - exists n. split; [right; left; auto|lia].
  - exists n. split; [right; left; auto|lia].
  - exists (n / a)%nat. rewrite E in FP. inversion FP as [|? ? A _]; subst. split.
    + right. right. left. exists a. split; [reflexivity|]. assert (X := Nat.div_mod n a ltac:(lia)). assert (Y := Nat.mod_upper_bound n a ltac:(lia)). nia.
    + assert (n / a <= n)%nat by (apply Nat.div_le_upper_bound; nia). lia.
  - exists (2 * n)%nat. split; [right; right; right; auto|lia].
Qed.

Lemma in_combine_add : forall a b x, In x (map (fun p : Q * Q => fst p + snd p) (combine a b)) -> exists u v, In u a /\ In v b /\ x = u + v.
Proof.
  intros a b x H. apply in_map_iff in H. destruct H as ([u v] & <- & H). exists u, v. split; [eapply in_combine_l; exact H|]. split; [eapply in_combine_r; exact H|reflexivity].
Qed.

Lemma in_repeats : forall (zs : list Z) r z, In z (concat (map (fun y => repeat y r) zs)) -> In z zs.
Proof.
  intros zs r z H. apply in_concat in H. destruct H as (l & H1 & H2). apply in_map_iff in H1. destruct H1 as (y & <- & H1). apply repeat_spec in H2. subst. exact H1.
Qed.

(** The values of the buyers and of the sellers. *)
Lemma prices_bound : forall f n P r0 rest cats, days n f -> Forall (fun x => 0 <= x <= P) (high f ++ close f ++ open_ f ++ low f) -> 0 <= P ->
  Forall (fun r => (0 < r)%nat) (r0 :: rest) -> rest <> [] -> get_prices f (r0 :: rest) = Ok cats ->
  exists c0 cs, cats = c0 :: cs /\ (forall z, In z c0 -> 0 <= inject_Z z <= 1000 * P * Qn (nsum rest))
    /\ (forall c z, In c cs -> In z c -> - (1000 * P * Qn r0) <= inject_Z z <= 0).
Proof.
  intros f n P r0 rest cats D HP P0 FP NE E.
  assert (Q0 : 1 <= Qn r0) by (change 1 with (Qn 1); apply Qn_le; inversion FP; lia).
  assert (QS : 1 <= Qn (nsum rest)).
  { change 1 with (Qn 1). apply Qn_le. destruct rest as [|r rest]; [congruence|]. inversion FP as [|? ? _ F2]; subst. inversion F2; subst. cbn. lia. }
  assert (A : forall x, In x (high f ++ close f) -> 0 <= x <= P).
  { intros x Hx. rewrite Forall_forall in HP. apply HP. rewrite app_assoc. apply in_or_app. left. exact Hx. }
  assert (B : forall x, In x (open_ f ++ low f) -> 0 <= x <= P).
  { intros x Hx. rewrite Forall_forall in HP. apply HP. rewrite app_assoc. apply in_or_app. right. exact Hx. }
  assert (PS : P <= P * Qn (nsum rest)) by nra. assert (PR : P <= P * Qn r0) by nra.
  assert (BUY : forall x, In x (high f ++ close f) -> 0 <= 1000 * x <= 1000 * P * Qn (nsum rest)) by (intros x Hx; specialize (A x Hx); lra).
  assert (SELL : forall l x, incl l (open_ f ++ low f) -> In x (map Qopp l) -> - (1000 * P * Qn r0) <= 1000 * x <= 0).
  { intros l x Hl Hx. apply in_map_iff in Hx. destruct Hx as (y & <- & Hy). specialize (B y (Hl y Hy)). lra. }
  assert (SUM : 2 <= Qn (nsum rest) -> forall x, In x (map (fun p : Q * Q => fst p + snd p) (combine (high f) (close f))) -> 0 <= 1000 * x <= 1000 * P * Qn (nsum rest)).
  { intros H2 x Hx. apply in_combine_add in Hx. destruct Hx as (u & v & Hu & Hv & ->). assert (U := A u ltac:(apply in_or_app; auto)). assert (V := A v ltac:(apply in_or_app; auto)). nra. }
  assert (IO : incl (open_ f) (open_ f ++ low f)) by (intros y Hy; apply in_or_app; auto).
  assert (IL : incl (low f) (open_ f ++ low f)) by (intros y Hy; apply in_or_app; auto).
  destruct (special_contents f n D) as (S1 & S2 & S3 & S4 & S5).
  destruct (special_dec (r0 :: rest)) as [[X|[X|[X|[X|[a X]]]]]|X].
  - injection X as -> ->. destruct S1 as (c0 & c1 & E' & T0 & T1). rewrite E' in E. injection E as <-. exists c0, [c1]. split; [reflexivity|]. split.
    + eapply thousandths_bound; [exact T0|exact BUY].
    + intros c z [<-|[]]. eapply thousandths_bound_neg; [exact T1|]. intros x. apply SELL. apply incl_refl.
  - injection X as -> ->. destruct S2 as (c0 & c1 & E' & T0 & T1). rewrite E' in E. injection E as <-. exists c0, [c1]. split; [reflexivity|]. split.
    + eapply thousandths_bound; [exact T0|exact BUY].
    + intros c z [<-|[]]. eapply thousandths_bound_neg; [exact T1|]. intros x Hx. apply in_map_iff in Hx. destruct Hx as ([u v] & <- & Hx). cbn [fst snd].
      assert (U := B u ltac:(apply in_or_app; left; eapply in_combine_l; exact Hx)). assert (V := B v ltac:(apply in_or_app; right; eapply in_combine_r; exact Hx)).
      change (Qn 2) with 2. lra.
  - injection X as -> ->. destruct S3 as (c0 & c1 & E' & T0 & T1). rewrite E' in E. injection E as <-. exists c0, [c1]. split; [reflexivity|]. split.
    + eapply thousandths_bound; [exact T0|]. apply SUM. discriminate.
    + intros c z [<-|[]]. eapply thousandths_bound_neg; [exact T1|]. intros x. apply SELL. apply incl_refl.
  - injection X as -> ->. destruct S4 as (c0 & c1 & c2 & E' & T0 & T1 & T2). rewrite E' in E. injection E as <-. exists c0, [c1; c2]. split; [reflexivity|]. split.
    + eapply thousandths_bound; [exact T0|exact BUY].
    + intros c z [<-|[<-|[]]]; (eapply thousandths_bound_neg; [eassumption|]; intros x; apply SELL; assumption).
  - injection X as -> ->. destruct (S5 a) as (c0 & c1 & c2 & E' & T0 & T1 & T2). rewrite E' in E. injection E as <-. exists c0, [c1; c2]. split; [reflexivity|]. split.
    + eapply thousandths_bound; [exact T0|]. apply SUM. change 2 with (Qn 2). apply Qn_le. inversion FP as [|? ? F1 _]; subst. cbn. lia.
    + intros c z [<-|[<-|[]]]; (eapply thousandths_bound_neg; [eassumption|]; intros x; apply SELL; assumption).
  - destruct (general_contents f n r0 rest D X) as (c0 & cs & E' & LC & (zs & T0 & ->) & HC). rewrite E' in E. injection E as <-. exists (concat (map (fun z => repeat z r0) zs)), cs.
    split; [reflexivity|]. split.
    + intros z Hz. apply in_repeats in Hz. revert z Hz. eapply thousandths_bound; [exact T0|]. intros x Hx. apply in_map_iff in Hx. destruct Hx as (y & <- & Hy).
      specialize (A y Hy). fold (Qn (nsum rest)). assert (y * Qn (nsum rest) <= P * Qn (nsum rest)) by nra. assert (0 <= y * Qn (nsum rest)) by nra. lra.
    + intros c z Hc Hz. apply In_nth_error in Hc. destruct Hc as (j & Hj). assert (LJ : (j < length cs)%nat) by (apply nth_error_Some; congruence).
      destruct (nth_error rest j) as [r|] eqn:Er; [|apply nth_error_None in Er; lia]. destruct (HC j r Er) as (ws & T & Hj'). rewrite Hj in Hj'. injection Hj' as ->.
      apply in_repeats in Hz. revert z Hz. eapply thousandths_bound_neg; [exact T|]. intros x Hx. apply in_map_iff in Hx. destruct Hx as (i & <- & Hi).
      assert (Li : (i < length (open_ f ++ low f))%nat).
      { apply Proof_StockData3.source_range in Hi. destruct D as (_ & _ & D3 & D4). rewrite app_length. lia. }
      specialize (B _ (nth_In _ 0 Li)). lra.
Qed.

Lemma file_input : forall P f recipe, 0 <= P -> file_ok P f -> good_recipe recipe -> (2 <= length recipe)%nat ->
  buyers_fit recipe (1000 * P * Qn (nsum (tl recipe)) * Qn (hd 0%nat recipe)) ->
  exists stock, prices_of recipe f stock /\ stock_input recipe stock.
Proof.
  intros P f recipe P0 (n & D & N & HP) [NE FP] L BF. destruct recipe as [|r0 rest]; [congruence|]. cbn [hd tl] in BF.
  destruct (possible_some n (r0 :: rest) FP) as (d & Hd & Ld). destruct (sizes f n (r0 :: rest) d D NE FP Hd) as (cats & E & SZ).
  assert (NR : rest <> []) by (intros ->; cbn in L; lia).
  destruct (prices_bound f n P r0 rest cats D HP P0 FP NR E) as (c0 & cs & -> & B0 & BS).
  exists (map (map inject_Z) (c0 :: cs)). split; [exists (c0 :: cs); auto|]. inversion SZ as [|? ? ? ? Z0 ZS]; subst.
  inversion FP as [|? ? R0 FR]; subst. assert (Q0 : 1 <= Qn r0) by (change 1 with (Qn 1); apply Qn_le; lia).
  assert (LEN : length cs = length rest) by (clear - ZS; induction ZS; cbn; auto).
  assert (PB : 1000 * P * Qn r0 <= 100000000).
  { destruct rest as [|r rest]; [congruence|]. specialize (BF r (or_introl eq_refl)). cbn [nsum fold_right] in BF. fold (nsum rest) in BF. rewrite Qn_plus in BF.
    inversion FR as [|? ? R1 _]; subst. assert (1 <= Qn r) by (change 1 with (Qn 1); apply Qn_le; lia). assert (X := Qn_nonneg (nsum rest)).
    set (p := 1000 * P * Qn r0) in *. assert (0 <= p) by (unfold p; nra). assert (p * (Qn r + Qn (nsum rest)) < Qn r * 100000000).
    { assert (EQ : 1000 * P * (Qn r + Qn (nsum rest)) * Qn r0 == p * (Qn r + Qn (nsum rest))) by (unfold p; ring). lra. }
    destruct (Qlt_le_dec 100000000 p) as [H2|H2]; [exfalso; nra|exact H2]. }
  assert (SP : 0 <= 1000 * P * Qn (nsum rest)) by (assert (X := Qn_nonneg (nsum rest)); nra).
  split; [|split].
  - rewrite map_length. cbn. congruence.
  - exists (1000 * P * Qn (nsum rest) :: repeat 0 (length rest)). split.
    + cbn [map]. constructor.
      * split; [lra|]. intros v Hv. apply in_map_iff in Hv. destruct Hv as (z & <- & Hz). specialize (B0 z Hz). lra.
      * clear - BS LEN PB. revert rest LEN. induction cs as [|c cs IH]; intros [|r rest] LEN; try discriminate; cbn [length repeat map]; constructor.
        -- split; [discriminate|]. intros v Hv. apply in_map_iff in Hv. destruct Hv as (z & <- & Hz). specialize (BS c z (or_introl eq_refl) Hz). lra.
        -- apply IH; [intros c' z Hc; apply BS; right; exact Hc|injection LEN as LEN; exact LEN].
    + intros l r u Hr Hu. cbn [dot]. rewrite dot_zeros. destruct l as [|l]; cbn [nth_error] in Hr, Hu.
      * injection Hr as <-. injection Hu as <-. nra.
      * apply nth_error_In, repeat_spec in Hu. subst u. specialize (BF r (nth_error_In _ _ Hr)). lra.
  - exists 0%nat, (map inject_Z c0), r0. split; [reflexivity|]. split; [reflexivity|]. rewrite map_length. nia.
Qed.

Lemma files_input : forall P recipe files, 0 <= P -> Forall (file_ok P) files -> good_recipe recipe -> (2 <= length recipe)%nat ->
  buyers_fit recipe (1000 * P * Qn (nsum (tl recipe)) * Qn (hd 0%nat recipe)) ->
  exists stocks, get_stocks_prices files recipe = Ok stocks /\ Forall2 (prices_of recipe) files stocks /\ Forall (stock_input recipe) stocks.
Proof.
  intros P recipe files P0 HF GR L BF. induction HF as [|f files Hf HF IH].
  - exists []. split; [reflexivity|]. split; constructor.
  - destruct IH as (stocks & E & F1 & F2). destruct (file_input P f recipe P0 Hf GR L BF) as (s & (cats & E1 & ->) & I). exists (map (map inject_Z) cats :: stocks).
    cbn [get_stocks_prices]. rewrite E1. cbn [bind]. rewrite E. cbn [bind]. split; [reflexivity|]. split; constructor; auto. exists cats. auto.
Qed.
