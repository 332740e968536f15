(** * The files with the differences between the auctions, and padding_zeroes *)

From Coq Require Import String Ascii List Arith NArith Lia ZArith QArith Qabs Qround Lqa Bool.
From Verif Require Import Base Model_Agents Model_Trade Model_Prices Model_Market Model_Ascending Model_TradeReduction Model_Experiment Model_CompareStock
  Spec_Market Spec_Trade Spec_Ascending Spec_TradeReduction Spec_StockData Spec_Experiment Spec_CompareStock Proof_TR14 Proof_Exp2 Proof_Exp3.
Import ListNotations.
Open Scope Q_scope.

(** ** Strings *)
Lemma chars_app : forall a b, list_ascii_of_string (a ++ b) = (list_ascii_of_string a ++ list_ascii_of_string b)%list.
Proof. induction a as [|c a IH]; intros b; cbn; [reflexivity|rewrite IH; reflexivity]. Qed.

Lemma prefix_iff : forall x s, prefix_of x s = true <-> exists t, s = (x ++ t)%list.
Proof.
  induction x as [|a x IH]; intros s; cbn [prefix_of].
  - split; [intros _; exists s; reflexivity|reflexivity].
  - destruct s as [|b s].
    + split; [discriminate|intros (t & H); discriminate].
    + rewrite andb_true_iff, IH, Ascii.eqb_eq. split.
      * intros (-> & t & ->). exists t. reflexivity.
      * intros (t & H). injection H as -> ->. eauto.
Qed.

Lemma infix_iff : forall x s, has_infix x s = true <-> exists p q, s = (p ++ x ++ q)%list.
Proof.
  intros x s. induction s as [|b s IH]; cbn [has_infix]; rewrite orb_true_iff, prefix_iff.
  - split; [intros [(t & E)|E]; [exists [], t; exact E|discriminate]|].
    intros (p & q & E). symmetry in E. apply app_eq_nil in E. destruct E as [-> E]. left. exists q. symmetry. exact E.
  - rewrite IH. split.
    + intros [(t & E)|(p & q & E)]; [exists [], t; exact E|exists (b :: p), q; cbn; congruence].
    + intros ([|b' p] & q & E); [left; exists q; exact E|right; injection E as _ E; eauto].
Qed.

Lemma string_eq : forall a b, list_ascii_of_string a = list_ascii_of_string b -> a = b.
Proof. intros a b H. rewrite <- (string_of_list_ascii_of_string a), H. apply string_of_list_ascii_of_string. Qed.

Theorem contains_iff : forall x s, py_contains x s = true <-> exists before after, s = (before ++ x ++ after)%string.
Proof.
  intros x s. unfold py_contains. rewrite infix_iff. split.
  - intros (p & q & E). exists (string_of_list_ascii p), (string_of_list_ascii q). apply string_eq.
    rewrite !chars_app, !list_ascii_of_string_of_list_ascii. exact E.
  - intros (p & q & ->). rewrite !chars_app. eauto.
Qed.

Theorem endswith_iff : forall s x, py_endswith s x = true <-> exists before, s = (before ++ x)%string.
Proof.
  intros s x. unfold py_endswith. rewrite prefix_iff. split.
  - intros (t & E). exists (string_of_list_ascii (rev t)). apply string_eq. rewrite chars_app, list_ascii_of_string_of_list_ascii.
    rewrite <- (rev_involutive (list_ascii_of_string s)), E, rev_app_distr, rev_involutive. reflexivity.
  - intros (b & ->). rewrite chars_app, rev_app_distr. eauto.
Qed.

(** The columns contain no capital letters. *)
Definition lower (c : list ascii) : bool := forallb (fun a => negb (Ascii.eqb "S" a) && negb (Ascii.eqb "B" a)) c.

Lemma lower_no : forall c, lower c = true -> has_infix ["S"; "B"; "B"]%char c = false.
Proof.
  induction c as [|a c IH]; intros H; [reflexivity|]. unfold lower in H. cbn [forallb] in H. rewrite !andb_true_iff in H. destruct H as [[H1 _] H2].
  cbn [has_infix]. rewrite (IH H2), orb_false_r. cbn [prefix_of]. apply negb_true_iff in H1. rewrite H1. reflexivity.
Qed.

Lemma infix_app : forall n c, lower c = true -> has_infix ["S"; "B"; "B"]%char (n ++ c) = has_infix ["S"; "B"; "B"]%char n.
Proof.
  intros n c L. induction n as [|a n IH]; [cbn [app]; rewrite lower_no by exact L; reflexivity|].
  cbn [app has_infix]. rewrite IH. f_equal.
  assert (B : forall b c', c = b :: c' -> Ascii.eqb "B" b = false).
  { intros b c' ->. unfold lower in L. cbn [forallb] in L. rewrite !andb_true_iff in L. destruct L as [[_ L] _]. apply negb_true_iff in L. exact L. }
  destruct n as [|a2 [|a3 n]]; cbn [app]; destruct c as [|b c]; try specialize (B b c eq_refl);
  cbn [prefix_of]; rewrite ?B, ?andb_false_l, ?andb_false_r; reflexivity.
Qed.

Lemma label_contains : forall name c, lower (list_ascii_of_string c) = true -> py_contains "SBB" (name ++ c) = py_contains "SBB" name.
Proof. intros name c L. unfold py_contains. rewrite chars_app. apply infix_app. exact L. Qed.

Lemma label_ends : forall name c x, py_endswith (name ++ c) x = prefix_of (rev (list_ascii_of_string x)) (rev (list_ascii_of_string c) ++ rev (list_ascii_of_string name)).
Proof. intros name c x. unfold py_endswith. rewrite chars_app, rev_app_distr. reflexivity. Qed.

(** ** The loop *)
Definition seen (worse : Q -> Q -> bool) (l : list (Q * nat)) (s : diff_state) : Prop :=
  match l with
  | [] => s = mkDiff (-(1)) (-(1)) false false
  | (g, d) :: rest => 0 <= g /\ s = mkDiff g (Qn d) (existsb (fun o => worse g (fst o)) rest) (existsb (fun o => worse (Qn d) (Qn (snd o))) rest)
  end.

Lemma Qlt_bool_nonneg : forall x, 0 <= x -> Qlt_bool x 0 = false.
Proof. intros x H. destruct (Qlt_bool x 0) eqn:E; [|reflexivity]. apply Qlt_bool_iff in E. lra. Qed.

(** One column: not a column of an SBB auction, a gain, a count, or something else. *)
Lemma step_not : forall worse s label v, py_contains "SBB" label = false -> diff_step worse s (label, v) = s.
Proof. intros worse s label v H. unfold diff_step. rewrite H. reflexivity. Qed.

Lemma step_other : forall worse s label v, py_endswith label "totalgft" = false -> py_endswith label "count" = false -> diff_step worse s (label, v) = s.
Proof. intros worse s label v H H'. unfold diff_step. rewrite H, H', !andb_false_r. destruct (py_contains "SBB" label); reflexivity. Qed.

Lemma step_gain : forall worse g k b1 b2 label v, py_contains "SBB" label = true -> py_endswith label "totalgft" = true -> py_endswith label "count" = false ->
  diff_step worse (mkDiff g k b1 b2) (label, v)
  = if Qlt_bool g 0 then mkDiff (if b1 then g else v) k b1 b2 else mkDiff g k (b1 || worse g v) b2.
Proof.
  intros worse g k b1 b2 label v H1 H2 H3. unfold diff_step. rewrite H1, H2, H3. cbn [gft_to_compare k_to_compare gft_found k_found].
  destruct b1, b2, (Qlt_bool g 0), (worse g v); reflexivity.
Qed.

Lemma step_count : forall worse g k b1 b2 label v, py_contains "SBB" label = true -> py_endswith label "totalgft" = false -> py_endswith label "count" = true ->
  diff_step worse (mkDiff g k b1 b2) (label, v)
  = if Qlt_bool k 0 then mkDiff g (if b2 then k else v) b1 b2 else mkDiff g k b1 (b2 || worse k v).
Proof.
  intros worse g k b1 b2 label v H1 H2 H3. unfold diff_step. rewrite H1, H2, H3, andb_false_r. cbn [gft_to_compare k_to_compare gft_found k_found].
  destruct b1, b2, (Qlt_bool k 0), (worse k v); reflexivity.
Qed.

Lemma label_all : forall name c, lower (list_ascii_of_string c) = true -> forall b, py_contains "SBB" name = b -> py_contains "SBB" (name ++ c) = b.
Proof. intros name c L b <-. apply label_contains. exact L. Qed.

Lemma part_seen : forall worse name k k0 opt opt0 d total mkt l s, (forall x, worse x x = false) ->
  seen worse l s -> 0 <= total ->
  seen worse (if py_contains "SBB" name then l ++ [(total, d)] else l)
    (fold_left (diff_step worse) (auction_columns name k k0 opt opt0 d total mkt) s).
Proof.
  intros worse name k k0 opt opt0 d total mkt l s IRR HS G.
  unfold auction_columns. destruct (py_contains "SBB" name) eqn:EC.
  2:{ cbn [fold_left]. rewrite !step_not by (apply label_all; [reflexivity|exact EC]). exact HS. }
  cbn [fold_left].
  assert (E : forall c x, py_endswith (name ++ c) x = prefix_of (rev (list_ascii_of_string x)) (rev (list_ascii_of_string c) ++ rev (list_ascii_of_string name)))
    by (intros; apply label_ends).
  destruct s as [g0 kk b1 b2].
  rewrite step_count by (first [apply label_all; [reflexivity|exact EC]|rewrite E; reflexivity]).
  rewrite (step_other worse _ (name ++ "countratio")) by (rewrite E; reflexivity).
  destruct l as [|[g1 d1] rest]; cbn [seen] in HS; cbn [app].
  - injection HS as -> -> -> ->. change (Qlt_bool (-(1)) 0) with true. cbv iota.
    rewrite step_gain by (first [apply label_all; [reflexivity|exact EC]|rewrite E; reflexivity]).
    change (Qlt_bool (-(1)) 0) with true. cbv iota.
    rewrite (step_other worse _ (name ++ "totalgftratio")), (step_other worse _ (name ++ "marketgft")), (step_other worse _ (name ++ "marketgftratio")),
      (step_other worse _ (name ++ "withoutgftzerocountratio")) by (rewrite E; reflexivity).
    rewrite step_gain by (first [apply label_all; [reflexivity|exact EC]|rewrite E; reflexivity]).
    rewrite Qlt_bool_nonneg by exact G. rewrite IRR.
    rewrite (step_other worse _ (name ++ "withoutgftzerototalgftratio")) by (rewrite E; reflexivity).
    cbn [seen existsb]. auto.
  - destruct HS as [G1 HS]. injection HS as -> -> -> ->. cbn [seen]. split; [exact G1|]. rewrite !existsb_app. cbn [existsb fst snd]. rewrite !orb_false_r.
    set (a := existsb (fun o => worse g1 (fst o)) rest). set (b := existsb (fun o => worse (Qn d1) (Qn (snd o))) rest).
    rewrite (Qlt_bool_nonneg (Qn d1) (Qn_nonneg d1)).
    rewrite step_gain by (first [apply label_all; [reflexivity|exact EC]|rewrite E; reflexivity]).
    rewrite Qlt_bool_nonneg by exact G1.
    rewrite (step_other worse _ (name ++ "totalgftratio")), (step_other worse _ (name ++ "marketgft")), (step_other worse _ (name ++ "marketgftratio")),
      (step_other worse _ (name ++ "withoutgftzerocountratio")) by (rewrite E; reflexivity).
    rewrite step_gain by (first [apply label_all; [reflexivity|exact EC]|rewrite E; reflexivity]).
    rewrite Qlt_bool_nonneg by exact G1.
    rewrite (step_other worse _ (name ++ "withoutgftzerototalgftratio")) by (rewrite E; reflexivity).
    destruct a, b, (worse g1 total); reflexivity.
Qed.

Lemma parts_seen : forall worse recipe m k k0 opt opt0 auctions cs, (forall x, worse x x = false) ->
  auctions_columns recipe m k k0 opt opt0 auctions = Ok cs ->
  (forall a o, In a auctions -> gain_and_deals recipe m a o -> 0 <= fst o) ->
  exists os sel, Forall2 (gain_and_deals recipe m) auctions os /\ sbb_outcomes auctions os sel
    /\ forall l s, seen worse l s -> seen worse (l ++ sel) (fold_left (diff_step worse) cs s).
Proof.
  intros worse recipe m k k0 opt opt0 auctions. induction auctions as [|[name f] auctions IH]; intros cs IRR H NN.
  - injection H as <-. exists [], []. split; [constructor|]. split; [constructor|]. intros l s HS. rewrite app_nil_r. exact HS.
  - cbn [auctions_columns] in H. apply bind_Ok in H. destruct H as (t & Ht & H). apply bind_Ok in H. destruct H as (total & G & H).
    apply bind_Ok in H. destruct H as (mkt & _ & H). apply bind_Ok in H. destruct H as (rest & HR & H).
    assert (EQ : cs = (auction_columns name k k0 opt opt0 (num_of_deals t) total mkt ++ rest)%list) by congruence. subst cs.
    destruct (IH rest IRR HR) as (os & sel & A & B & C); [intros a o Ha; apply NN; right; exact Ha|].
    assert (GD : gain_and_deals recipe m (name, f) (total, num_of_deals t)) by (exists t; auto).
    assert (G0 := NN (name, f) _ (or_introl eq_refl) GD). cbn [fst] in G0.
    destruct (py_contains "SBB" name) eqn:EC.
    + exists ((total, num_of_deals t) :: os), ((total, num_of_deals t) :: sel). split; [constructor; assumption|].
      split; [apply sbb_take; [apply contains_iff in EC; exact EC|exact B]|]. intros l s HS. rewrite fold_left_app.
      replace (l ++ (total, num_of_deals t) :: sel)%list with ((l ++ [(total, num_of_deals t)]) ++ sel)%list by (rewrite <- app_assoc; reflexivity).
      apply C. assert (X := part_seen worse name k k0 opt opt0 (num_of_deals t) total mkt l s IRR HS G0). rewrite EC in X. exact X.
    + exists ((total, num_of_deals t) :: os), sel. split; [constructor; assumption|].
      split; [apply sbb_skip; [intros X; apply contains_iff in X; cbn [fst] in X; congruence|exact B]|]. intros l s HS. rewrite fold_left_app.
      apply C. assert (X := part_seen worse name k k0 opt opt0 (num_of_deals t) total mkt l s IRR HS G0). rewrite EC in X. exact X.
Qed.

Lemma sbb_det : forall auctions os sel, sbb_outcomes auctions os sel -> forall sel', sbb_outcomes auctions os sel' -> sel = sel'.
Proof.
  intros auctions os sel H. induction H as [|a auctions o os sel X H IH|a auctions o os sel X H IH]; intros sel' H'; inversion H' as [|? ? ? ? ? X' H''|? ? ? ? ? X' H'']; subst.
  - reflexivity.
  - f_equal. apply IH. assumption.
  - contradiction.
  - contradiction.
  - apply IH. assumption.
Qed.

Lemma outcomes_det : forall recipe m auctions os, Forall2 (gain_and_deals recipe m) auctions os -> forall os', Forall2 (gain_and_deals recipe m) auctions os' -> os = os'.
Proof.
  intros recipe m auctions os H. induction H as [|a [g d] auctions os (t & A & B & C) H IH]; intros os' H'; inversion H' as [|? [g' d'] ? os'' (t' & A' & B' & C') H'']; subst; [reflexivity|].
  cbn [fst snd] in *. f_equal; [|apply IH; assumption]. assert (t' = t) by congruence. subst t'. congruence.
Qed.

Lemma exceeds_irr : forall x, exceeds x x = false.
Proof. intros x. unfold exceeds. destruct (Qlt_bool x x) eqn:E; [|reflexivity]. apply Qlt_bool_iff in E. lra. Qed.

Lemma differs_irr : forall x, differs x x = false.
Proof. intros x. unfold differs. assert (E : Qeq_bool x x = true) by (apply Qeq_bool_iff; reflexivity). rewrite E. reflexivity. Qed.

Lemma columns_seen : forall worse recipe auctions m cs, (forall x, worse x x = false) -> compare_columns recipe auctions m = Ok cs ->
  (forall a o, In a auctions -> gain_and_deals recipe m a o -> 0 <= fst o) ->
  exists os sel, Forall2 (gain_and_deals recipe m) auctions os /\ sbb_outcomes auctions os sel /\ seen worse sel (diff_loop worse cs).
Proof.
  intros worse recipe auctions m cs IRR H NN. unfold compare_columns in H. apply bind_Ok in H. destruct H as (o & _ & H).
  apply bind_Ok in H. destruct H as (o0 & _ & H). apply bind_Ok in H. destruct H as (rest & HR & H). injection H as <-.
  destruct (parts_seen worse _ _ _ _ _ _ _ _ IRR HR NN) as (os & sel & A & B & C). exists os, sel. split; [exact A|]. split; [exact B|].
  unfold diff_loop. change (seen worse sel (fold_left (diff_step worse) rest (mkDiff (-(1)) (-(1)) false false))).
  apply (C []). reflexivity.
Qed.

Theorem diff_written : forall report recipe auctions m cs os sel, compare_columns recipe auctions m = Ok cs ->
  (forall a o, In a auctions -> gain_and_deals recipe m a o -> 0 <= fst o) ->
  Forall2 (gain_and_deals recipe m) auctions os -> sbb_outcomes auctions os sel ->
  (fst (diff_files report cs) = true <-> exists first others o, sel = first :: others /\ In o others
     /\ (fst o < fst first \/ report = true /\ ~ fst o == fst first))
  /\ (snd (diff_files report cs) = true <-> exists first others o, sel = first :: others /\ In o others
     /\ ((snd o < snd first)%nat \/ report = true /\ snd o <> snd first)).
Proof.
  intros report recipe auctions m cs os sel HC NN HO HS.
  destruct (columns_seen exceeds _ _ _ _ exceeds_irr HC NN) as (os1 & sel1 & A1 & B1 & S1).
  destruct (columns_seen differs _ _ _ _ differs_irr HC NN) as (os2 & sel2 & A2 & B2 & S2).
  rewrite <- (outcomes_det _ _ _ _ HO _ A1) in B1. rewrite <- (outcomes_det _ _ _ _ HO _ A2) in B2.
  rewrite <- (sbb_det _ _ _ HS _ B1) in S1. rewrite <- (sbb_det _ _ _ HS _ B2) in S2. clear A1 A2 B1 B2.
  unfold diff_files. cbn [fst snd]. destruct sel as [|[g d] rest]; cbn [seen] in S1, S2.
  - rewrite S1, S2. cbn [gft_found k_found]. rewrite andb_false_r. split; (split; [discriminate|intros (f & ot & o & E & _); discriminate]).
  - destruct S1 as [_ ->]. destruct S2 as [_ ->]. cbn [gft_found k_found].
    assert (QN : forall a b, (a < b)%nat <-> Qn a < Qn b) by (intros a b; unfold Qn; rewrite <- Zlt_Qlt; lia).
    assert (QE : forall a b, a = b <-> Qn a == Qn b) by (intros a b; unfold Qn, Qeq, inject_Z; cbn; lia).
    split; rewrite orb_true_iff, andb_true_iff, !existsb_exists.
    + split.
      * intros [(o & Ho & W)|[-> (o & Ho & W)]]; exists (g, d), rest, o; (split; [reflexivity|]; split; [exact Ho|]); cbn [fst].
        -- left. unfold exceeds in W. apply Qlt_bool_iff in W. exact W.
        -- right. split; [reflexivity|]. unfold differs in W. apply negb_true_iff, Qeq_bool_false in W. intros E. apply W. symmetry. exact E.
      * intros (f & ot & o & E & Ho & W). injection E as <- <-. cbn [fst] in W. destruct W as [W|[-> W]].
        -- left. exists o. split; [exact Ho|]. unfold exceeds. apply Qlt_bool_iff. exact W.
        -- right. split; [reflexivity|]. exists o. split; [exact Ho|]. unfold differs. destruct (Qeq_bool g (fst o)) eqn:E; [|reflexivity].
           exfalso. apply W. apply Qeq_bool_iff in E. symmetry. exact E.
    + split.
      * intros [(o & Ho & W)|[-> (o & Ho & W)]]; exists (g, d), rest, o; (split; [reflexivity|]; split; [exact Ho|]); cbn [snd].
        -- left. unfold exceeds in W. apply Qlt_bool_iff in W. apply QN. exact W.
        -- right. split; [reflexivity|]. unfold differs in W. apply negb_true_iff, Qeq_bool_false in W. intros E. apply W. apply QE. symmetry. exact E.
      * intros (f & ot & o & E & Ho & W). injection E as <- <-. cbn [snd] in W. destruct W as [W|[-> W]].
        -- left. exists o. split; [exact Ho|]. unfold exceeds. apply Qlt_bool_iff. apply QN. exact W.
        -- right. split; [reflexivity|]. exists o. split; [exact Ho|]. unfold differs. destruct (Qeq_bool (Qn d) (Qn (snd o))) eqn:E; [|reflexivity].
           exfalso. apply W. apply Qeq_bool_iff in E. apply QE. symmetry. exact E.
Qed.

(** With a recipe of ones, except for the last entry, trade reduction and the ascending auction never differ on markets
    without spare agents. *)
Theorem diff_last : forall report recipe m n1 n2 cs, ones_but_last recipe -> no_spare m recipe -> tame recipe m ->
  compare_columns recipe [(n1, fun m r => trade_reduction m r true); (n2, ascending_auction)] m = Ok cs ->
  diff_files report cs = (false, false).
Proof.
  intros report recipe m n1 n2 cs O NS T HC.
  destruct (tr_same recipe m O NS T) as (t & ta & ga & ga' & g & g' & Ht & Ha & ED & A1 & _ & A3 & _ & E & _).
  set (auctions := [(n1, fun m r => trade_reduction m r true); (n2, ascending_auction)] : list auction) in *.
  assert (FP := Proof_TR14.last_all_positive _ O).
  assert (NE : recipe <> []) by (destruct O as (n0 & r0 & _ & ->); destruct n0; discriminate).
  destruct (ascending_outcome recipe m NE FP T) as (o & R & F & _). destruct R as (dl & rm & ta' & _ & _ & _ & Ha' & _ & G1 & _).
  assert (ta' = ta) by congruence. subst ta'. assert (EG : ga = out_total o) by congruence.
  unfold fine in F. destruct F as (_ & F1 & F2 & _). assert (P : 0 <= ga) by (rewrite EG; lra).
  assert (HO : Forall2 (gain_and_deals recipe m) auctions [(g, num_of_deals t); (ga, num_of_deals ta)]).
  { constructor; [exists t; auto|]. constructor; [exists ta; auto|]. constructor. }
  assert (NN : forall a o, In a auctions -> gain_and_deals recipe m a o -> 0 <= fst o).
  { intros a [x y] [<-|[<-|[]]] (t' & B1 & B2 & _); cbn [fst snd] in *.
    - assert (t' = t) by congruence. subst t'. assert (x = g) by congruence. subst x. lra.
    - assert (t' = ta) by congruence. subst t'. assert (x = ga) by congruence. subst x. lra. }
  assert (SEL : exists sel, sbb_outcomes auctions [(g, num_of_deals t); (ga, num_of_deals ta)] sel).
  { assert (X : forall (l : list auction) os, length l = length os -> exists sel, sbb_outcomes l os sel).
    { induction l as [|a l IH]; intros [|o' os] L; try discriminate; [exists []; constructor|]. injection L as L. destruct (IH os L) as (sel & B).
      destruct (py_contains "SBB" (fst a)) eqn:EC; [exists (o' :: sel); apply sbb_take; [apply contains_iff|]; assumption|].
      exists sel. apply sbb_skip; [intros X; apply contains_iff in X; congruence|assumption]. }
    apply X. reflexivity. }
  destruct SEL as (sel & HS).
  destruct (diff_written report _ _ _ _ _ _ HC NN HO HS) as [D1 D2].
  assert (ALL : forall o', In o' sel -> fst o' == g /\ snd o' = num_of_deals t).
  { assert (SUB : forall (l : list auction) os s, sbb_outcomes l os s -> forall o', In o' s -> In o' os).
    { intros l os s H. induction H; intros o' Ho; [destruct Ho| |right; auto]. destruct Ho as [<-|Ho]; [left; reflexivity|right; auto]. }
    intros o' Ho. apply (SUB _ _ _ HS) in Ho. destruct Ho as [<-|[<-|[]]]; cbn [fst snd]; split; auto; try reflexivity. symmetry. exact E. }
  destruct (diff_files report cs) as [b1 b2]. cbn [fst snd] in D1, D2. f_equal.
  - destruct b1; [|reflexivity]. exfalso. destruct (proj1 D1 eq_refl) as (f & ot & o' & -> & Ho & W).
    destruct (ALL f (or_introl eq_refl)) as [X _]. destruct (ALL o' (or_intror Ho)) as [Y _].
    destruct W as [W|[_ W]]; [lra|apply W; rewrite X, Y; reflexivity].
  - destruct b2; [|reflexivity]. exfalso. destruct (proj1 D2 eq_refl) as (f & ot & o' & -> & Ho & W).
    destruct (ALL f (or_introl eq_refl)) as [_ X]. destruct (ALL o' (or_intror Ho)) as [_ Y].
    destruct W as [W|[_ W]]; [lia|congruence].
Qed.

Theorem diff_ones : forall report recipe m n1 n2 cs, recipe <> [] -> all_ones recipe -> tame recipe m ->
  compare_columns recipe [(n1, fun m r => trade_reduction m r true); (n2, ascending_auction)] m = Ok cs ->
  diff_files report cs = (false, false).
Proof.
  intros report recipe m n1 n2 cs NE O T. apply diff_last; [apply Proof_TR14.ones_are_last; assumption| |exact T].
  apply Proof_TR14.ones_no_spare; [assumption|assumption|apply T].
Qed.

(** ** padding_zeroes *)
Lemma index_app : forall c a s, ~ In c a -> index_of c (a ++ c :: s) = Some (length a).
Proof.
  induction a as [|x a IH]; intros s H; cbn [app index_of length].
  - rewrite Ascii.eqb_refl. reflexivity.
  - destruct (Ascii.eqb_spec x c) as [->|N]; [exfalso; apply H; left; reflexivity|]. rewrite IH; [reflexivity|]. intros X. apply H. right. exact X.
Qed.

Theorem padding_shape : forall a b n, ~ In "."%char a ->
  padding_zeroes a n = Ok (a ++ "."%char :: repeat "0"%char n)%list
  /\ padding_zeroes (a ++ "."%char :: b) n = Ok (a ++ "."%char :: firstn n (b ++ repeat "0"%char n))%list.
Proof.
  intros a b n H. assert (EA : existsb (Ascii.eqb ".") a = false).
  { destruct (existsb (Ascii.eqb ".") a) eqn:E; [|reflexivity]. apply existsb_exists in E. destruct E as (x & Hx & E). apply Ascii.eqb_eq in E. congruence. }
  unfold padding_zeroes. split.
  - rewrite EA, index_app by exact H. f_equal. rewrite firstn_app. replace (length a + n + 1 - length a)%nat with (S n) by lia.
    rewrite firstn_all2 by lia. cbn [firstn]. rewrite firstn_all2 by (rewrite repeat_length; lia). reflexivity.
  - rewrite existsb_app, EA. cbn [existsb]. rewrite Ascii.eqb_refl. cbn [orb]. rewrite <- app_assoc. cbn [app]. rewrite index_app by exact H. f_equal.
    rewrite firstn_app. replace (length a + n + 1 - length a)%nat with (S n) by lia. rewrite firstn_all2 by lia. reflexivity.
Qed.

Lemma frac_zeros : forall n, frac_value (repeat "0"%char n) == 0.
Proof. induction n as [|n IH]; [reflexivity|]. cbn [repeat frac_value]. rewrite IH. reflexivity. Qed.

Lemma digit_range : forall c, is_digit c -> 0 <= inject_Z (digit c) <= 9.
Proof.
  intros c [A B]. unfold digit. change 0 with (inject_Z 0). change 9 with (inject_Z 9). rewrite <- !Zle_Qle. lia.
Qed.

Lemma div10 : forall a, a / 10 == a * (1 # 10).
Proof. intros a. reflexivity. Qed.

Lemma frac_range : forall fs, Forall is_digit fs -> 0 <= frac_value fs < 1.
Proof.
  intros fs F. induction F as [|c fs H F IH]; cbn [frac_value]; [lra|]. apply digit_range in H. rewrite div10. lra.
Qed.

Lemma frac_cut : forall n fs, Forall is_digit fs ->
  frac_value (firstn n (fs ++ repeat "0"%char n)) <= frac_value fs < frac_value (firstn n (fs ++ repeat "0"%char n)) + 1 / inject_Z (10 ^ Z.of_nat n).
Proof.
  induction n as [|n IH]; intros fs F.
  - cbn [firstn frac_value]. change (1 / inject_Z (10 ^ Z.of_nat 0)) with 1. apply frac_range in F. lra.
  - assert (P : 0 < inject_Z (10 ^ Z.of_nat n)) by (change 0 with (inject_Z 0); rewrite <- Zlt_Qlt; apply Z.pow_pos_nonneg; lia).
    assert (E : 1 / inject_Z (10 ^ Z.of_nat (S n)) == (1 / inject_Z (10 ^ Z.of_nat n)) * (1 # 10)).
    { rewrite Nat2Z.inj_succ, Z.pow_succ_r by lia. rewrite inject_Z_mult. change (inject_Z 10) with 10. field. lra. }
    rewrite E. assert (PI : 0 < 1 / inject_Z (10 ^ Z.of_nat n)) by (apply Qlt_shift_div_l; lra).
    set (u := 1 / inject_Z (10 ^ Z.of_nat n)) in *. clearbody u.
    destruct fs as [|c fs]; cbn [app firstn frac_value].
    + cbn [repeat firstn app]. replace (firstn (S n) ("0"%char :: repeat "0"%char n)) with (repeat "0"%char (S n)) by (cbn [repeat firstn]; rewrite firstn_all2; [reflexivity|rewrite repeat_length; lia]).
      assert (Z := frac_zeros (S n)). cbn [repeat firstn]. rewrite firstn_all2 by (rewrite repeat_length; lia). cbn [repeat] in Z. lra.
    + inversion F as [|? ? H F']; subst. specialize (IH fs F').
      assert (EF : firstn n (fs ++ repeat "0"%char (S n)) = firstn n (fs ++ repeat "0"%char n)).
      { rewrite !firstn_app. f_equal. replace (S n) with (n + 1)%nat by lia. rewrite repeat_app, firstn_app.
        replace (n - length fs - length (repeat "0"%char n))%nat with 0%nat by (rewrite repeat_length; lia). cbn [firstn]. apply app_nil_r. }
      rewrite EF, !div10. lra.
Qed.

Lemma no_point_digits : forall ds, Forall is_digit ds -> ~ In "."%char ds.
Proof. intros ds F H. rewrite Forall_forall in F. destruct (F _ H) as [A _]. cbn in A. lia. Qed.

Lemma padding_unsigned : forall s q n, unsigned_numeral s q -> exists s' q', padding_zeroes s n = Ok s' /\ unsigned_numeral s' q'
  /\ q' <= q < q' + 1 / inject_Z (10 ^ Z.of_nat n) /\ (exists ds fs, s' = (ds ++ "."%char :: fs)%list /\ length fs = n /\ Forall is_digit (ds ++ fs))
  /\ padding_zeroes ("-"%char :: s) n = Ok ("-"%char :: s').
Proof.
  intros s q n (ds & fs & F1 & F2 & S & E).
  assert (ND := no_point_digits _ F1). assert (ND' : ~ In "."%char ("-"%char :: ds)) by (intros [X|X]; [discriminate|contradiction]).
  assert (ZD : Forall is_digit (repeat "0"%char n)).
  { apply Forall_forall. intros x Hx. apply repeat_spec in Hx. subst x. split; cbn; lia. }
  assert (PP : s = ds /\ fs = [] -> frac_value fs == 0) by (intros [_ ->]; reflexivity).
  set (fs' := firstn n (fs ++ repeat "0"%char n)).
  assert (FD : Forall is_digit fs').
  { unfold fs'. apply Forall_forall. intros x Hx. assert (Y : Forall is_digit (fs ++ repeat "0"%char n)) by (apply Forall_app; auto).
    rewrite Forall_forall in Y. apply Y. rewrite <- (firstn_skipn n). apply in_or_app. left. exact Hx. }
  assert (LF : length fs' = n) by (unfold fs'; rewrite firstn_length, app_length, repeat_length; lia).
  exists (ds ++ "."%char :: fs')%list, (inject_Z (int_value ds) + frac_value fs').
  assert (PZ : padding_zeroes s n = Ok (ds ++ "."%char :: fs')%list /\ padding_zeroes ("-"%char :: s) n = Ok ("-"%char :: ds ++ "."%char :: fs')%list).
  { destruct S as [[-> ->]| ->].
    - unfold fs'. cbn [app]. rewrite firstn_all2 by (rewrite repeat_length; lia).
      split; [exact (proj1 (padding_shape ds [] n ND))|exact (proj1 (padding_shape ("-"%char :: ds) [] n ND'))].
    - split; [exact (proj2 (padding_shape ds fs n ND))|exact (proj2 (padding_shape ("-"%char :: ds) fs n ND'))]. }
  split; [exact (proj1 PZ)|]. split; [exists ds, fs'; split; [exact F1|split; [exact FD|split; [right; reflexivity|reflexivity]]]|].
  split; [|split; [exists ds, fs'; split; [reflexivity|split; [exact LF|apply Forall_app; auto]]|exact (proj2 PZ)]].
  assert (C := frac_cut n fs F2). fold fs' in C. rewrite E. lra.
Qed.

(** Truncation towards zero, to [n] digits. *)
Lemma numeral_pos : forall s q, unsigned_numeral s q -> 0 <= q.
Proof.
  intros s0 q0 (ds & fs & F1 & F2 & _ & ->). apply frac_range in F2. assert (0 <= inject_Z (int_value ds)); [|lra].
  change 0 with (inject_Z 0). rewrite <- Zle_Qle. unfold int_value.
  assert (X : forall acc, (0 <= acc -> 0 <= fold_left (fun acc c => 10 * acc + digit c) ds acc)%Z).
  { clear - F1. induction F1 as [|c ds H F IH]; intros acc HA; cbn [fold_left]; [exact HA|]. apply IH. destruct H as [A B]. unfold digit. lia. }
  apply X. lia.
Qed.

Theorem padding_truncates : forall s q n, numeral s q -> exists s' q', padding_zeroes s n = Ok s' /\ numeral s' q'
  /\ (0 <= q -> 0 <= q' <= q) /\ (q <= 0 -> q <= q' <= 0)
  /\ Qabs (q - q') < 1 / inject_Z (10 ^ Z.of_nat n)
  /\ exists before fs, s' = (before ++ "."%char :: fs)%list /\ length fs = n /\ Forall is_digit fs.
Proof.
  intros s q n H.
  assert (SIGN : forall a b u : Q, b <= a < b + u -> Qabs (a - b) < u) by (intros a b u X; rewrite Qabs_pos; lra).
  destruct H as [H|(s1 & q1 & -> & H & E)].
  - destruct (padding_unsigned s q n H) as (s' & q' & A & B & C & (ds & fs & D1 & D2 & D3) & _).
    assert (P := numeral_pos _ _ B). set (u := 1 / inject_Z (10 ^ Z.of_nat n)) in *. clearbody u.
    exists s', q'. split; [exact A|]. split; [left; exact B|].
    split; [intros; lra|]. split; [intros; split; [|]; lra|]. split; [apply SIGN; exact C|].
    exists ds, fs. split; [exact D1|]. split; [exact D2|]. apply Forall_app in D3. apply D3.
  - destruct (padding_unsigned s1 q1 n H) as (s' & q' & _ & B & C & (ds & fs & D1 & D2 & D3) & A).
    assert (P := numeral_pos _ _ B). set (u := 1 / inject_Z (10 ^ Z.of_nat n)) in *. clearbody u.
    exists ("-"%char :: s'), (- q'). split; [exact A|]. split; [right; exists s', q'; split; [reflexivity|split; [exact B|reflexivity]]|].
    split; [intros; rewrite E in *; lra|]. split; [intros; rewrite E; lra|].
    split; [rewrite E; setoid_replace (- q1 - - q') with (- (q1 - q')) by ring; rewrite Qabs_opp; apply SIGN; exact C|].
    exists ("-"%char :: ds), fs. split; [rewrite D1; reflexivity|]. split; [exact D2|]. apply Forall_app in D3. apply D3.
Qed.
