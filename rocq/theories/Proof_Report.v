(** * Proofs about the texts of trades (C89) *)

From Coq Require Import String Ascii List Arith Lia QArith.
From Verif Require Import Base Model_Agents Model_Trade Model_RecipeTree Model_TreeAuction Model_IntTree Model_Report
  Spec_RecipeTree Spec_Int Spec_Report Proof_Tree Proof_Tree2 Proof_Tree3 Proof_TA1 Proof_Int1 Proof_Int2.
Import ListNotations.
Open Scope string_scope.

(** ** Strings *)
Lemma sapp_assoc : forall a b c, (a ++ b) ++ c = a ++ b ++ c.
Proof. induction a as [|x a IH]; intros b c; cbn; [reflexivity|]. now rewrite IH. Qed.

Lemma sapp_nil : forall a, a ++ "" = a.
Proof. induction a as [|x a IH]; cbn; [reflexivity|]. now rewrite IH. Qed.

Lemma sapp_length : forall a b, String.length (a ++ b) = (String.length a + String.length b)%nat.
Proof. induction a as [|x a IH]; intros b; cbn; [reflexivity|]. now rewrite IH. Qed.

(** Ends with a character that is not white space. *)
Definition solid (s : string) : Prop := exists a c, s = a ++ String c "" /\ is_space c = false.

Lemma solid_app : forall a s, solid s -> solid (a ++ s).
Proof. intros a s (b & c & -> & H). exists (a ++ b), c. now rewrite sapp_assoc. Qed.

Lemma rstrip_solid : forall s, solid s -> rstrip s = s /\ s <> "".
Proof.
  intros s (a & c & -> & H). induction a as [|x a [IH1 IH2]]; cbn.
  - rewrite H. split; [reflexivity|discriminate].
  - rewrite IH1. destruct (a ++ String c "") eqn:E; [congruence|]. split; [reflexivity|discriminate].
Qed.

Lemma rstrip_app_space : forall s c, is_space c = true -> rstrip (s ++ String c "") = rstrip s.
Proof.
  intros s c H. induction s as [|x s IH]; cbn; [now rewrite H|]. now rewrite IH.
Qed.

Lemma rstrip_nl : forall s, solid s -> rstrip (s ++ nl) = s.
Proof. intros s H. unfold nl. rewrite rstrip_app_space by reflexivity. now apply rstrip_solid. Qed.

(** Every line followed by a line break. *)
Definition unlines (ls : list string) : string := String.concat "" (map (fun l => l ++ nl) ls).

Lemma concat_empty_cons : forall a l, String.concat "" (a :: l) = a ++ String.concat "" l.
Proof. intros a [|b l]; cbn; [now rewrite sapp_nil|reflexivity]. Qed.

Lemma unlines_cons : forall a l, unlines (a :: l) = a ++ nl ++ unlines l.
Proof. intros a l. unfold unlines. cbn [map]. rewrite concat_empty_cons. now rewrite sapp_assoc. Qed.

Lemma unlines_app : forall a b, unlines (a ++ b) = unlines a ++ unlines b.
Proof.
  induction a as [|x a IH]; intros b; [reflexivity|]. cbn [app]. rewrite !unlines_cons, IH. now rewrite !sapp_assoc.
Qed.

Lemma unlines_concat : forall parts, String.concat "" (map unlines parts) = unlines (concat parts).
Proof. induction parts as [|p parts IH]; [reflexivity|]. cbn [map]. rewrite concat_empty_cons, IH. cbn [concat]. now rewrite unlines_app. Qed.

Lemma unlines_text : forall ls, ls <> [] -> unlines ls = text_of ls ++ nl.
Proof.
  induction ls as [|a ls IH]; intros H; [congruence|]. rewrite unlines_cons. destruct ls as [|b ls].
  - unfold text_of, unlines. cbn. reflexivity.
  - rewrite IH by discriminate. unfold text_of. cbn [String.concat]. now rewrite !sapp_assoc.
Qed.

Lemma text_solid : forall ls, ls <> [] -> Forall solid ls -> solid (text_of ls).
Proof.
  induction ls as [|a ls IH]; intros H HF; [congruence|]. inversion HF; subst. destruct ls as [|b ls].
  - unfold text_of. cbn. assumption.
  - unfold text_of in *. cbn [String.concat]. apply solid_app, solid_app. apply IH; [discriminate|assumption].
Qed.

Lemma rstrip_unlines : forall ls, ls <> [] -> Forall solid ls -> rstrip (unlines ls) = text_of ls.
Proof. intros ls H HF. rewrite unlines_text by assumption. apply rstrip_nl, text_solid; assumption. Qed.

Lemma text_length : forall ls l, In l ls -> (String.length l <= String.length (text_of ls))%nat.
Proof.
  induction ls as [|a ls IH]; intros l [].
  - subst. unfold text_of. destruct ls; cbn [String.concat]; rewrite ?sapp_length; lia.
  - unfold text_of in *. destruct ls as [|b ls]; [destruct H|]. cbn [String.concat]. rewrite !sapp_length.
    specialize (IH _ H). cbn [String.concat] in IH. lia.
Qed.

(** ** Trades with a single price per category *)
Lemma category_line_solid : forall show c n p l, renders show -> category_line show c n p l -> solid l.
Proof. intros show c n p l HS [H|H]; repeat apply solid_app; apply HS. Qed.

Lemma trade_lines_solid : forall show d cs rs ps ls, renders show -> trade_lines show d cs rs ps ls -> Forall solid ls.
Proof. intros show d cs rs ps ls HS H. induction H; [constructor|assumption|]. constructor; [eapply category_line_solid; eassumption|assumption]. Qed.

Lemma min_list_le : forall l m x, min_list l = Some m -> In x l -> (m <= x)%nat.
Proof.
  induction l as [|a l IH]; intros m x E []; cbn in E; destruct (min_list l) as [k|] eqn:F; injection E; intros <-.
  - subst. lia.
  - lia.
  - specialize (IH k x eq_refl H). lia.
  - destruct l; [destruct H|]. cbn in F. destruct (min_list l); discriminate.
Qed.

Lemma repr_loop_ok : forall show t ps, tprices t = Some ps -> forall cs rs i,
  (exists pre, trecipe t = (pre ++ rs)%list /\ length pre = i) -> length cs = length rs -> (i + length cs = length ps)%nat ->
  (forall c r, In (c, r) (combine cs rs) -> (0 < r)%nat -> (tdeals t <= csize c / r)%nat) ->
  exists ls, trade_lines show (tdeals t) cs rs (skipn i ps) ls /\ repr_loop show t i cs = Ok (unlines ls)
    /\ (Exists (fun r => 0 < r)%nat rs -> ls <> []).
Proof.
  intros show t ps HP. induction cs as [|c cs IH]; intros rs i [pre [ER EL]] HL HI HD.
  - destruct rs; [|discriminate]. exists []. rewrite skipn_all2 by (cbn in HI; lia). split; [constructor|]. split; [reflexivity|].
    intros H. inversion H.
  - destruct rs as [|r rs]; [discriminate|]. cbn [length] in HL, HI.
    destruct (IH rs (S i)) as (ls & HT & HE & HN).
    { exists (pre ++ [r])%list. rewrite <- app_assoc. split; [exact ER|]. rewrite app_length. cbn. lia. }
    { lia. } { lia. } { intros c' r' Hin. apply HD. right. exact Hin. }
    assert (EP : exists p, nth_error ps i = Some p /\ skipn i ps = p :: skipn (S i) ps).
    { clear -HI. assert (H : (i < length ps)%nat) by lia. clear HI. revert i H. induction ps as [|p ps IH]; intros i H; [cbn in H; lia|].
      destruct i as [|i]; [exists p; split; reflexivity|]. cbn in H. destruct (IH i) as [q [E1 E2]]; [lia|]. exists q. split; [exact E1|].
      cbn [skipn]. rewrite E2. reflexivity. }
    destruct EP as [p [EP ES]]. cbn [repr_loop].
    assert (EG : get (trecipe t) i = Ok r).
    { unfold get. rewrite ER, nth_error_app2, EL, Nat.sub_diag by lia. reflexivity. }
    rewrite EG. cbn [bind]. unfold price_at. rewrite HP. unfold get at 1. rewrite EP, ES.
    destruct (Nat.ltb_spec 0 r) as [Hr|Hr].
    + cbn [bind]. rewrite HE. cbn [bind].
      assert (HB : (r * tdeals t <= csize c)%nat).
      { assert (X := HD c r (or_introl eq_refl) Hr). assert (Y := Nat.mul_div_le (csize c) r). nia. }
      destruct (Nat.eqb_spec (csize c) (r * tdeals t)) as [E|E].
      * eexists. split; [constructor; [exact Hr|apply line_all; exact E|exact HT]|]. split; [|intros _; discriminate].
        rewrite unlines_cons. f_equal. rewrite !sapp_assoc. rewrite E. reflexivity.
      * eexists. split; [constructor; [exact Hr|apply line_random; unfold csize in *; lia|exact HT]|]. split; [|intros _; discriminate].
        rewrite unlines_cons. f_equal. rewrite !sapp_assoc. reflexivity.
    + cbn [bind]. rewrite HE. cbn [bind]. exists ls. assert (r = 0%nat) by lia. subst r. split; [constructor; exact HT|].
      split; [reflexivity|]. intros H. inversion H; subst; [lia|auto].
Qed.

Lemma potential_some : forall cats recipe d, min_list (potential_deals cats recipe) = Some d ->
  Exists (fun r => 0 < r)%nat recipe
  /\ forall c r, In (c, r) (combine cats recipe) -> (0 < r)%nat -> (d <= csize c / r)%nat.
Proof.
  intros cats recipe d H. split.
  - unfold potential_deals in H. revert recipe H. induction cats as [|c cats IH]; intros [|r recipe] H; try discriminate.
    destruct (Nat.ltb_spec 0 r) as [Hr|Hr]; [left; exact Hr|]. right. apply IH. destruct r; [exact H|lia].
  - intros c r Hin Hr. eapply min_list_le; [exact H|]. unfold potential_deals. apply in_map_iff. exists (c, r). split; [reflexivity|].
    apply filter_In. split; [exact Hin|]. apply Nat.ltb_lt. exact Hr.
Qed.

Lemma single_price_text : forall show cats recipe prices t, renders show -> new_trade cats recipe (Some prices) = Ok t ->
  length cats = length recipe -> length prices = length recipe ->
  (num_of_deals t = 0%nat -> trade_text show t = Ok "No trade")
  /\ ((0 < num_of_deals t)%nat -> exists lines text, trade_lines show (num_of_deals t) cats recipe prices lines
        /\ trade_text show t = Ok text /\ text = text_of lines /\ text <> "No trade").
Proof.
  intros show cats recipe prices t HS HN HL HP. unfold new_trade in HN.
  destruct (min_list (potential_deals cats recipe)) as [d|] eqn:E; [|discriminate]. injection HN; intros <-. unfold num_of_deals. cbn [tdeals].
  destruct (potential_some _ _ _ E) as [HX HD]. split.
  - intros ->. reflexivity.
  - intros Hd. set (t' := mkTrade cats recipe (Some prices) d).
    destruct (repr_loop_ok show t' prices eq_refl cats recipe 0) as (ls & HT & HE & HNE).
    + exists []. split; reflexivity.
    + exact HL.
    + cbn. congruence.
    + exact HD.
    + cbn [skipn] in HT. assert (Hne := HNE HX). exists ls, (text_of ls). split; [exact HT|]. split; [|split; [reflexivity|]].
      * unfold trade_text. cbn [tdeals tcats]. replace (tdeals t') with d by reflexivity. destruct (Nat.eqb_spec d 0); [lia|].
        change (tcats t') with cats. rewrite HE. cbn [bind]. f_equal. apply rstrip_unlines; [exact Hne|eapply trade_lines_solid; eassumption].
      * intros F. destruct ls as [|l ls]; [congruence|]. assert (X := text_length (l :: ls) l (or_introl eq_refl)). rewrite F in X.
        assert (Y : exists c n p, category_line show c n p l).
        { clear -HT. clearbody t'. remember (l :: ls) as L. revert l ls HeqL. induction HT; intros l0 ls0 EQ; [discriminate|eauto|]. injection EQ; intros _ <-. eauto. }
        destruct Y as (c & n & p & Y). inversion Y as [Z EZ|Z EZ]; rewrite <- EZ in X; clear -X; repeat rewrite sapp_length in X; cbn [String.length] in X; lia.
Qed.

(** Without prices (a trade reduction that found no price): an error, unless there are no deals. *)
Lemma no_price_text : forall show cats recipe t, new_trade cats recipe None = Ok t -> length cats = length recipe ->
  (num_of_deals t = 0%nat -> trade_text show t = Ok "No trade") /\ ((0 < num_of_deals t)%nat -> trade_text show t = Raise TypeError).
Proof.
  intros show cats recipe t HN HL. unfold new_trade in HN.
  destruct (min_list (potential_deals cats recipe)) as [d|] eqn:E; [|discriminate]. injection HN; intros <-. unfold num_of_deals. cbn [tdeals].
  destruct (potential_some _ _ _ E) as [HX HD]. split; [intros ->; reflexivity|]. intros Hd. unfold trade_text. cbn [tdeals tcats].
  destruct (Nat.eqb_spec d 0); [lia|].
  assert (X : forall cs rs i pre, recipe = (pre ++ rs)%list -> length pre = i -> length cs = length rs -> Exists (fun r => 0 < r)%nat rs ->
    repr_loop show (mkTrade cats recipe None d) i cs = Raise TypeError).
  { induction cs as [|c cs IH]; intros rs i pre ER EL HLL HEx; destruct rs as [|r rs]; try discriminate; [inversion HEx|].
    cbn [repr_loop trecipe]. assert (EG : get recipe i = Ok r) by (unfold get; rewrite ER, nth_error_app2, EL, Nat.sub_diag by lia; reflexivity).
    rewrite EG. cbn [bind]. destruct (Nat.ltb_spec 0 r); [reflexivity|]. cbn [bind].
    rewrite (IH rs (S i) (pre ++ [r])%list); [reflexivity| | | |].
    - rewrite <- app_assoc. exact ER.
    - rewrite app_length. cbn. lia.
    - cbn in HLL. lia.
    - inversion HEx; subst; [lia|assumption]. }
  rewrite (X cats recipe 0%nat []); auto.
Qed.
