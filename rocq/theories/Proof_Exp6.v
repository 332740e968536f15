(** * The comparison counts what it says (C67) *)

From Coq Require Import String List Arith NArith Lia ZArith QArith Qround Lqa.
From Verif Require Import Base Model_Agents Model_Trade Model_Market Model_Ascending Model_TradeReduction
  Model_Experiment Spec_Market Spec_Trade Spec_Experiment Proof_Exp1 Proof_Exp2 Proof_Exp3 Proof_Exp4.
Import ListNotations.
Open Scope Q_scope.

Lemma loop_total : forall recipe ms s s', compare_loop recipe s ms = Ok s' ->
  exists o, size_total_of recipe ms o /\ c_ext_count s' = (c_ext_count s + ext_deals o)%nat
    /\ c_asc_count s' = (c_asc_count s + asc_deals o)%nat
    /\ c_ext_gft s' == c_ext_gft s + ext_gain o /\ c_asc_gft s' == c_asc_gft s + asc_gain o.
Proof.
  intros recipe ms. induction ms as [|m ms IH]; intros s s' H.
  - injection H as <-. exists (mkTotal 0 0 0 0). split; [|cbn; repeat split; try lia; lra].
    exists [], [], [], []. cbn. repeat split; lra.
  - cbn [compare_loop] in H. apply bind_Ok in H. destruct H as (s1 & H1 & H). unfold compare_iteration in H1.
    apply bind_Ok in H1. destruct H1 as (x & _ & H1). apply bind_Ok in H1. destruct H1 as (te & E1 & H1).
    apply bind_Ok in H1. destruct H1 as (ta & E2 & H1). apply bind_Ok in H1. destruct H1 as (ge & E3 & H1).
    apply bind_Ok in H1. destruct H1 as (ga & E4 & H1). injection H1 as <-.
    destruct (IH _ _ H) as (o & (tes & tas & ges & gas & A1 & A2 & A3 & A4 & A5 & A6 & A7 & A8) & B1 & B2 & B3 & B4).
    cbn [c_ext_count c_asc_count c_ext_gft c_asc_gft] in *.
    exists (mkTotal (num_of_deals te + ext_deals o) (num_of_deals ta + asc_deals o) (ge + ext_gain o) (ga + asc_gain o)).
    split; [|cbn; repeat split; try lia; lra].
    exists (te :: tes), (ta :: tas), (ge :: ges), (ga :: gas). cbn. rewrite E1, E2, E3, E4, A1, A2, A3, A4, A5, A6.
    repeat split; try reflexivity; [rewrite A7|rewrite A8]; reflexivity.
Qed.

Lemma Qlt_bool_proper : forall a b c d, a == c -> b == d -> Qlt_bool a b = Qlt_bool c d.
Proof.
  intros a b c d E F. destruct (Qlt_bool a b) eqn:X, (Qlt_bool c d) eqn:Y; try reflexivity;
  repeat match goal with H : Qlt_bool _ _ = true |- _ => apply Qlt_bool_iff in H | H : Qlt_bool _ _ = false |- _ => apply Qlt_bool_false in H end;
  exfalso; lra.
Qed.
Lemma Qeq_bool_proper : forall a b c d, a == c -> b == d -> Qeq_bool a b = Qeq_bool c d.
Proof.
  intros a b c d E F. destruct (Qeq_bool a b) eqn:X, (Qeq_bool c d) eqn:Y; try reflexivity;
  repeat match goal with H : Qeq_bool _ _ = true |- _ => apply Qeq_bool_iff in H | H : Qeq_bool _ _ = false |- _ => apply Qeq_bool_false in H end;
  exfalso; lra.
Qed.

Lemma triple_eq : forall a b c a' b' c' : nat, a = a' -> b = b' -> c = c' -> (a, b, c) = (a', b', c').
Proof. intros; subst; reflexivity. Qed.

Lemma sizes_count : forall recipe samples eg tg ag ek tk ak w, 
  compare_sizes recipe (eg, tg, ag) (ek, tk, ak) samples = Ok w ->
  exists os, Forall2 (size_total_of recipe) samples os
    /\ fst w = ((eg + how_many (fun o => Qlt_bool (asc_gain o) (ext_gain o)) os)%nat,
          (tg + how_many (fun o => Qeq_bool (asc_gain o) (ext_gain o)) os)%nat,
          (ag + how_many (fun o => Qlt_bool (ext_gain o) (asc_gain o)) os)%nat)
    /\ snd w = ((ek + how_many (fun o => asc_deals o <? ext_deals o)%nat os)%nat,
          (tk + how_many (fun o => asc_deals o =? ext_deals o)%nat os)%nat,
          (ak + how_many (fun o => ext_deals o <? asc_deals o)%nat os)%nat).
Proof.
  intros recipe samples. induction samples as [|ms samples IH]; intros eg tg ag ek tk ak w H.
  - injection H as <-. exists []. cbn. rewrite !Nat.add_0_r. auto.
  - cbn [compare_sizes] in H. apply bind_Ok in H. destruct H as (s & HL & H).
    destruct (loop_total _ _ _ _ HL) as (o & T & E1 & E2 & E3 & E4). cbn in E1, E2, E3, E4. 
    assert (E3' : c_ext_gft s == ext_gain o) by lra. assert (E4' : c_asc_gft s == asc_gain o) by lra. clear E3 E4.
    unfold count_wins_gft, count_wins_k in H. rewrite E1, E2 in H.
    rewrite (Qlt_bool_proper _ _ _ _ E4' E3'), (Qeq_bool_proper _ _ _ _ E3' E4') in H.
    assert (X1 : forall (b : bool) (x y z x' y' z' : nat), (if b then (x, y, z) else (x', y', z')) =
      (if b then x else x', if b then y else y', if b then z else z')) by (intros []; reflexivity).
    rewrite !X1 in H. apply IH in H. destruct H as (os & F & A & B). exists (o :: os).
    split; [constructor; assumption|]. rewrite A, B. unfold how_many. cbn [filter]. split.
    + assert (C : Qeq_bool (asc_gain o) (ext_gain o) = Qeq_bool (ext_gain o) (asc_gain o)).
      { destruct (Qeq_bool (asc_gain o) (ext_gain o)) eqn:X; symmetry.
        - apply Qeq_bool_iff in X. apply Qeq_bool_iff. lra.
        - apply Qeq_bool_false in X. destruct (Qeq_bool (ext_gain o) (asc_gain o)) eqn:Y; [|reflexivity]. apply Qeq_bool_iff in Y. exfalso. lra. }
      rewrite C. destruct (Qlt_bool (asc_gain o) (ext_gain o)) eqn:P.
      * apply Qlt_bool_iff in P. destruct (Qeq_bool (ext_gain o) (asc_gain o)) eqn:Y; [apply Qeq_bool_iff in Y; exfalso; lra|].
        assert (Z : Qlt_bool (ext_gain o) (asc_gain o) = false) by (apply Qlt_bool_false; lra). rewrite Z. apply triple_eq; cbn [length]; lia.
      * apply Qlt_bool_false in P. destruct (Qeq_bool (ext_gain o) (asc_gain o)) eqn:Y.
        -- apply Qeq_bool_iff in Y. assert (Z : Qlt_bool (ext_gain o) (asc_gain o) = false) by (apply Qlt_bool_false; lra). rewrite Z.
           apply triple_eq; cbn [length]; lia.
        -- apply Qeq_bool_false in Y. assert (Z : Qlt_bool (ext_gain o) (asc_gain o) = true) by (apply Qlt_bool_iff; lra). rewrite Z.
           apply triple_eq; cbn [length]; lia.
    + rewrite (Nat.eqb_sym (asc_deals o)). destruct (Nat.ltb_spec (asc_deals o) (ext_deals o)) as [P|P], (Nat.eqb_spec (ext_deals o) (asc_deals o)) as [Q|Q],
        (Nat.ltb_spec (ext_deals o) (asc_deals o)) as [R|R]; try lia; apply triple_eq; cbn [length]; lia.
Qed.

Lemma percent_share : forall x n, (0 < n)%nat -> percent x n = share x n.
Proof.
  intros x n H. destruct (percent_bounds x n H) as (A & B & _). unfold share.
  assert (E : 100 * Qn x == inject_Z (100 * Z.of_nat x)) by (unfold Qn; rewrite inject_Z_mult; reflexivity).
  rewrite E in A, B. unfold Qn in A, B. rewrite <- inject_Z_mult, <- Zle_Qle in A.
  assert (B' : inject_Z (100 * Z.of_nat x) < inject_Z ((percent x n + 1) * Z.of_nat n)) by (rewrite (inject_Z_mult (percent x n + 1)), inject_Z_plus; exact B).
  rewrite <- Zlt_Qlt in B'. apply (Z.div_unique_pos _ _ _ (100 * Z.of_nat x - percent x n * Z.of_nat n)); nia.
Qed.

Lemma compare_counts : forall runs rows, compare_experiment runs = Ok rows ->
  Forall2 (fun run r => exists os, Forall2 (size_total_of (fst run)) (snd run) os /\ cmp_row_of os r) runs rows.
Proof.
  intros runs. induction runs as [|[recipe samples] runs IH]; intros rows H; [inversion H; constructor|].
  cbn [compare_experiment] in H. apply bind_Ok in H. destruct H as ([wg wk] & HS & H). cbn [fst snd] in H.
  apply bind_Ok in H. destruct H as (r & HR & H). apply bind_Ok in H. destruct H as (rest & HT & H). injection H as <-.
  constructor; [|apply IH; assumption]. cbn [fst snd].
  destruct (sizes_count _ _ _ _ _ _ _ _ _ HS) as (os & F & A & B). cbn [fst snd Nat.add] in A, B. subst wg wk. exists os. split; [exact F|].
  unfold compare_row in HR. destruct (Nat.eqb_spec (length samples) 0) as [Z|Z]; [discriminate|]. injection HR as <-.
  assert (L : length samples = length os) by (clear - F; induction F; cbn; congruence). rewrite L in *.
  unfold cmp_row_of. cbn [external_wins ties ascending_wins external_wins_gft_pct tie_gft_pct ascending_wins_gft_pct
    external_wins_k_pct tie_k_pct ascending_wins_k_pct]. rewrite !percent_share by lia. auto 12.
Qed.
