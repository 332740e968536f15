(** * C122: with doubles, better reports of the agents who stay in the ascending auction change nothing *)

From Coq Require Import String ZArith Reals Qreals QArith Qpower Qabs List Lia Lra Lqa Sorted Permutation.
From Coq Require Import SpecFloat.
From Flocq Require Import Core BinarySingleNaN Plus_error Relative.
From Verif Require Import Base Model_Float Spec_Float Spec_FloatMcAfee Spec_FloatBudget Spec_FloatTruth
  Proof_Float Proof_Float2 Proof_FM1 Proof_FB1 Proof_FB2 Proof_FB3 Proof_FU1 Proof_FU2 Proof_FU3 Proof_FU4.
Import ListNotations.

Local Open Scope nat_scope.
#[local] Existing Instance hprec.
#[local] Existing Instance hmax.
#[local] Existing Instance ve.
Ltac lra := first [Lra.lra | Lqa.lra].

Section Group.
Variables (recipe : list nat) (B : Q) (k : Z).
Hypothesis (HB : (100000000 <= B)%Q).
Hypothesis (HK : (2 * inject_Z (traders recipe) * B <= Qpower 2 k)%Q).
Hypothesis (K1000 : (k <= 1000)%Z).
Hypothesis (HT : (traders recipe <= 2 ^ 53)%Z).
Hypothesis (HN : (2 * Z.of_nat (length recipe) + 2 <= 2 ^ 53)%Z).
Variables (ct cs : list (list double)).
Hypothesis (LS : length cs = length ct).
Hypothesis (LC : length ct = length recipe).
Hypothesis (BS : Forall (Forall (bound B)) cs).
Hypothesis (SZ : forall j c c', nth_error ct j = Some c -> nth_error cs j = Some c' -> length c' = length c).
Hypothesis (LOW : forall j a low c', nth_error ct j = Some (a ++ [low]) -> nth_error cs j = Some c' -> forall y, In y c' -> (dval low <= dval y)%Q).

Definition rel (cur cur' : list (list double)) : Prop := length cur = length ct /\ length cur' = length ct /\
  forall j c c', nth_error ct j = Some c -> nth_error cs j = Some c' -> exists q, nth_error cur j = Some (c ++ q) /\ nth_error cur' j = Some (c' ++ q).

Lemma app_self : forall A (c q : list A), c = c ++ q -> q = [].
Proof. intros A c q H. apply (f_equal (@length A)) in H. rewrite app_length in H. destruct q; [reflexivity|cbn in H; lia]. Qed.

Lemma ext_nth : forall A (l l' : list A), (forall j, nth_error l j = nth_error l' j) -> l = l'.
Proof.
  induction l as [|a l IH]; intros [|b l'] H; auto; try (specialize (H 0); discriminate).
  assert (X := H 0). injection X as ->. f_equal. apply IH. intros j. apply (H (S j)).
Qed.

Lemma rel_end : forall cur cur', rel cur cur' -> cur = ct -> cur' = cs.
Proof.
  intros cur cur' (L1 & L2 & H) ->. apply ext_nth. intros j.
  destruct (nth_error ct j) as [c|] eqn:E.
  - assert (J : j < length cs) by (rewrite LS; apply nth_error_Some; congruence).
    destruct (nth_error cs j) as [c'|] eqn:E'; [|apply nth_error_None in E'; lia].
    destruct (H j c c' E E') as (q & Q1 & Q2). injection (eq_trans (eq_sym E) Q1) as Q3. apply app_self in Q3. subst q. rewrite app_nil_r in Q2. exact Q2.
  - apply nth_error_None in E. rewrite !(proj2 (nth_error_None _ _)) by lia. reflexivity.
Qed.

Lemma rel_len : forall cur cur', rel cur cur' -> map (@length double) cur = map (@length double) cur'.
Proof.
  intros cur cur' (L1 & L2 & H). apply ext_nth. intros j. rewrite !nth_error_map.
  destruct (nth_error ct j) as [c|] eqn:E.
  - assert (J : j < length cs) by (rewrite LS; apply nth_error_Some; congruence).
    destruct (nth_error cs j) as [c'|] eqn:E'; [|apply nth_error_None in E'; lia].
    destruct (H j c c' E E') as (q & -> & ->). cbn. rewrite !app_length, (SZ j c c' E E'). reflexivity.
  - apply nth_error_None in E. rewrite !(proj2 (nth_error_None _ _)) by lia. reflexivity.
Qed.

Lemma sim : forall fuel cur cur' ps pt, rel cur cur' -> Forall (Forall (bound B)) cur -> Forall (okp (Q2R B)) ps -> length ps = length recipe ->
  f_loop fuel recipe cur (map B2SF ps) = Ok (ct, pt) -> f_loop fuel recipe cur' (map B2SF ps) = Ok (cs, pt).
Proof.
  induction fuel as [|fuel IH]; intros cur cur' ps pt R HC HP LP H; [discriminate|].
  assert (EQL := rel_len _ _ R). cbn [f_loop] in H |- *. change (filter _ _) with (relevant recipe) in H |- *.
  destruct (relevant recipe) as [|x l] eqn:RE; [discriminate|].
  rewrite <- (argmax_ext _ _ l x (fun j => potential_len _ _ recipe j EQL)).
  assert (Im : In (f_argmax_from (f_potential cur recipe) x l) (relevant recipe)) by (rewrite RE; apply argmax_in).
  set (main := f_argmax_from _ _ _) in *. clearbody main.
  destruct (relevant_in _ _ Im) as (r & Hr).
  assert (Hi : main < length recipe) by (apply nth_error_Some; congruence).
  destruct (nth_error ps main) as [pm|] eqn:Hp; [|apply nth_error_None in Hp; lia].
  assert (Hp' : nth_error (map B2SF ps) main = Some (B2SF pm)) by (rewrite nth_error_map, Hp; reflexivity).
  destruct (sizes recipe B k main r Hr HB HK) as (RB1 & HB' & K1).
  assert (R' := R). destruct R' as (L1 & L2 & RR).
  destruct (nth_error ct main) as [c|] eqn:Ec; [|apply nth_error_None in Ec; lia].
  destruct (nth_error cs main) as [c'|] eqn:Ec'; [|apply nth_error_None in Ec'; lia].
  destruct (RR main c c' Ec Ec') as (q & Q1 & Q2). unfold get in *. rewrite Q1 in H. rewrite Q2. cbn [bind] in H |- *.
  assert (SZm := SZ main c c' Ec Ec').
  destruct (rev q) as [|low q'] eqn:RQ.
  - assert (q = []) by (rewrite <- (rev_involutive q), RQ; reflexivity). subst q. rewrite !app_nil_r in *.
    destruct (rev c) as [|low rc] eqn:RC.
    + assert (c = []) by (rewrite <- (rev_involutive c), RC; reflexivity). subst c. destruct c'; [|discriminate]. cbn [rev].
      injection H as H1 H2. subst pt. rewrite (rel_end _ _ R H1). reflexivity.
    + assert (RC' := rev_last _ _ _ _ RC). 
      destruct (rev c') as [|low' rc'] eqn:RC1. { apply (f_equal (@length double)) in RC1. rewrite rev_length in RC1. rewrite RC' in SZm. rewrite app_length in SZm. cbn in *. lia. }
      assert (RC1' := rev_last _ _ _ _ RC1).
      assert (BL := Forall_nth _ _ _ _ _ HC Q1). rewrite RC' in BL. apply Forall_app in BL. destruct BL as [_ BL]. inversion BL as [|? ? BL1 _]; subst.
      assert (BH := Forall_nth _ _ _ _ _ BS Ec'). assert (IN : In low' c'). { rewrite RC1'. apply in_or_app. right. left. reflexivity. }
      assert (BH1 : bound B low') by (rewrite Forall_forall in BH; auto).
      assert (LE : (dval low <= dval low')%Q). { apply (LOW main (removelast c) low c'); [rewrite <- RC'; exact Ec|exact Ec'|exact IN]. }
      destruct (bound_okp B low BL1) as (bl & El & OL). destruct (bound_okp B low' BH1) as (bh & Eh & OH). subst low low'.
      destruct (increase_ok recipe (map B2SF ps) main r (B2SF bl) (B2SF pm) Hr Hp') as (b1 & np1 & I1 & I11 & I12). rewrite I1 in H. cbn [bind fst snd] in H.
      destruct (increase_ok recipe (map B2SF ps) main r (B2SF bh) (B2SF pm) Hr Hp') as (b2 & np2 & I2 & I21 & I22). rewrite I2. cbn [bind fst snd].
      destruct b1.
      * injection H as H1 H2. subst pt. assert (EC := rel_end _ _ R H1). 
        assert (X1 := increase_flag _ _ _ _ _ _ _ _ Hr Hp' I1). assert (X2 := increase_flag _ _ _ _ _ _ _ _ Hr Hp' I2).
        destruct b2.
        -- destruct (I12 eq_refl) as (w1 & W1 & _ & ->). destruct (I22 eq_refl) as (w2 & W2 & _ & ->). subst w1 w2. rewrite EC. reflexivity.
        -- exfalso. symmetry in X1, X2.
           destruct (final_w k (Q2R B) recipe ps main r pm ltac:(lia) ltac:(lra) HP (HR recipe HT) LP Hr Hp HB' HN) as (bw & EW & NW).
           rewrite EW in X1, X2.
           assert (WA : (Rabs (B2R bw) <= bpow radix2 k)%R) by (eapply (w_abs k (Q2R B) recipe ps main r pm); first [exact NW | eassumption | exact (HR recipe HT) | lra | lia]). destruct NW as [Fw _].
           assert (LER : (B2R bl <= B2R bh)%R). { apply Qle_Rle in LE. rewrite !dval_B in LE by (apply OL || apply OH). exact LE. }
           exact (mono_sum k (Q2R B) recipe main r bw bl bh ltac:(lia) ltac:(lra) (HR recipe HT) Hr HB' Fw WA OL OH LER X1 X2).
      * exfalso. destruct (set_len_le recipe main _ _ _ _ _ (removelast c) H) as (c0 & C0 & C1); [apply nth_set_same; lia|].
        rewrite Ec in C0. injection C0 as <-. rewrite RC' in C1. rewrite removelast_last in C1. rewrite app_length in C1. cbn in C1. lia.
  - assert (RQ' := rev_last _ _ _ _ RQ).
    assert (E1 : rev (c ++ q) = low :: rev (c ++ removelast q)) by (rewrite RQ' at 1; rewrite app_assoc, rev_app_distr; reflexivity).
    assert (E2 : rev (c' ++ q) = low :: rev (c' ++ removelast q)) by (rewrite RQ' at 1; rewrite app_assoc, rev_app_distr; reflexivity).
    rewrite E1 in H. rewrite E2.
    assert (BL := Forall_nth _ _ _ _ _ HC Q1). assert (BL0 := BL). rewrite RQ' in BL. apply Forall_app in BL. destruct BL as [BLc BL]. apply Forall_app in BL. destruct BL as [BLq BL]. inversion BL as [|? ? BL1 _]; subst.
    destruct (bound_okp B low BL1) as (bl & El & OL). subst low.
    destruct (increase_ok recipe (map B2SF ps) main r (B2SF bl) (B2SF pm) Hr Hp') as (b1 & np1 & I1 & I11 & I12). rewrite I1 in H |- *. cbn [bind fst snd] in H |- *.
    destruct b1.
    + exfalso. injection H as H1 H2. rewrite H1, Ec in Q1. injection Q1 as Q1. apply app_self in Q1. subst q. discriminate.
    + rewrite (I11 eq_refl) in H |- *. rewrite <- map_set in H |- *.
      assert (RL : forall z : list double, removelast (z ++ q) = z ++ removelast q).
      { intros z. rewrite RQ' at 1. rewrite app_assoc, removelast_last. reflexivity. }
      rewrite !RL in *. apply (IH (set_nth main (c ++ removelast q) cur)); auto.
      * split; [rewrite set_len; exact L1|]. split; [rewrite set_len; exact L2|]. intros j a a' Ja Ja'. destruct (Nat.eq_dec main j) as [<-|NE].
        -- rewrite Ec in Ja. rewrite Ec' in Ja'. injection Ja as <-. injection Ja' as <-. exists (removelast q). rewrite !nth_set_same by lia. auto.
        -- rewrite !nth_set_other by exact NE. apply RR; assumption.
      * apply Forall_set; [exact HC|]. apply Forall_app. split; assumption.
      * apply Forall_set; [exact HP|exact OL].
      * rewrite set_len. exact LP.
Qed.
End Group.
