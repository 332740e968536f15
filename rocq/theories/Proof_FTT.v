(** * C117: the trade-reduction protocol with doubles is truthful up to rounding *)

From Coq Require Import String ZArith QArith Qpower Qabs List Lia Lqa Sorted Permutation.
From Coq Require Import SpecFloat.
From Verif Require Import Base Model_Agents Model_Market Model_Float Model_FloatMcAfee Model_FloatTradeReduction Spec_Float Spec_FloatMcAfee
  Spec_FloatTradeReduction Spec_FloatReductionTruth Proof_Float Proof_Float2 Proof_FM1 Proof_FM2 Proof_FM3 Proof_FM4 Proof_FM6 Proof_FT1 Proof_FT2 Proof_FT3 Proof_FT4 Proof_FT5.
Import ListNotations.

Local Open Scope nat_scope.

(** The outcome: [rb] is the buyer whose deal is cancelled, if any; [wb] and [ws] are the others who do not trade; [c] is the price. One of those who
    neither trade nor are bought out sets the price. *)
Record clears (bs ss tb ts rb wb ws : list double) (p1 p2 : double) (E c : Q) : Prop := {
  c_bs : Permutation (tb ++ rb ++ wb) bs;
  c_ss : Permutation (ts ++ ws) ss;
  c_len : length (tb ++ rb) = length ts;
  c_pos : 0 < length ts;
  c_p1 : (Qabs (dval p1 - c) <= E)%Q;
  c_p2 : (Qabs (dval p2 + c) <= E)%Q;
  c_tb : forall v, In v tb -> (c <= dval v + 2 * E)%Q;
  c_ts : forall w, In w ts -> (- c <= dval w + 2 * E)%Q;
  c_rb : forall v, In v rb -> (dval v == c)%Q;
  c_wb : forall v, In v wb -> (dval v <= c)%Q;
  c_ws : forall w, In w ws -> (dval w <= - c)%Q;
  c_set : rb <> [] \/ exists w, In w ws /\ (dval w == - c)%Q
}.

Lemma not_worth_le : forall incl x y, ~ worth incl x y -> (dval x + dval y <= 0)%Q.
Proof. intros incl x y H. destruct (Qlt_le_dec 0 (dval x + dval y)) as [L|L]; [|exact L]. exfalso. apply H. left. exact L. Qed.

Lemma worth_pos : forall incl x y, worth incl x y -> (0 <= dval x + dval y)%Q.
Proof. intros incl x y [W|[_ W]]; lra. Qed.

Section Clear.
Variables (bs ss : list double) (B : Q).
Hypothesis Hb : Forall finite_double bs.
Hypothesis Hs : Forall finite_double ss.
Hypothesis Pb : Forall (fun b => 0 <= dval b <= B)%Q bs.
Hypothesis Ps : Forall (fun s => -100000000 <= dval s <= 0)%Q ss.
Hypothesis HB : (B < 100000000)%Q.

Lemma HB1000 : (B <= Qpower 2 1000)%Q.
Proof. assert (X : (100000000 <= Qpower 2 1000)%Q) by (vm_compute; discriminate). lra. Qed.

Lemma firsts_app : forall a b, firsts (a ++ b) = firsts a ++ firsts b. Proof. intros; apply map_app. Qed.
Lemma seconds_app : forall a b, seconds (a ++ b) = seconds a ++ seconds b. Proof. intros; apply map_app. Qed.

Lemma dummy_In : forall l o, In o (dummy l) -> In o l \/ (l = [] /\ o = fint (-100000000)).
Proof. intros [|a l] o H; [right; destruct H as [<-|[]]; auto|left; exact H]. Qed.

Lemma none_below : forall it, length bs < it -> the_deals it bs ss = [] -> forall b s, In b bs -> In s ss -> (dval b + dval s <= 0)%Q.
Proof.
  intros it L E b s Ib Is. destruct (loop_pairs it (f_desc bs) (f_desc ss)) as (k & K1 & K2 & K3 & K4).
  unfold the_deals in E. rewrite K3 in E. assert (PL := pairs_length k (f_desc bs) (f_desc ss) K1 K2). rewrite E in PL. cbn in PL. subst k.
  assert (UN := unmade bs ss Hb Hs it 0 L K4). cbn [skipn] in UN.
  assert (X := UN b s (Permutation_in _ (Permutation_sym (f_desc_perm bs)) Ib) (Permutation_in _ (Permutation_sym (f_desc_perm ss)) Is)). lra.
Qed.

Theorem fclear : forall it incl tb ts P, length bs < it -> f_trade_reduction it [bs; ss] incl = Ok ([tb; ts], P) ->
  (tb = [] /\ ts = [] /\ forall b s, In b bs -> In s ss -> (dval b + dval s <= 0)%Q) \/
  exists p1 p2 rb wb ws c, P = Some [p1; p2] /\ clears bs ss tb ts rb wb ws p1 p2 (eps * B) c.
Proof.
  intros it incl tb ts P L H. destruct P as [P|].
  2:{ left. destruct (fno_prices bs ss B Hb Hs Pb Ps HB1000 it incl tb ts L H) as (Ei & N & _).
      destruct (kept_deals bs ss B Hb Hs Pb Ps HB1000 it incl tb ts None L H) as (rb & _ & R1 & R2 & R3 & _). destruct (R3 eq_refl) as [R4 _]. rewrite R4 in *.
      apply Permutation_sym, Permutation_nil in R1. apply Permutation_sym, Permutation_nil in R2. apply app_eq_nil in R1. destruct R1. auto. }
  destruct (the_deals it bs ss) as [|d0 l0] eqn:E0.
  { left. destruct (fresult bs ss B Hb Hs Pb Ps HB1000 it incl) as (tb' & ts' & P' & E & C). rewrite H in E. injection E as <- <- <-.
    destruct C as [(_ & C1 & C2 & _)|(neg & _ & NE & _)]; [|congruence]. split; [exact C1|]. split; [exact C2|]. apply (none_below it L E0). }
  assert (NE : the_deals it bs ss <> []) by (rewrite E0; discriminate). clear E0 d0 l0. right.
  destruct (setup bs ss B Hb Hs Pb Ps it incl NE) as (neg & rb & rs & R & RB & RS & FB & FS & NEG & REM & rb0 & rs0 & -> & -> & PB & PS & EMP).
  assert (DF := deal_facts bs ss B Hb Hs Pb Ps it).
  assert (OKD : Forall (ok_deal B) (neg ++ f_by_gft (the_deals it bs ss))).
  { apply Forall_app. split; apply Forall_forall; intros d D.
    - destruct NEG as [->|(x & y & -> & X & Y & _)]; [destruct D|]. destruct D as [<-|[]]. exists x, y. split; [reflexivity|].
      split; [apply (buyer_ok bs B Hb Pb x X)|apply (seller_ok ss Hs Ps y Y)].
    - destruct (DF d D) as (x & y & -> & _ & _ & X & Y & _). exists x, y. auto. }
  assert (CMP : forall x y x' y', In [x; y] (neg ++ f_by_gft (the_deals it bs ss)) -> In [x'; y'] (neg ++ f_by_gft (the_deals it bs ss)) ->
     ((dval x <= dval x' /\ dval y <= dval y') \/ (dval x' <= dval x /\ dval y' <= dval y))%Q).
  { intros x y x' y' I I'. destruct NEG as [->|(h1 & h2 & -> & _ & _ & LE & _)]; [apply (comparable bs ss B Hb Hs Pb Ps it); assumption|].
    cbn [app] in I, I'. destruct I as [I|I], I' as [I'|I'].
    - left. injection I as <- <-. injection I' as <- <-. split; lra.
    - left. injection I as <- <-. apply LE. exact I'.
    - right. injection I' as <- <-. apply LE. exact I.
    - apply (comparable bs ss B Hb Hs Pb Ps it); assumption. }
  assert (NW : forall d, In d neg -> exists x y, d = [x; y] /\ (dval x + dval y < 0)%Q).
  { intros d D. destruct NEG as [->|(x & y & -> & _ & _ & _ & N)]; [destruct D|]. destruct D as [<-|[]]. exists x, y. split; [reflexivity|apply N; exact L]. }
  destruct (run incl B _ _ _ [] [] OKD RB RS FB FS) as (tb' & ts' & P' & rem & RUN & C). rewrite RUN in R. cbn [bind ftr_traders ftr_prices] in R. rewrite H in R. injection R as <- <- <-.
  destruct C as [(C1 & _)|(pre & x & y & post & C1 & C2 & C3)]; [discriminate C1|].
  rewrite C1 in OKD, CMP, REM, PB, PS. assert (PO : pairs_only (pre ++ [x; y] :: post)). { intros d D. rewrite Forall_forall in OKD. destruct (OKD d D) as (a & b & -> & _). eauto. }
  assert (POpre : pairs_only pre) by (intros d D; apply PO; apply in_or_app; left; exact D).
  apply Forall_app in OKD. destruct OKD as [OK1 OK2]. inversion OK2 as [|? ? (x0 & y0 & EQ & Hx & Hy) OK3]; subst. injection EQ as <- <-.
  assert (INP : forall a b, In [a; b] pre -> In [a; b] (pre ++ [x; y] :: post)) by (intros; apply in_or_app; left; assumption).
  assert (INXY : In [x; y] (pre ++ [x; y] :: post)) by (apply in_or_app; right; left; reflexivity).
  rewrite firsts_app in PB. rewrite seconds_app in PS. change (firsts ([x; y] :: post)) with (x :: firsts post) in PB. change (seconds ([x; y] :: post)) with (y :: seconds post) in PS.
  assert (EB : (0 <= eps * B)%Q).
  { destruct (REM x y INXY) as [_ _]. assert (X : (0 <= B)%Q); [|apply Qmult_le_0_compat; [discriminate|exact X]]. destruct bs as [|b0 bs0] eqn:EBS; [|inversion Pb; subst; lra].
    exfalso. apply Permutation_sym, Permutation_nil in PB. apply app_eq_nil in PB. destruct PB as [PB _]. apply app_eq_nil in PB. destruct PB as [_ PB]. discriminate PB. }
  assert (BAL : forall p1 p2, P = [p1; p2] -> (Qabs (dval p1 + dval p2) <= eps * B)%Q).
  { intros p1 p2 ->. destruct (fresult bs ss B Hb Hs Pb Ps HB1000 it incl) as (tb'' & ts'' & P'' & E & CC). rewrite H in E. injection E as <- <- <-.
    destruct CC as [(CC & _)|(_ & _ & _ & [(CC & _)|(q1 & q2 & ? & ? & ? & ? & ? & CC & (_ & _ & NP & _) & _)])]; [congruence|discriminate CC|]. injection CC as <- <-. exact NP. }
  assert (RAT : forall p1 p2, P = [p1; p2] -> (forall v, In v tb -> (dval p1 <= dval v + eps * B)%Q) /\ (forall v, In v ts -> (dval p2 <= dval v + eps * B)%Q)).
  { intros p1 p2 ->. apply (frational bs ss B Hb Hs Pb Ps HB1000 it incl tb ts p1 p2 H). }
  destruct C3 as [(o & (TI & TM) & EXT & EP & PT & PU)|(o & (TI & TM) & EXT & EP & PT & PU & NOX)].
  - (* a seller sets the price *)
    injection EP as ->. assert (BAL' := BAL _ _ eq_refl). destruct (RAT _ _ eq_refl) as [RT1 RT2].
    assert (HO : fseller o). { apply in_app_or in TI. destruct TI as [TI|TI]; [rewrite Forall_forall in FS; auto|]. destruct (seconds_In _ _ POpre TI) as (x' & I).
      rewrite Forall_forall in OK1. destruct (OK1 _ I) as (? & ? & EQ & ? & ?). injection EQ as <- <-. assumption. }
    assert (W := proj1 (external_iff incl B x o Hx HO) EXT).
    exists (pivot_price x (dot2 x o)), o, [], (firsts pre ++ rb0), (seconds pre ++ rs0), (- dval o)%Q. split; [reflexivity|].
    assert (OS : In o (seconds pre ++ rs0)).
    { apply in_or_app. apply in_app_or in TI. destruct TI as [TI|TI]; [|left; exact TI]. destruct (dummy_In _ _ TI) as [I|[_ ->]]; [right; exact I|exfalso].
      destruct dummy_value as [_ DV]. assert (WP := worth_pos _ _ _ W). rewrite DV in WP. destruct Hx as (_ & _ & Ux). lra. }
    constructor.
    + cbn [app]. eapply Permutation_trans; [apply Permutation_app_tail; exact PT|]. eapply Permutation_trans; [|exact PB]. cbn [app].
      rewrite <- app_assoc. cbn [app]. rewrite (Permutation_app_comm (firsts pre) rb0). rewrite <- Permutation_middle. apply perm_skip.
      rewrite (Permutation_app_comm (firsts pre)). rewrite <- app_assoc. apply Permutation_app_head. reflexivity.
    + eapply Permutation_trans; [apply Permutation_app_tail; exact PU|]. eapply Permutation_trans; [|exact PS]. cbn [app].
      rewrite <- app_assoc. cbn [app]. rewrite <- Permutation_middle. apply perm_skip. rewrite (Permutation_app_comm (seconds pre) rs0).
      rewrite (Permutation_app_comm (seconds pre)). rewrite <- app_assoc. apply Permutation_app_head. reflexivity.
    + rewrite app_nil_r, (Permutation_length PT), (Permutation_length PU). cbn [app length]. unfold firsts, seconds. rewrite !map_length. reflexivity.
    + rewrite (Permutation_length PU). cbn. lia.
    + assert (X : (dval (pivot_price x (dot2 x o)) - - dval o == dval (pivot_price x (dot2 x o)) + dval o)%Q) by lra. rewrite X. exact BAL'.
    + assert (X : (dval o + - dval o == 0)%Q) by lra. rewrite X. exact EB.
    + intros v V. specialize (RT1 v V). apply Qabs_Qle_condition in BAL'. lra.
    + intros w Iw. specialize (RT2 w Iw). lra.
    + intros v [].
    + (* the buyers who do not trade *)
      intros v V. assert (G : (dval v + dval o <= 0)%Q); [|lra].
      apply in_app_or in V. apply in_app_or in OS. destruct OS as [OS|OS].
      * destruct (seconds_In _ _ POpre OS) as (x2 & I2). assert (N2 := not_worth_le _ _ _ (C2 _ _ I2)). destruct V as [V|V].
        -- destruct (firsts_In _ _ POpre V) as (y1 & I1). assert (N1 := not_worth_le _ _ _ (C2 _ _ I1)). destruct (CMP _ _ _ _ (INP _ _ I1) (INP _ _ I2)) as [[A1 A2]|[A1 A2]]; lra.
        -- destruct (REM _ _ (INP _ _ I2)) as [R1 _]. assert (X : In v (dummy rb0)) by (destruct rb0; [destruct V|exact V]). specialize (R1 v X). lra.
      * assert (XS : In o (dummy rs0)) by (destruct rs0; [destruct OS|exact OS]). destruct V as [V|V].
        -- destruct (firsts_In _ _ POpre V) as (y1 & I1). assert (N1 := not_worth_le _ _ _ (C2 _ _ I1)). destruct (REM _ _ (INP _ _ I1)) as [_ R1]. specialize (R1 o XS). lra.
        -- assert (XV : In v (dummy rb0)) by (destruct rb0; [destruct V|exact V]). destruct pre as [|d pre'].
           ++ exfalso. cbn [app] in C1. destruct neg as [|d neg].
              ** destruct (EMP eq_refl) as [-> | ->]; [destruct V|destruct OS].
              ** cbn [app] in C1. injection C1 as -> _. destruct (NW [x; y] (or_introl eq_refl)) as (a & b & EQ & NN). injection EQ as <- <-.
                 destruct (REM x y INXY) as [_ R1]. specialize (R1 o XS). assert (WP := worth_pos _ _ _ W). lra.
           ++ destruct (POpre d (or_introl eq_refl)) as (a & b & ->). assert (N1 := not_worth_le _ _ _ (C2 a b (or_introl eq_refl))).
              destruct (REM a b (INP _ _ (or_introl eq_refl))) as [R1 R2]. specialize (R1 v XV). specialize (R2 o XS). lra.
    + intros w Iw. assert (G : (dval w <= dval o)%Q); [|lra]. apply TM. apply in_app_or in Iw. apply in_or_app. destruct Iw as [Iw|Iw]; [right; exact Iw|left]. destruct rs0; [destruct Iw|exact Iw].
    + right. exists o. split; [exact OS|lra].
  - (* the cancelled buyer sets the price *)
    injection EP as ->. assert (BAL' := BAL _ _ eq_refl). destruct (RAT _ _ eq_refl) as [RT1 RT2].
    assert (HO : fbuyer B o). { apply in_app_or in TI. destruct TI as [TI|TI]; [rewrite Forall_forall in FB; auto|]. apply in_app_or in TI. destruct TI as [TI|[<-|[]]]; [|exact Hx].
        destruct (firsts_In _ _ POpre TI) as (y' & I). rewrite Forall_forall in OK1. destruct (OK1 _ I) as (? & ? & EQ & ? & ?). injection EQ as <- <-. assumption. }
    assert (W := proj1 (external_iff incl B o y HO Hy) EXT).
    assert (OX : (dval o == dval x)%Q).
    { assert (A1 : (dval x <= dval o)%Q) by (apply TM; apply in_or_app; right; apply in_or_app; right; left; reflexivity). assert (A2 : (dval o <= dval x)%Q); [|lra].
      apply in_app_or in TI. destruct TI as [TI|TI]; [destruct (REM x y INXY) as [R1 _]; apply R1; exact TI|].
      apply in_app_or in TI. destruct TI as [TI|[<-|[]]]; [|lra]. destruct (firsts_In _ _ POpre TI) as (y' & I).
      destruct (CMP _ _ _ _ (INP _ _ I) INXY) as [[A3 _]|[_ A4]]; [exact A3|]. exfalso. apply (C2 _ _ I). apply (worth_mono _ o y); auto. lra. }
    exists o, (pivot_price y (dot2 o y)), [x], (firsts pre ++ rb0), (seconds pre ++ rs0), (dval o). split; [reflexivity|].
    constructor.
    + cbn [app]. eapply Permutation_trans; [apply Permutation_app_tail; exact PT|]. eapply Permutation_trans; [|exact PB]. cbn [app].
      rewrite <- Permutation_middle. rewrite <- app_assoc. cbn [app]. rewrite <- Permutation_middle. apply perm_skip.
      rewrite !app_assoc. apply Permutation_app_tail. apply Permutation_app_comm.
    + eapply Permutation_trans; [apply Permutation_app_tail; exact PU|]. eapply Permutation_trans; [|exact PS]. cbn [app].
      rewrite <- app_assoc. cbn [app]. rewrite <- Permutation_middle. apply perm_skip.
      rewrite !app_assoc. apply Permutation_app_tail. apply Permutation_app_comm.
    + rewrite app_length, (Permutation_length PT), (Permutation_length PU). cbn [app length]. unfold firsts, seconds. rewrite !map_length. lia.
    + rewrite (Permutation_length PU). cbn. lia.
    + assert (X : (dval o - dval o == 0)%Q) by lra. rewrite X. exact EB.
    + rewrite Qplus_comm. exact BAL'.
    + intros v V. specialize (RT1 v V). lra.
    + intros w Iw. specialize (RT2 w Iw). apply Qabs_Qle_condition in BAL'. lra.
    + intros v [<-|[]]. lra.
    + intros v V. apply TM. apply in_app_or in V. apply in_or_app. destruct V as [V|V]; [right; apply in_or_app; left; exact V|left]. destruct rb0; [destruct V|exact V].
    + intros w Iw. assert (G : (dval x + dval w <= 0)%Q); [|lra]. apply (not_worth_le incl). apply NOX. apply in_app_or in Iw. apply in_or_app. destruct Iw as [Iw|Iw]; [right; exact Iw|left]. destruct rs0; [destruct Iw|exact Iw].
    + left. discriminate.
Qed.
End Clear.
