(** * C105: the result of the trade-reduction protocol with doubles *)

From Coq Require Import String ZArith QArith Qpower Qabs List Lia Lqa Sorted Permutation.
From Coq Require Import SpecFloat.
From Verif Require Import Base Model_Agents Model_Market Model_Float Model_FloatMcAfee Model_FloatTradeReduction Spec_Float Spec_FloatMcAfee
  Spec_FloatTradeReduction Proof_Float Proof_Float2 Proof_FM1 Proof_FM2 Proof_FM3 Proof_FM4 Proof_FM6 Proof_FT1 Proof_FT2 Proof_FT3.
Import ListNotations.

Local Open Scope nat_scope.

Lemma seconds_In : forall (deals : list (list double)) o, pairs_only deals -> In o (seconds deals) -> exists x, In [x; o] deals.
Proof. intros deals o H O. apply in_map_iff in O. destruct O as (d & <- & D). destruct (H d D) as (x & y & ->). exists x. exact D. Qed.

Lemma firsts_In : forall (deals : list (list double)) o, pairs_only deals -> In o (firsts deals) -> exists y, In [o; y] deals.
Proof. intros deals o H O. apply in_map_iff in O. destruct O as (d & <- & D). destruct (H d D) as (x & y & ->). exists y. exact D. Qed.

Lemma sorted_app : forall A (R : A -> A -> Prop) l1 l2 a b, StronglySorted R (l1 ++ l2) -> In a l1 -> In b l2 -> R a b.
Proof.
  induction l1 as [|x l1 IH]; intros l2 a b S Ia Ib; [destruct Ia|]. cbn [app] in S. apply StronglySorted_inv in S. destruct S as [S1 S2]. destruct Ia as [<-|Ia]; [|apply (IH l2); assumption].
  rewrite Forall_forall in S2. apply S2. apply in_or_app. right. exact Ib.
Qed.

Section Result.
Variables (bs ss : list double) (B : Q).
Hypothesis Hb : Forall finite_double bs.
Hypothesis Hs : Forall finite_double ss.
Hypothesis Pb : Forall (fun b => 0 <= dval b <= B)%Q bs.
Hypothesis Ps : Forall (fun s => -100000000 <= dval s <= 0)%Q ss.
Hypothesis HB : (B <= Qpower 2 1000)%Q.

Definition near_prices (tb ts : list double) (p1 p2 : double) : Prop :=
  finite_double p1 /\ finite_double p2 /\ (Qabs (dval p1 + dval p2) <= eps * B)%Q
  /\ (forall v, In v tb -> (dval p1 <= dval v + eps * B)%Q) /\ (forall v, In v ts -> (dval p2 <= dval v + eps * B)%Q).

Lemma fresult : forall it incl, exists tb ts P, f_trade_reduction it [bs; ss] incl = Ok ([tb; ts], P) /\
  ((the_deals it bs ss = [] /\ tb = [] /\ ts = [] /\ P = Some [fint 0; fint 0]) \/
   exists neg, (neg = [] \/ exists x y, neg = [[x; y]] /\ In x bs /\ In y ss
        /\ (forall x' y', In [x'; y'] (f_by_gft (the_deals it bs ss)) -> (dval x <= dval x' /\ dval y <= dval y')%Q)
        /\ (length bs < it -> (dval x + dval y < 0)%Q)) /\ the_deals it bs ss <> [] /\
   ((P = None /\ tb = [] /\ ts = [] /\ (forall x y, In [x; y] (neg ++ f_by_gft (the_deals it bs ss)) -> ~ worth incl x y)) \/
    exists p1 p2 pre x y post o, P = Some [p1; p2] /\ near_prices tb ts p1 p2 /\
      neg ++ f_by_gft (the_deals it bs ss) = pre ++ [x; y] :: post /\ (forall x y, In [x; y] pre -> ~ worth incl x y) /\
      ((worth incl x o /\ ((dval o <= dval y)%Q \/ exists x', In [x'; o] pre)) /\ Permutation tb (x :: firsts post) /\ Permutation ts (y :: seconds post) \/
       (worth incl o y /\ ((dval o <= dval x)%Q \/ exists y', In [o; y'] pre)) /\ Permutation tb (firsts post) /\ Permutation ts (y :: seconds post)))).
Proof.
  intros it incl. destruct (the_deals it bs ss) as [|d0 l0] eqn:E0.
  - exists [], [], (Some [fint 0; fint 0]). split; [|left; auto]. unfold f_trade_reduction. cbn [map]. fold (the_deals it bs ss). rewrite E0. reflexivity.
  - rewrite <- E0 in *. assert (NE : the_deals it bs ss <> []) by (rewrite E0; discriminate). clear E0 d0 l0.
    destruct (setup bs ss B Hb Hs Pb Ps it incl NE) as (neg & rb & rs & -> & RB & RS & FB & FS & NEG & REM & _).
    assert (OKD : Forall (ok_deal B) (neg ++ f_by_gft (the_deals it bs ss))).
    { apply Forall_app. split; apply Forall_forall; intros d D.
      - destruct NEG as [->|(x & y & -> & X & Y & _)]; [destruct D|]. destruct D as [<-|[]]. exists x, y. split; [reflexivity|].
        split; [apply (buyer_ok bs B Hb Pb x X)|apply (seller_ok ss Hs Ps y Y)].
      - destruct (deal_facts bs ss B Hb Hs Pb Ps it d D) as (x & y & -> & _ & _ & X & Y & _). exists x, y. auto. }
    assert (EP : (0 <= eps * B)%Q).
    { assert (PM : Permutation (f_by_gft (the_deals it bs ss)) (the_deals it bs ss)) by apply isort_perm.
      destruct (f_by_gft (the_deals it bs ss)) as [|d l] eqn:E; [apply Permutation_nil in PM; congruence|].
      destruct (deal_facts bs ss B Hb Hs Pb Ps it d ltac:(rewrite E; left; reflexivity)) as (x & y & _ & _ & _ & (_ & _ & U) & _ & N & _). apply Qmult_le_0_compat; [discriminate|lra]. }
    destruct (run incl B _ rb rs [] [] OKD RB RS FB FS) as (tb & ts & P & rem & RUN & C). rewrite RUN. cbn [bind ftr_traders ftr_prices].
    exists tb, ts, P. split; [reflexivity|]. right. exists neg. split; [exact NEG|]. split; [exact NE|].
    destruct C as [(C1 & C2 & C3 & C4)|(pre & x & y & post & C1 & C2 & C3)]; [left; auto|]. right.
    rewrite C1 in OKD. assert (PO : pairs_only (pre ++ [x; y] :: post)). { intros d D. rewrite Forall_forall in OKD. destruct (OKD d D) as (a & b & -> & _). eauto. }
    assert (POpre : pairs_only pre) by (intros d D; apply PO; apply in_or_app; left; exact D).
    assert (POpost : pairs_only post) by (intros d D; apply PO; apply in_or_app; right; right; exact D).
    apply Forall_app in OKD. destruct OKD as [OK1 OK2]. inversion OK2 as [|? ? (x0 & y0 & EQ & Hx & Hy) OK3]; subst. injection EQ as <- <-.
    rewrite Forall_forall in OK1, OK3.
    (* the order of the competing sets *)
    assert (ORD : forall x1 y1 x2 y2, In [x1; y1] (pre ++ [[x; y]]) -> In [x2; y2] post \/ In [x1; y1] pre /\ [x2; y2] = [x; y] ->
        (dval x1 <= dval x2 + eps * B /\ dval y1 <= dval y2 + eps * B)%Q).
    { assert (S := gains_sorted bs ss B Hb Hs Pb Ps it).
      assert (ST : forall l1 l2 x1 y1 x2 y2, l1 ++ l2 = f_by_gft (the_deals it bs ss) -> In [x1; y1] l1 -> In [x2; y2] l2 -> (dval x1 <= dval x2 + eps * B /\ dval y1 <= dval y2 + eps * B)%Q).
      { intros l1 l2 x1 y1 x2 y2 EQ I1 I2. apply (nearly_ordered bs ss B Hb Hs Pb Ps it).
        - rewrite <- EQ. apply in_or_app. left. exact I1.
        - rewrite <- EQ. apply in_or_app. right. exact I2.
        - rewrite <- EQ in S. apply (sorted_app _ _ _ _ _ _ S I1 I2). }
      assert (AL : forall l1 l2 x1 y1 x2 y2, l1 ++ l2 = neg ++ f_by_gft (the_deals it bs ss) -> In [x1; y1] l1 -> In [x2; y2] l2 -> (dval x1 <= dval x2 + eps * B /\ dval y1 <= dval y2 + eps * B)%Q).
      { intros l1 l2 x1 y1 x2 y2 EQ I1 I2. destruct NEG as [->|(h1 & h2 & -> & _ & _ & LE & _)]; [apply (ST l1 l2); auto|].
        destruct l1 as [|d l1]; [destruct I1|]. cbn [app] in EQ. injection EQ as -> EQ. destruct I1 as [I1|I1]; [|apply (ST l1 l2); auto].
        injection I1 as <- <-. destruct (LE x2 y2); [rewrite <- EQ; apply in_or_app; right; exact I2|]. split; lra. }
      intros x1 y1 x2 y2 I1 [I2|[I1' I2]].
      - apply (AL (pre ++ [[x; y]]) post); auto. rewrite C1, <- app_assoc. reflexivity.
      - apply (AL pre ([x; y] :: post)); auto. rewrite I2. left. reflexivity. }
    assert (REM' : forall x1 y1, In [x1; y1] (pre ++ [x; y] :: post) -> (forall r, In r rb -> (dval r <= dval x1)%Q) /\ (forall r, In r rs -> (dval r <= dval y1)%Q)) by (rewrite <- C1; exact REM).
    assert (XY : In [x; y] (pre ++ [[x; y]])) by (apply in_or_app; right; left; reflexivity).
    assert (BX : forall x1 y1, In [x1; y1] pre \/ In [x1; y1] post -> fbuyer B x1 /\ fseller y1).
    { intros x1 y1 [I|I]; [destruct (OK1 _ I) as (? & ? & EQ & ? & ?)|destruct (OK3 _ I) as (? & ? & EQ & ? & ?)]; injection EQ as <- <-; auto. }
    destruct C3 as [(o & TOP & EXT & -> & PT & PS)|(o & TOP & EXT & -> & PT & PS & _)].
    + destruct TOP as [TI TM].
      assert (HO : fseller o). { apply in_app_or in TI. destruct TI as [TI|TI]; [rewrite Forall_forall in FS; auto|]. destruct (seconds_In _ _ POpre TI) as (x' & I). apply (BX x' o). left. exact I. }
      assert (W := proj1 (external_iff incl B x o Hx HO) EXT). assert (POS : (0 <= dval x + dval o)%Q) by (destruct W as [W|[_ W]]; lra).
      destruct (pivot_price_le B x o x Hx HO (or_introl eq_refl) POS HB) as [PF PL].
      assert (PBAL := pivot_balance B x o x o Hx HO (or_introl (conj eq_refl eq_refl)) POS HB).
      exists (pivot_price x (dot2 x o)), o, pre, x, y, post, o. split; [reflexivity|]. split; [|split; [exact C1|split; [exact C2|]]].
      * split; [exact PF|]. split; [apply HO|]. split; [exact PBAL|]. split; intros v V.
        -- apply (Permutation_in _ PT) in V. cbn [app] in V. destruct V as [<-|V]; [lra|]. destruct (firsts_In _ _ POpost V) as (w & I).
           destruct (ORD x y v w XY (or_introl I)). lra.
        -- apply (Permutation_in _ PS) in V. cbn [app] in V.
           assert (IV : exists w, In [w; v] ([x; y] :: post)). { destruct V as [<-|V]; [exists x; left; reflexivity|]. destruct (seconds_In _ _ POpost V) as (w & I). exists w. right. exact I. }
           destruct IV as (w & IV). apply in_app_or in TI. destruct TI as [TI|TI].
           ++ destruct (REM' w v) as [_ RR]; [apply in_or_app; right; exact IV|]. specialize (RR o TI). lra.
           ++ destruct (seconds_In _ _ POpre TI) as (x' & I). destruct (ORD x' o w v) as [_ G]; [apply in_or_app; left; exact I| |exact G].
              destruct IV as [IV|IV]; [right; split; [exact I|symmetry; exact IV]|left; exact IV].
      * left. split; [|split; assumption]. split; [exact W|]. apply in_app_or in TI. destruct TI as [TI|TI].
        -- left. destruct (REM' x y) as [_ RR]; [apply in_or_app; right; left; reflexivity|]. apply RR. exact TI.
        -- right. apply (seconds_In _ _ POpre TI).
    + destruct TOP as [TI TM].
      assert (HO : fbuyer B o). { apply in_app_or in TI. destruct TI as [TI|TI]; [rewrite Forall_forall in FB; auto|]. apply in_app_or in TI. destruct TI as [TI|[<-|[]]]; [|exact Hx].
        destruct (firsts_In _ _ POpre TI) as (y' & I). apply (BX o y'). left. exact I. }
      assert (W := proj1 (external_iff incl B o y HO Hy) EXT). assert (POS : (0 <= dval o + dval y)%Q) by (destruct W as [W|[_ W]]; lra).
      destruct (pivot_price_le B o y y HO Hy (or_intror eq_refl) POS HB) as [PF PL].
      assert (PBAL := pivot_balance B o y y o HO Hy (or_intror (conj eq_refl eq_refl)) POS HB).
      exists o, (pivot_price y (dot2 o y)), pre, x, y, post, o. split; [reflexivity|]. split; [|split; [exact C1|split; [exact C2|]]].
      * split; [apply HO|]. split; [exact PF|]. split; [rewrite Qplus_comm; exact PBAL|]. split; intros v V.
        -- apply (Permutation_in _ PT) in V. cbn [app] in V. destruct (firsts_In _ _ POpost V) as (w & IV).
           apply in_app_or in TI. destruct TI as [TI|TI].
           ++ destruct (REM' v w) as [RR _]; [apply in_or_app; right; right; exact IV|]. specialize (RR o TI). lra.
           ++ apply in_app_or in TI. destruct TI as [TI|[<-|[]]].
              ** destruct (firsts_In _ _ POpre TI) as (y' & I). destruct (ORD o y' v w) as [G _]; [apply in_or_app; left; exact I|left; exact IV|exact G].
              ** destruct (ORD x y v w XY (or_introl IV)) as [G _]. exact G.
        -- apply (Permutation_in _ PS) in V. cbn [app] in V. destruct V as [<-|V]; [lra|]. destruct (seconds_In _ _ POpost V) as (w & I).
           destruct (ORD x y w v XY (or_introl I)). lra.
      * right. split; [|split; assumption]. split; [exact W|]. apply in_app_or in TI. destruct TI as [TI|TI].
        -- left. destruct (REM' x y) as [RR _]; [apply in_or_app; right; left; reflexivity|]. apply RR. exact TI.
        -- apply in_app_or in TI. destruct TI as [TI|[<-|[]]]; [right; apply (firsts_In _ _ POpre TI)|left; apply Qle_refl].
Qed.
End Result.
