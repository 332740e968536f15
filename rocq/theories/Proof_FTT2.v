(** * C117: nobody gains more than the rounding by a false report *)

From Coq Require Import String ZArith QArith Qpower Qabs List Lia Lqa Sorted Permutation.
From Coq Require Import SpecFloat.
From Verif Require Import Base Model_Agents Model_Market Model_Float Model_FloatMcAfee Model_FloatTradeReduction Spec_Float Spec_FloatMcAfee
  Spec_FloatTradeReduction Spec_FloatReductionTruth Proof_Float2 Proof_FM1 Proof_FM2 Proof_FM3 Proof_FM4 Proof_FM6 Proof_FT1 Proof_FT5 Proof_FTT.
Import ListNotations.

Local Open Scope nat_scope.

(** The numbers of agents who value the item more than [q]. *)
Definition nb (q : Q) (l : list double) : nat := length (filter (fun v => Qlt_bool q (dval v)) l).
Definition ns (q : Q) (l : list double) : nat := length (filter (fun w => Qlt_bool q (- dval w)) l).

Lemma nb_app : forall q a b, nb q (a ++ b) = nb q a + nb q b. Proof. intros. unfold nb. rewrite filter_app, app_length. reflexivity. Qed.
Lemma ns_app : forall q a b, ns q (a ++ b) = ns q a + ns q b. Proof. intros. unfold ns. rewrite filter_app, app_length. reflexivity. Qed.
Lemma nb_perm : forall q a b, Permutation a b -> nb q a = nb q b. Proof. intros. apply Permutation_length, filter_perm. assumption. Qed.
Lemma ns_perm : forall q a b, Permutation a b -> ns q a = ns q b. Proof. intros. apply Permutation_length, filter_perm. assumption. Qed.
Lemma flen : forall A (f : A -> bool) l, length (filter f l) <= length l. Proof. intros A f l. induction l as [|a l IH]; cbn; [lia|]. destruct (f a); cbn; lia. Qed.
Lemma nb_le : forall q l, nb q l <= length l. Proof. intros. apply flen. Qed.
Lemma ns_le : forall q l, ns q l <= length l. Proof. intros. apply flen. Qed.
Lemma nb_all : forall q l, (forall v, In v l -> (q < dval v)%Q) -> nb q l = length l.
Proof. intros q l H. unfold nb. rewrite filter_all; [reflexivity|]. intros v V. apply Qlt_bool_iff. apply H. exact V. Qed.
Lemma ns_all : forall q l, (forall v, In v l -> (q < - dval v)%Q) -> ns q l = length l.
Proof. intros q l H. unfold ns. rewrite filter_all; [reflexivity|]. intros v V. apply Qlt_bool_iff. apply H. exact V. Qed.
Lemma nb_none : forall q l, (forall v, In v l -> (dval v <= q)%Q) -> nb q l = 0.
Proof. intros q l H. unfold nb. rewrite filter_none; [reflexivity|]. intros v V. apply Qlt_bool_false. apply H. exact V. Qed.
Lemma ns_none : forall q l, (forall v, In v l -> (- dval v <= q)%Q) -> ns q l = 0.
Proof. intros q l H. unfold ns. rewrite filter_none; [reflexivity|]. intros v V. apply Qlt_bool_false. apply H. exact V. Qed.
Lemma nb_cons : forall q v l, nb q (v :: l) <= 1 + nb q l /\ nb q l <= nb q (v :: l).
Proof. intros q v l. unfold nb. cbn [filter]. destruct (Qlt_bool q (dval v)); cbn [length]; lia. Qed.
Lemma ns_cons : forall q v l, ns q l <= ns q (v :: l).
Proof. intros q v l. unfold ns. cbn [filter]. destruct (Qlt_bool q (- dval v)); cbn [length]; lia. Qed.
Lemma ns_in : forall q w l, In w l -> (- dval w <= q)%Q -> ns q l + 1 <= length l.
Proof.
  intros q w l I H. apply in_split in I. destruct I as (a & b & ->). rewrite ns_app, app_length. unfold ns at 2. cbn [filter]. rewrite (proj2 (Qlt_bool_false q (- dval w)) H).
  fold (ns q b). cbn [length]. assert (X := ns_le q a). assert (Y := ns_le q b). lia.
Qed.

Section Two.
Variables (bs ss tb ts rb wb ws : list double) (p1 p2 : double) (E c : Q).
Hypothesis C : clears bs ss tb ts rb wb ws p1 p2 E c.
Hypothesis HE : (0 <= E)%Q.

(** Below the price: at least as many agents as there are items value it more. *)
Lemma many_above : forall q, (q + 2 * E < c)%Q -> nb q (tb ++ rb) = length ts /\ ns q ws = length ws.
Proof.
  intros q Hq. split.
  - rewrite <- (c_len _ _ _ _ _ _ _ _ _ _ _ C). apply nb_all. intros v V. apply in_app_or in V. destruct V as [V|V].
    + assert (X := c_tb _ _ _ _ _ _ _ _ _ _ _ C v V). lra.
    + assert (X := c_rb _ _ _ _ _ _ _ _ _ _ _ C v V). lra.
  - apply ns_all. intros w W. assert (X := c_ws _ _ _ _ _ _ _ _ _ _ _ C w W). lra.
Qed.

(** Above the price: those who do not get an item value it less, and so does one of the others. *)
Lemma few_above : forall q, (c + 2 * E <= q)%Q -> nb q wb = 0 /\ ns q ts = 0 /\ nb q rb = 0 /\ (length rb + ns q ws + 1 <= length rb + length ws \/ 1 <= length rb).
Proof.
  intros q Hq. split; [|split; [|split]].
  - apply nb_none. intros v V. assert (X := c_wb _ _ _ _ _ _ _ _ _ _ _ C v V). lra.
  - apply ns_none. intros w W. assert (X := c_ts _ _ _ _ _ _ _ _ _ _ _ C w W). lra.
  - apply nb_none. intros v V. assert (X := c_rb _ _ _ _ _ _ _ _ _ _ _ C v V). lra.
  - destruct (c_set _ _ _ _ _ _ _ _ _ _ _ C) as [S|(w & W & EW)].
    + right. destruct rb; [congruence|cbn; lia].
    + left. assert (X := ns_in q w ws W ltac:(lra)). lia.
Qed.
End Two.

Lemma sellers_count : forall bs ss tb ts rb wb ws p1 p2 E c, clears bs ss tb ts rb wb ws p1 p2 E c -> length ss = length ts + length ws.
Proof. intros bs ss tb ts rb wb ws p1 p2 E c C. rewrite <- (Permutation_length (c_ss _ _ _ _ _ _ _ _ _ _ _ C)), app_length. reflexivity. Qed.

(** A buyer who trades with a false report cannot have lowered the price. *)
Lemma buyer_price : forall pre post ss v v' tb ts rb wb ws p1 p2 tb' ts' rb' wb' ws' p1' p2' E c c', (0 <= E)%Q ->
  clears (pre ++ v :: post) ss tb ts rb wb ws p1 p2 E c -> clears (pre ++ v' :: post) ss tb' ts' rb' wb' ws' p1' p2' E c' -> In v' tb' -> (c <= c' + 4 * E)%Q.
Proof.
  intros pre post ss v v' tb ts rb wb ws p1 p2 tb' ts' rb' wb' ws' p1' p2' E c c' HE C C' I.
  destruct (Qlt_le_dec (c' + 4 * E) c) as [G|G]; [exfalso|exact G].
  destruct (many_above _ _ _ _ _ _ _ _ _ _ _ C HE (c' + 2 * E)%Q ltac:(lra)) as [A1 A2].
  destruct (few_above _ _ _ _ _ _ _ _ _ _ _ C' HE (c' + 2 * E)%Q ltac:(lra)) as (B1 & B2 & B3 & B4). set (q := (c' + 2 * E)%Q) in *.
  assert (T := nb_perm q _ _ (c_bs _ _ _ _ _ _ _ _ _ _ _ C)). assert (T' := c_bs _ _ _ _ _ _ _ _ _ _ _ C').
  apply in_split in I. destruct I as (t1 & t2 & ET).
  assert (PO : Permutation ((t1 ++ t2) ++ rb' ++ wb') (pre ++ post)).
  { apply (Permutation_cons_inv (a := v')). eapply Permutation_trans; [|apply Permutation_sym, Permutation_middle]. eapply Permutation_trans; [|exact T']. rewrite ET.
    change (v' :: (t1 ++ t2) ++ rb' ++ wb') with ((v' :: t1 ++ t2) ++ rb' ++ wb'). apply Permutation_app_tail. apply Permutation_middle. }
  apply (nb_perm q) in PO. rewrite !nb_app in PO. rewrite <- (nb_perm q _ _ (Permutation_middle pre post v)) in T. rewrite app_assoc, !nb_app in T. rewrite nb_app in A1.
  destruct (nb_cons q v (pre ++ post)) as [N1 _]. rewrite nb_app in N1.
  assert (S := ns_perm q _ _ (c_ss _ _ _ _ _ _ _ _ _ _ _ C)). assert (S' := ns_perm q _ _ (c_ss _ _ _ _ _ _ _ _ _ _ _ C')). rewrite ns_app in S, S'.
  assert (L := sellers_count _ _ _ _ _ _ _ _ _ _ _ C). assert (L' := sellers_count _ _ _ _ _ _ _ _ _ _ _ C').
  assert (K' := c_len _ _ _ _ _ _ _ _ _ _ _ C'). rewrite ET, !app_length in K'. cbn [length] in K'.
  assert (X1 := nb_le q t1). assert (X2 := nb_le q t2). assert (X3 := ns_le q ws'). lia.
Qed.

Lemma seller_price : forall bs pre post v v' tb ts rb wb ws p1 p2 tb' ts' rb' wb' ws' p1' p2' E c c', (0 <= E)%Q ->
  clears bs (pre ++ v :: post) tb ts rb wb ws p1 p2 E c -> clears bs (pre ++ v' :: post) tb' ts' rb' wb' ws' p1' p2' E c' -> In v' ts' -> (c' <= c + 4 * E)%Q.
Proof.
  intros bs pre post v v' tb ts rb wb ws p1 p2 tb' ts' rb' wb' ws' p1' p2' E c c' HE C C' I.
  destruct (Qlt_le_dec (c + 4 * E) c') as [G|G]; [exfalso|exact G].
  destruct (many_above _ _ _ _ _ _ _ _ _ _ _ C' HE (c + 2 * E)%Q ltac:(lra)) as [A1 A2].
  destruct (few_above _ _ _ _ _ _ _ _ _ _ _ C HE (c + 2 * E)%Q ltac:(lra)) as (B1 & B2 & B3 & B4). set (q := (c + 2 * E)%Q) in *.
  assert (T := nb_perm q _ _ (c_bs _ _ _ _ _ _ _ _ _ _ _ C)). assert (T' := nb_perm q _ _ (c_bs _ _ _ _ _ _ _ _ _ _ _ C')). rewrite app_assoc, !nb_app in T, T'. rewrite nb_app in A1.
  assert (S' := c_ss _ _ _ _ _ _ _ _ _ _ _ C').
  apply in_split in I. destruct I as (t1 & t2 & ET).
  assert (PO : Permutation ((t1 ++ t2) ++ ws') (pre ++ post)).
  { apply (Permutation_cons_inv (a := v')). eapply Permutation_trans; [|apply Permutation_sym, Permutation_middle]. eapply Permutation_trans; [|exact S']. rewrite ET.
    change (v' :: (t1 ++ t2) ++ ws') with ((v' :: t1 ++ t2) ++ ws'). apply Permutation_app_tail. apply Permutation_middle. }
  apply (ns_perm q) in PO. rewrite !ns_app in PO.
  assert (S := ns_perm q _ _ (c_ss _ _ _ _ _ _ _ _ _ _ _ C)). rewrite <- (ns_perm q _ _ (Permutation_middle pre post v)), ns_app in S. assert (N1 := ns_cons q v (pre ++ post)). rewrite ns_app in N1.
  assert (L := sellers_count _ _ _ _ _ _ _ _ _ _ _ C). assert (L' := sellers_count _ _ _ _ _ _ _ _ _ _ _ C'). rewrite !app_length in L, L'. cbn [length] in L, L'.
  assert (K := c_len _ _ _ _ _ _ _ _ _ _ _ C). rewrite app_length in K. assert (K' := c_len _ _ _ _ _ _ _ _ _ _ _ C'). rewrite app_length in K'.
  assert (X1 := nb_le q tb). assert (X3 := ns_le q ws). lia.
Qed.

Section Gain.
Variables (bs ss tb ts rb wb ws : list double) (p1 p2 : double) (E c : Q).
Hypothesis C : clears bs ss tb ts rb wb ws p1 p2 E c.
Hypothesis HE : (0 <= E)%Q.

(** An agent who reports the truth gains as much as at the price [c], nearly. *)
Lemma buyer_gain : forall v u, reduction_gain 0 bs tb (Some [p1; p2]) v v u -> (dval v - c <= u + E /\ - (3 * E) <= u)%Q.
Proof.
  intros v u [(I & prices & price & EP & NP & EU)|[(others & PO & I) EU]].
  - injection EP as <-. cbn in NP. injection NP as <-. assert (X := c_p1 _ _ _ _ _ _ _ _ _ _ _ C). apply Qabs_Qle_condition in X. assert (Y := c_tb _ _ _ _ _ _ _ _ _ _ _ C v I). split; lra.
  - assert (PO' : Permutation others (rb ++ wb)).
    { apply (Permutation_app_inv_l tb). eapply Permutation_trans; [exact PO|]. apply Permutation_sym. apply (c_bs _ _ _ _ _ _ _ _ _ _ _ C). }
    apply (Permutation_in _ PO') in I. apply in_app_or in I. destruct I as [I|I].
    + assert (X := c_rb _ _ _ _ _ _ _ _ _ _ _ C v I). split; lra.
    + assert (X := c_wb _ _ _ _ _ _ _ _ _ _ _ C v I). split; lra.
Qed.

Lemma seller_gain : forall v u, reduction_gain 1 ss ts (Some [p1; p2]) v v u -> (dval v + c <= u + E /\ - (3 * E) <= u)%Q.
Proof.
  intros v u [(I & prices & price & EP & NP & EU)|[(others & PO & I) EU]].
  - injection EP as <-. cbn in NP. injection NP as <-. assert (X := c_p2 _ _ _ _ _ _ _ _ _ _ _ C). apply Qabs_Qle_condition in X. assert (Y := c_ts _ _ _ _ _ _ _ _ _ _ _ C v I). split; lra.
  - assert (PO' : Permutation others ws).
    { apply (Permutation_app_inv_l ts). eapply Permutation_trans; [exact PO|]. apply Permutation_sym. apply (c_ss _ _ _ _ _ _ _ _ _ _ _ C). }
    apply (Permutation_in _ PO') in I. assert (X := c_ws _ _ _ _ _ _ _ _ _ _ _ C v I). split; lra.
Qed.

Lemma buyer_lie : forall v v' u, reduction_gain 0 bs tb (Some [p1; p2]) v' v u -> (u == 0 \/ (In v' tb /\ u <= dval v - c + E))%Q.
Proof.
  intros v v' u [(I & prices & price & EP & NP & EU)|[_ EU]]; [right|left; exact EU].
  injection EP as <-. cbn in NP. injection NP as <-. split; [exact I|]. assert (X := c_p1 _ _ _ _ _ _ _ _ _ _ _ C). apply Qabs_Qle_condition in X. lra.
Qed.

Lemma seller_lie : forall v v' u, reduction_gain 1 ss ts (Some [p1; p2]) v' v u -> (u == 0 \/ (In v' ts /\ u <= dval v + c + E))%Q.
Proof.
  intros v v' u [(I & prices & price & EP & NP & EU)|[_ EU]]; [right|left; exact EU].
  injection EP as <-. cbn in NP. injection NP as <-. split; [exact I|]. assert (X := c_p2 _ _ _ _ _ _ _ _ _ _ _ C). apply Qabs_Qle_condition in X. lra.
Qed.
End Gain.

Lemma no_traders : forall i l P v' v u, reduction_gain i l [] P v' v u -> (u == 0)%Q.
Proof. intros i l P v' v u [([] & _)|[_ H]]. exact H. Qed.

Lemma swap_Forall : forall (R : double -> Prop) pre v v' post, Forall R (pre ++ v :: post) -> R v' -> Forall R (pre ++ v' :: post).
Proof. intros R pre v v' post F H. apply Forall_app in F. destruct F as [F1 F2]. inversion F2; subst. apply Forall_app. split; [assumption|constructor; assumption]. Qed.

Theorem buyer_near_truth : forall it incl pre post ss v v' B tb ts P tb' ts' P' u u',
  Forall finite_double (pre ++ v :: post) -> finite_double v' -> Forall finite_double ss ->
  Forall (fun b => 0 <= dval b <= B)%Q (pre ++ v :: post) -> (0 <= dval v' <= B)%Q -> Forall (fun s => -100000000 <= dval s <= 0)%Q ss -> (B < 100000000)%Q ->
  length (pre ++ v :: post) < it ->
  f_trade_reduction it [pre ++ v :: post; ss] incl = Ok ([tb; ts], P) -> f_trade_reduction it [pre ++ v' :: post; ss] incl = Ok ([tb'; ts'], P') ->
  reduction_gain 0 (pre ++ v :: post) tb P v v u -> reduction_gain 0 (pre ++ v' :: post) tb' P' v' v u' ->
  (u' <= u + 6 * ((1 # 4503599627370496) * B))%Q.
Proof.
  intros it incl pre post ss v v' B tb ts P tb' ts' P' u u' F Fv' FS VB Vv' VS HB CAP H H' G G'.
  assert (F' := swap_Forall _ _ _ v' _ F Fv'). assert (VB' := swap_Forall _ _ _ v' _ VB Vv').
  assert (CAP' : length (pre ++ v' :: post) < it) by (rewrite app_length in *; cbn [length] in *; exact CAP).
  assert (B0 : (0 <= B)%Q) by (apply Forall_app in VB; destruct VB as [_ VB]; inversion VB; subst; lra).
  change (1 # 4503599627370496)%Q with eps. set (E := (eps * B)%Q). assert (HE : (0 <= E)%Q) by (apply Qmult_le_0_compat; [discriminate|exact B0]).
  destruct (fclear _ ss B F FS VB VS HB it incl tb ts P CAP H) as [(T1 & T2 & ALL)|(p1 & p2 & rb & wb & ws & c & -> & C)];
  destruct (fclear _ ss B F' FS VB' VS HB it incl tb' ts' P' CAP' H') as [(T1' & T2' & _)|(p1' & p2' & rb' & wb' & ws' & c' & -> & C')].
  - subst. apply no_traders in G. apply no_traders in G'. lra.
  - subst. apply no_traders in G. fold E in C'. destruct (buyer_lie _ _ _ _ _ _ _ _ _ _ _ C' _ _ _ G') as [Z|[_ U]]; [lra|].
    assert (POS := c_pos _ _ _ _ _ _ _ _ _ _ _ C'). assert (TS := c_ts _ _ _ _ _ _ _ _ _ _ _ C'). assert (PS := c_ss _ _ _ _ _ _ _ _ _ _ _ C').
    destruct ts' as [|w ts']; [cbn in POS; lia|]. specialize (TS w (or_introl eq_refl)).
    assert (X := ALL v w ltac:(apply in_or_app; right; left; reflexivity) (Permutation_in _ PS (or_introl eq_refl))). lra.
  - subst tb'. apply no_traders in G'. fold E in C. destruct (buyer_gain _ _ _ _ _ _ _ _ _ _ _ C HE _ _ G) as [_ U]. lra.
  - fold E in C, C'. destruct (buyer_gain _ _ _ _ _ _ _ _ _ _ _ C HE _ _ G) as [U1 U2]. destruct (buyer_lie _ _ _ _ _ _ _ _ _ _ _ C' _ _ _ G') as [Z|[I U]]; [lra|].
    assert (X := buyer_price _ _ _ _ _ _ _ _ _ _ _ _ _ _ _ _ _ _ _ _ _ _ HE C C' I). lra.
Qed.

Theorem seller_near_truth : forall it incl bs pre post v v' B tb ts P tb' ts' P' u u', (0 <= B)%Q ->
  Forall finite_double bs -> Forall finite_double (pre ++ v :: post) -> finite_double v' ->
  Forall (fun b => 0 <= dval b <= B)%Q bs -> Forall (fun s => -100000000 <= dval s <= 0)%Q (pre ++ v :: post) -> (-100000000 <= dval v' <= 0)%Q -> (B < 100000000)%Q ->
  length bs < it ->
  f_trade_reduction it [bs; pre ++ v :: post] incl = Ok ([tb; ts], P) -> f_trade_reduction it [bs; pre ++ v' :: post] incl = Ok ([tb'; ts'], P') ->
  reduction_gain 1 (pre ++ v :: post) ts P v v u -> reduction_gain 1 (pre ++ v' :: post) ts' P' v' v u' ->
  (u' <= u + 6 * ((1 # 4503599627370496) * B))%Q.
Proof.
  intros it incl bs pre post v v' B tb ts P tb' ts' P' u u' B0 FB F Fv' VB VS Vv' HB CAP H H' G G'.
  assert (F' := swap_Forall _ _ _ v' _ F Fv'). assert (VS' := swap_Forall _ _ _ v' _ VS Vv').
  change (1 # 4503599627370496)%Q with eps. set (E := (eps * B)%Q). assert (HE : (0 <= E)%Q) by (apply Qmult_le_0_compat; [discriminate|exact B0]).
  destruct (fclear bs _ B FB F VB VS HB it incl tb ts P CAP H) as [(T1 & T2 & ALL)|(p1 & p2 & rb & wb & ws & c & -> & C)];
  destruct (fclear bs _ B FB F' VB VS' HB it incl tb' ts' P' CAP H') as [(T1' & T2' & _)|(p1' & p2' & rb' & wb' & ws' & c' & -> & C')].
  - subst. apply no_traders in G. apply no_traders in G'. lra.
  - subst. apply no_traders in G. fold E in C'. destruct (seller_lie _ _ _ _ _ _ _ _ _ _ _ C' _ _ _ G') as [Z|[_ U]]; [lra|].
    assert (POS := c_pos _ _ _ _ _ _ _ _ _ _ _ C'). assert (LL := c_len _ _ _ _ _ _ _ _ _ _ _ C'). assert (TB := c_tb _ _ _ _ _ _ _ _ _ _ _ C'). assert (RB := c_rb _ _ _ _ _ _ _ _ _ _ _ C'). assert (PB := c_bs _ _ _ _ _ _ _ _ _ _ _ C').
    rewrite app_assoc in PB. destruct (tb' ++ rb') as [|b l] eqn:EL; [cbn in LL; lia|].
    assert (LB : (c' <= dval b + 2 * E)%Q).
    { assert (IB : In b (tb' ++ rb')) by (rewrite EL; left; reflexivity). apply in_app_or in IB. destruct IB as [IB|IB]; [apply TB; exact IB|]. specialize (RB b IB). lra. }
    assert (X := ALL b v (Permutation_in _ PB (or_introl eq_refl)) ltac:(apply in_or_app; right; left; reflexivity)). lra.
  - subst ts'. apply no_traders in G'. fold E in C. destruct (seller_gain _ _ _ _ _ _ _ _ _ _ _ C HE _ _ G) as [_ U]. lra.
  - fold E in C, C'. destruct (seller_gain _ _ _ _ _ _ _ _ _ _ _ C HE _ _ G) as [U1 U2]. destruct (seller_lie _ _ _ _ _ _ _ _ _ _ _ C' _ _ _ G') as [Z|[I U]]; [lra|].
    assert (X := seller_price _ _ _ _ _ _ _ _ _ _ _ _ _ _ _ _ _ _ _ _ _ _ HE C C' I). lra.
Qed.

(** ** The price *)

Lemma flength : forall A (f : A -> bool) l, (forall x, In x l -> f x = true) -> length (filter f l) = length l.
Proof. intros A f l H. rewrite filter_all; auto. Qed.

Lemma clears_price : forall bs ss tb ts rb wb ws p1 p2 E c, clears bs ss tb ts rb wb ws p1 p2 E c -> (0 <= E)%Q ->
  length (filter (fun x => Qlt_bool (dval p1 + 3 * E) x) (map dval bs ++ map (fun s => - dval s)%Q ss)) < length ss
  /\ length ss <= length (filter (fun x => Qle_bool (dval p1 - 3 * E) x) (map dval bs ++ map (fun s => - dval s)%Q ss)).
Proof.
  intros bs ss tb ts rb wb ws p1 p2 E c C HE. assert (P1 := c_p1 _ _ _ _ _ _ _ _ _ _ _ C). apply Qabs_Qle_condition in P1.
  assert (FM : forall (f : Q -> bool) (g : double -> Q) l, length (filter f (map g l)) = length (filter (fun x => f (g x)) l)).
  { intros f g l. induction l as [|a l IH]; [reflexivity|]. cbn [map filter]. destruct (f (g a)); cbn [length]; rewrite IH; reflexivity. }
  rewrite !filter_app, !app_length, !FM. assert (LS := sellers_count _ _ _ _ _ _ _ _ _ _ _ C). assert (K := c_len _ _ _ _ _ _ _ _ _ _ _ C). rewrite app_length in K. split.
  - fold (nb (dval p1 + 3 * E) bs). fold (ns (dval p1 + 3 * E) ss).
    destruct (few_above _ _ _ _ _ _ _ _ _ _ _ C HE (dval p1 + 3 * E)%Q ltac:(lra)) as (B1 & B2 & B3 & B4). set (q := (dval p1 + 3 * E)%Q) in *.
    assert (T := nb_perm q _ _ (c_bs _ _ _ _ _ _ _ _ _ _ _ C)). rewrite !nb_app in T. assert (S := ns_perm q _ _ (c_ss _ _ _ _ _ _ _ _ _ _ _ C)). rewrite ns_app in S.
    assert (X1 := nb_le q tb). assert (X2 := ns_le q ws). lia.
  - assert (T := Permutation_length (filter_perm _ (fun x => Qle_bool (dval p1 - 3 * E) (dval x)) _ _ (c_bs _ _ _ _ _ _ _ _ _ _ _ C))). rewrite !filter_app, !app_length in T.
    assert (S := Permutation_length (filter_perm _ (fun x => Qle_bool (dval p1 - 3 * E) (- dval x)) _ _ (c_ss _ _ _ _ _ _ _ _ _ _ _ C))). rewrite !filter_app, !app_length in S.
    assert (T1 := flength _ (fun x => Qle_bool (dval p1 - 3 * E) (dval x)) tb). assert (T2 := flength _ (fun x => Qle_bool (dval p1 - 3 * E) (dval x)) rb).
    assert (T3 := flength _ (fun x => Qle_bool (dval p1 - 3 * E) (- dval x)) ws). cbn beta in *.
    rewrite T1 in T. 2:{ intros v V. apply Qle_bool_iff. assert (X := c_tb _ _ _ _ _ _ _ _ _ _ _ C v V). lra. }
    rewrite T2 in T. 2:{ intros v V. apply Qle_bool_iff. assert (X := c_rb _ _ _ _ _ _ _ _ _ _ _ C v V). lra. }
    rewrite T3 in S. 2:{ intros v V. apply Qle_bool_iff. assert (X := c_ws _ _ _ _ _ _ _ _ _ _ _ C v V). lra. }
    lia.
Qed.

Section Statements.
Variables (bs ss : list double) (B : Q).
Hypothesis Hb : Forall finite_double bs.
Hypothesis Hs : Forall finite_double ss.
Hypothesis Pb : Forall (fun b => 0 <= dval b <= B)%Q bs.
Hypothesis Ps : Forall (fun s => -100000000 <= dval s <= 0)%Q ss.
Hypothesis HB : (B < 100000000)%Q.

Theorem price_order : forall it incl tb ts p1 p2, length bs < it -> f_trade_reduction it [bs; ss] incl = Ok ([tb; ts], Some [p1; p2]) -> ts <> [] ->
  length (filter (fun x => Qlt_bool (dval p1 + 3 * ((1 # 4503599627370496) * B)) x) (map dval bs ++ map (fun s => - dval s)%Q ss)) < length ss
  /\ length ss <= length (filter (fun x => Qle_bool (dval p1 - 3 * ((1 # 4503599627370496) * B)) x) (map dval bs ++ map (fun s => - dval s)%Q ss)).
Proof.
  intros it incl tb ts p1 p2 CAP H NE. destruct (fclear bs ss B Hb Hs Pb Ps HB it incl tb ts _ CAP H) as [(_ & T & _)|(q1 & q2 & rb & wb & ws & c & EQ & C)]; [congruence|].
  injection EQ as <- <-. apply (clears_price _ _ _ _ _ _ _ _ _ _ _ C).
  assert (B0 : (0 <= B)%Q).
  { assert (POS := c_pos _ _ _ _ _ _ _ _ _ _ _ C). rewrite <- (c_len _ _ _ _ _ _ _ _ _ _ _ C) in POS. assert (PB := c_bs _ _ _ _ _ _ _ _ _ _ _ C). rewrite app_assoc in PB.
    destruct (tb ++ rb) as [|b l]; [cbn in POS; lia|]. assert (I := Permutation_in _ PB (or_introl eq_refl)). rewrite Forall_forall in Pb. specialize (Pb _ I). cbn beta in Pb. lra. }
  apply Qmult_le_0_compat; [discriminate|exact B0].
Qed.

Theorem no_regret : forall it incl tb ts p1 p2 ob os, length bs < it -> f_trade_reduction it [bs; ss] incl = Ok ([tb; ts], Some [p1; p2]) -> ts <> [] ->
  Permutation (tb ++ ob) bs -> Permutation (ts ++ os) ss ->
  (forall v, In v ob -> (dval v <= dval p1 + (1 # 4503599627370496) * B)%Q) /\ (forall v, In v os -> (dval v <= dval p2 + (1 # 4503599627370496) * B)%Q).
Proof.
  intros it incl tb ts p1 p2 ob os CAP H NE PB PS. destruct (fclear bs ss B Hb Hs Pb Ps HB it incl tb ts _ CAP H) as [(_ & T & _)|(q1 & q2 & rb & wb & ws & c & EQ & C)]; [congruence|].
  injection EQ as <- <-. change (1 # 4503599627370496)%Q with eps.
  assert (P1 := c_p1 _ _ _ _ _ _ _ _ _ _ _ C). apply Qabs_Qle_condition in P1. assert (P2 := c_p2 _ _ _ _ _ _ _ _ _ _ _ C). apply Qabs_Qle_condition in P2.
  assert (PO : Permutation ob (rb ++ wb)) by (apply (Permutation_app_inv_l tb); eapply Permutation_trans; [exact PB|apply Permutation_sym, (c_bs _ _ _ _ _ _ _ _ _ _ _ C)]).
  assert (PT : Permutation os ws) by (apply (Permutation_app_inv_l ts); eapply Permutation_trans; [exact PS|apply Permutation_sym, (c_ss _ _ _ _ _ _ _ _ _ _ _ C)]).
  split; intros v V.
  - apply (Permutation_in _ PO) in V. apply in_app_or in V. destruct V as [V|V]; [assert (X := c_rb _ _ _ _ _ _ _ _ _ _ _ C v V)|assert (X := c_wb _ _ _ _ _ _ _ _ _ _ _ C v V)]; lra.
  - apply (Permutation_in _ PT) in V. assert (X := c_ws _ _ _ _ _ _ _ _ _ _ _ C v V). lra.
Qed.
End Statements.
