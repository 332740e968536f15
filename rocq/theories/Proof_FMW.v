(** * C120: with doubles, an agent who trades in McAfee's protocol changes the prices by roundings only *)

From Coq Require Import String List Arith ZArith QArith Qabs Lia Lqa Permutation Sorted.
From Coq Require Import SpecFloat.
From Verif Require Import Base Model_Agents Model_Market Model_Float Model_FloatMcAfee Spec_Float Spec_FloatMcAfee
  Proof_Float2 Proof_FM1 Proof_FM2 Proof_FM3 Proof_FM4 Proof_FMT.
Import ListNotations.
Open Scope Q_scope.

Lemma filter_perm_length : forall A (f : A -> bool) l l', Permutation l l' -> length (filter f l) = length (filter f l').
Proof.
  intros A f l l' P. induction P; cbn [filter]; [reflexivity|destruct (f x); cbn; congruence|destruct (f x), (f y); reflexivity|congruence].
Qed.

Lemma pigeon : forall A (f : A -> bool) a r a' r', Permutation (a ++ r) (a' ++ r') -> (forall x, In x a -> f x = true) ->
  (length (filter f a') < length a)%nat -> exists y, In y r' /\ f y = true.
Proof.
  intros A f a r a' r' P H L. apply (filter_perm_length _ f) in P. rewrite !filter_app, !app_length in P.
  assert (E : filter f a = a).
  { clear -H. induction a as [|x a IH]; [reflexivity|]. cbn [filter]. rewrite H by (left; reflexivity). rewrite IH; [reflexivity|]. intros y Hy. apply H. right. exact Hy. }
  rewrite E in P. destruct (filter f r') as [|y r''] eqn:ER; [cbn in P; lia|]. exists y. apply filter_In. rewrite ER. left. reflexivity.
Qed.

Lemma top_split : forall pre post (v : double) k, In v (firstn k (f_desc (pre ++ v :: post))) -> exists a,
  Permutation (v :: a) (firstn k (f_desc (pre ++ v :: post)))
  /\ Permutation (a ++ skipn k (f_desc (pre ++ v :: post))) (pre ++ post).
Proof.
  intros pre post v k I. destruct (in_split _ _ I) as (l1 & l2 & E). exists (l1 ++ l2). split.
  - rewrite E. apply Permutation_middle.
  - apply (Permutation_cons_inv (a := v)). eapply Permutation_trans; [|apply Permutation_sym, Permutation_middle].
    change (v :: (l1 ++ l2) ++ skipn k (f_desc (pre ++ v :: post))) with ((v :: l1 ++ l2) ++ skipn k (f_desc (pre ++ v :: post))).
    eapply Permutation_trans; [apply Permutation_app_tail; etransitivity; [apply Permutation_middle|rewrite <- E; apply Permutation_refl]|].
    rewrite firstn_skipn. apply (isort_perm (fun x y => fle y x)).
Qed.

Lemma rest_head : forall l k y, Forall finite_double l -> In y (skipn k (f_desc l)) -> (k < length l)%nat /\ dval y <= nv (f_desc l) k.
Proof.
  intros l k y F Hy. destruct (In_nth _ _ (fint 0) Hy) as (j & J1 & <-). rewrite skipn_length, desc_length in J1. split; [lia|].
  assert (E2 : nth j (skipn k (f_desc l)) (fint 0) = nth (k + j) (f_desc l) (fint 0)).
  { rewrite <- (firstn_skipn k (f_desc l)) at 2. rewrite app_nth2; rewrite firstn_length, desc_length; [|lia]. f_equal. lia. }
  rewrite E2. apply (dsorted l k (k + j)); [assumption|lia|lia].
Qed.

Lemma one_more : forall pre post other v v' k k' tr tr' p p',
  Forall finite_double (pre ++ v :: post) -> Forall finite_double (pre ++ v' :: post) -> Forall finite_double other ->
  side (pre ++ v :: post) other k tr p -> side (pre ++ v' :: post) other k' tr' p' ->
  In v (firstn k (f_desc (pre ++ v :: post))) -> In v' (firstn k' (f_desc (pre ++ v' :: post))) -> (k' <= k)%nat.
Proof.
  intros pre post other v v' k k' tr tr' p p' F F' FO R R' I I'. destruct (le_lt_dec k' k) as [L|L]; [exact L|exfalso].
  destruct (top_split pre post v k I) as (a & A1 & A2). destruct (top_split pre post v' k' I') as (a' & A1' & A2').
  set (own := pre ++ v :: post) in *. set (own' := pre ++ v' :: post) in *.
  assert (KO' := s_own _ _ _ _ _ R'). assert (KT' := s_oth _ _ _ _ _ R'). assert (KO := s_own _ _ _ _ _ R).
  assert (La : length a = (k - 1)%nat). { apply Permutation_length in A1. rewrite firstn_length, desc_length in A1. cbn [length] in A1. lia. }
  assert (La' : length a' = (k' - 1)%nat). { apply Permutation_length in A1'. rewrite firstn_length, desc_length in A1'. cbn [length] in A1'. lia. }
  assert (K0 : (0 < k)%nat). { apply Permutation_length in A1. rewrite firstn_length in A1. cbn [length] in A1. lia. }
  set (z := nv (f_desc own') (k' - 1)).
  destruct (pigeon _ (fun x => Qle_bool z (dval x)) a' (skipn k' (f_desc own')) a (skipn k (f_desc own))) as (y & Y1 & Y2).
  - eapply Permutation_trans; [exact A2'|apply Permutation_sym; exact A2].
  - intros x Hx. apply Qle_bool_iff. apply (top_last own' k' x F' ltac:(lia)). eapply Permutation_in; [exact A1'|right; exact Hx].
  - assert (X := Proof_FMT.filter_length_le _ (fun x => Qle_bool z (dval x)) a). lia.
  - apply Qle_bool_iff in Y2. destruct (rest_head own k y F Y1) as [Y3 Y4].
    assert (N := s_end _ _ _ _ _ R Y3 ltac:(lia)). assert (P0 := s_row _ _ _ _ _ R' (k' - 1)%nat ltac:(lia)).
    assert (A3 := dsorted other k (k' - 1) FO ltac:(lia) ltac:(lia)). fold z in P0. lra.
Qed.

Lemma trades_top : forall own other k tr p x, side own other k tr p -> In x tr -> (0 < k)%nat /\ In x (firstn k (f_desc own)).
Proof.
  intros own other k tr p x R I. destruct k as [|k]; [rewrite (s_none _ _ _ _ _ R eq_refl) in I; destruct I|]. split; [lia|].
  eapply Permutation_in; [apply (s_some _ _ _ _ _ R); lia|right; exact I].
Qed.

(** The price is at most a rounding above every price that another report can give. *)
Lemma price_le : forall pre post v v' k tr tr' p p' other other' E,
  Forall finite_double (pre ++ v :: post) -> Forall finite_double (pre ++ v' :: post) -> 0 <= E ->
  side (pre ++ v :: post) other k tr p -> side (pre ++ v' :: post) other' k tr' p' -> In v tr -> In v' tr' ->
  (forall x, In x tr -> dval p <= dval x + E) -> dval p <= dval p' + E.
Proof.
  intros pre post v v' k tr tr' p p' other other' E F F' HE R R' I I' NR.
  destruct (trades_top _ _ _ _ _ _ R I) as [K0 _].
  assert (T := s_some _ _ _ _ _ R K0). assert (T' := s_some _ _ _ _ _ R' K0).
  destruct (in_split _ _ I) as (t1 & t2 & ET). destruct (in_split _ _ I') as (t1' & t2' & ET').
  set (own := pre ++ v :: post) in *. set (own' := pre ++ v' :: post) in *.
  assert (PT : Permutation (v :: p :: t1 ++ t2) (firstn k (f_desc own))).
  { eapply Permutation_trans; [|exact T]. rewrite ET. eapply Permutation_trans; [apply perm_swap|]. apply perm_skip, Permutation_middle. }
  assert (PT' : Permutation (v' :: p' :: t1' ++ t2') (firstn k (f_desc own'))).
  { eapply Permutation_trans; [|exact T']. rewrite ET'. eapply Permutation_trans; [apply perm_swap|]. apply perm_skip, Permutation_middle. }
  assert (PO : forall w (o : list double) q, o = pre ++ w :: post -> Permutation (w :: q) (firstn k (f_desc o)) -> Permutation (q ++ skipn k (f_desc o)) (pre ++ post)).
  { intros w o q -> Q. apply (Permutation_cons_inv (a := w)). eapply Permutation_trans; [|apply Permutation_sym, Permutation_middle].
    change (w :: q ++ skipn k (f_desc (pre ++ w :: post))) with ((w :: q) ++ skipn k (f_desc (pre ++ w :: post))).
    eapply Permutation_trans; [apply Permutation_app_tail; exact Q|]. rewrite firstn_skipn. apply (isort_perm (fun x y => fle y x)). }
  assert (P1 := PO v own _ eq_refl PT). assert (P2 := PO v' own' _ eq_refl PT').
  destruct (Qlt_le_dec (dval p' + E) (dval p)) as [L|L]; [exfalso|exact L].
  destruct (pigeon _ (fun x => Qlt_bool (dval p') (dval x)) (p :: t1 ++ t2) (skipn k (f_desc own)) (p' :: t1' ++ t2') (skipn k (f_desc own'))) as (y & Y1 & Y2).
  - eapply Permutation_trans; [exact P1|apply Permutation_sym; exact P2].
  - intros x [<-|Hx]; apply Qlt_bool_iff; [lra|].
    assert (X := NR x). rewrite ET in X. specialize (X ltac:(apply in_app_or in Hx; apply in_or_app; destruct Hx; [left|right; right]; assumption)). lra.
  - assert (N : Qlt_bool (dval p') (dval p') = false) by (apply Qlt_bool_false; lra). cbn [filter]. rewrite N.
    assert (X := Proof_FMT.filter_length_le _ (fun x => Qlt_bool (dval p') (dval x)) (t1' ++ t2')).
    apply Permutation_length in PT, PT'. rewrite firstn_length, desc_length in PT, PT'. cbn [length] in *.
    assert (K1 := s_own _ _ _ _ _ R). assert (K2 := s_own _ _ _ _ _ R'). lia.
  - apply Qlt_bool_iff in Y2. assert (X := top_rest own' k p' y F' ltac:(eapply Permutation_in; [exact PT'|right; left; reflexivity]) Y1). lra.
Qed.

(** The price of the other side. *)
Lemma other_price : forall own k tr tr' p p' other other' E, Forall finite_double own -> (0 < k)%nat -> 0 <= E ->
  side own other k tr p -> side own other' k tr' p' -> (forall x, In x tr -> dval p <= dval x + E) -> dval p <= dval p' + E.
Proof.
  intros own k tr tr' p p' other other' E F K0 HE R R' NR.
  assert (T := s_some _ _ _ _ _ R K0). assert (T' := s_some _ _ _ _ _ R' K0).
  assert (I : In p' (firstn k (f_desc own))) by (eapply Permutation_in; [exact T'|left; reflexivity]).
  apply (Permutation_in _ (Permutation_sym T)) in I. destruct I as [<-|I]; [lra|]. apply NR. exact I.
Qed.

Lemma traded : forall own other k tr p x, side own other k tr p -> In x tr -> length tr = (k - 1)%nat.
Proof.
  intros own other k tr p x R I. destruct (trades_top _ _ _ _ _ _ R I) as [K0 _].
  assert (T := Permutation_length (s_some _ _ _ _ _ R K0)). assert (K := s_own _ _ _ _ _ R).
  rewrite firstn_length, desc_length in T. cbn [length] in T. lia.
Qed.

Lemma traded_other : forall own other k tr p, (0 < k)%nat -> side own other k tr p -> length tr = (k - 1)%nat.
Proof.
  intros own other k tr p K0 R. assert (T := Permutation_length (s_some _ _ _ _ _ R K0)). assert (K := s_own _ _ _ _ _ R).
  rewrite firstn_length, desc_length in T. cbn [length] in T. lia.
Qed.

Lemma close : forall a b E, a <= b + E -> b <= a + E -> Qabs (a - b) <= E.
Proof. intros a b E H1 H2. apply Qabs_Qle_condition. split; lra. Qed.

Lemma same_prices : forall pre post other v v' k k' tr tr' p p' kt kt' q q' E, 0 <= E ->
  Forall finite_double (pre ++ v :: post) -> Forall finite_double (pre ++ v' :: post) -> Forall finite_double other ->
  side (pre ++ v :: post) other k tr p -> side (pre ++ v' :: post) other k' tr' p' ->
  side other (pre ++ v :: post) k kt q -> side other (pre ++ v' :: post) k' kt' q' ->
  (forall x, In x tr -> dval p <= dval x + E) -> (forall x, In x tr' -> dval p' <= dval x + E) ->
  (forall x, In x kt -> dval q <= dval x + E) -> (forall x, In x kt' -> dval q' <= dval x + E) ->
  In v tr -> In v' tr' ->
  length tr = length tr' /\ length kt = length kt' /\ Qabs (dval p - dval p') <= E /\ Qabs (dval q - dval q') <= E.
Proof.
  intros pre post other v v' k k' tr tr' p p' kt kt' q q' E HE F F' FO R R' Q Q' N1 N2 N3 N4 I I'.
  destruct (trades_top _ _ _ _ _ _ R I) as [K0 T]. destruct (trades_top _ _ _ _ _ _ R' I') as [K0' T'].
  assert (L1 := one_more _ _ _ _ _ _ _ _ _ _ _ F F' FO R R' T T').
  assert (L2 := one_more _ _ _ _ _ _ _ _ _ _ _ F' F FO R' R T' T).
  assert (k' = k) by lia. subst k'.
  split; [rewrite (traded _ _ _ _ _ _ R I), (traded _ _ _ _ _ _ R' I'); reflexivity|].
  split; [rewrite (traded_other _ _ _ _ _ K0 Q), (traded_other _ _ _ _ _ K0 Q'); reflexivity|].
  split; apply close.
  - apply (price_le pre post v v' k tr tr' p p' other other); assumption.
  - apply (price_le pre post v' v k tr' tr p' p other other); assumption.
  - apply (other_price other k kt kt' q q' _ _ E FO K0 HE Q Q' N3).
  - apply (other_price other k kt' kt q' q _ _ E FO K0 HE Q' Q N4).
Qed.

Theorem buyer_no_influence : forall it pre post ss v v' tb ts p1 p2 tb' ts' p1' p2' B,
  Forall finite_double (v' :: pre ++ v :: post) -> Forall finite_double ss ->
  Forall (fun b => 0 <= dval b <= B) (v' :: pre ++ v :: post) -> Forall (fun s => dval s <= 0) ss ->
  (length (pre ++ v :: post) <= it \/ length ss <= it)%nat ->
  f_mcafee it [pre ++ v :: post; ss] false = Ok ([tb; ts], [p1; p2]) -> f_mcafee it [pre ++ v' :: post; ss] false = Ok ([tb'; ts'], [p1'; p2']) ->
  In v tb -> In v' tb' ->
  length tb = length tb' /\ length ts = length ts'
  /\ Qabs (dval p1 - dval p1') <= (1 # 4503599627370496) * B /\ Qabs (dval p2 - dval p2') <= (1 # 4503599627370496) * B.
Proof.
  intros it pre post ss v v' tb ts p1 p2 tb' ts' p1' p2' B F0 FS VB0 VS CAP H H' I I'.
  inversion F0 as [|? ? Fv' F]; subst. inversion VB0 as [|? ? Vv' VB]; subst.
  assert (F' : Forall finite_double (pre ++ v' :: post)).
  { apply Forall_app in F. destruct F as [F1 F2]. inversion F2; subst. apply Forall_app. split; [assumption|constructor; assumption]. }
  assert (VB' : Forall (fun b => 0 <= dval b <= B) (pre ++ v' :: post)).
  { apply Forall_app in VB. destruct VB as [F1 F2]. inversion F2; subst. apply Forall_app. split; [assumption|constructor; assumption]. }
  assert (CAP' : (length (pre ++ v' :: post) <= it \/ length ss <= it)%nat) by (rewrite app_length in *; cbn [length] in *; exact CAP).
  destruct (sides _ _ _ _ _ _ _ F FS CAP H) as (k & S1 & S2). destruct (sides _ _ _ _ _ _ _ F' FS CAP' H') as (k' & S1' & S2').
  destruct (near_rational _ _ _ _ _ _ _ _ B F FS VB VS H) as [N1 N2]. destruct (near_rational _ _ _ _ _ _ _ _ B F' FS VB' VS H') as [N1' N2'].
  apply (same_prices pre post ss v v' k k' tb tb' p1 p1' ts ts' p2 p2'); auto.
  apply Qmult_le_0_compat; [discriminate|]. lra.
Qed.

Theorem seller_no_influence : forall it bs pre post v v' tb ts p1 p2 tb' ts' p1' p2' B, 0 <= B ->
  Forall finite_double bs -> Forall finite_double (v' :: pre ++ v :: post) ->
  Forall (fun b => 0 <= dval b <= B) bs -> Forall (fun s => dval s <= 0) (v' :: pre ++ v :: post) ->
  (length bs <= it \/ length (pre ++ v :: post) <= it)%nat ->
  f_mcafee it [bs; pre ++ v :: post] false = Ok ([tb; ts], [p1; p2]) -> f_mcafee it [bs; pre ++ v' :: post] false = Ok ([tb'; ts'], [p1'; p2']) ->
  In v ts -> In v' ts' ->
  length tb = length tb' /\ length ts = length ts'
  /\ Qabs (dval p1 - dval p1') <= (1 # 4503599627370496) * B /\ Qabs (dval p2 - dval p2') <= (1 # 4503599627370496) * B.
Proof.
  intros it bs pre post v v' tb ts p1 p2 tb' ts' p1' p2' B B0 FB F0 VB VS0 CAP H H' I I'.
  inversion F0 as [|? ? Fv' F]; subst. inversion VS0 as [|? ? Vv' VS]; subst.
  assert (F' : Forall finite_double (pre ++ v' :: post)).
  { apply Forall_app in F. destruct F as [F1 F2]. inversion F2; subst. apply Forall_app. split; [assumption|constructor; assumption]. }
  assert (VS' : Forall (fun s => dval s <= 0) (pre ++ v' :: post)).
  { apply Forall_app in VS. destruct VS as [F1 F2]. inversion F2; subst. apply Forall_app. split; [assumption|constructor; assumption]. }
  assert (CAP' : (length bs <= it \/ length (pre ++ v' :: post) <= it)%nat) by (rewrite app_length in *; cbn [length] in *; exact CAP).
  destruct (sides _ _ _ _ _ _ _ FB F CAP H) as (k & S1 & S2). destruct (sides _ _ _ _ _ _ _ FB F' CAP' H') as (k' & S1' & S2').
  destruct (near_rational _ _ _ _ _ _ _ _ B FB F VB VS H) as [N1 N2]. destruct (near_rational _ _ _ _ _ _ _ _ B FB F' VB VS' H') as [N1' N2'].
  destruct (same_prices pre post bs v v' k k' ts ts' p2 p2' tb tb' p1 p1' ((1 # 4503599627370496) * B)) as (A1 & A2 & A3 & A4); auto.
  apply Qmult_le_0_compat; [discriminate|exact B0].
Qed.
