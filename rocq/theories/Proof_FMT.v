(** * C116: McAfee's protocol with doubles is truthful up to rounding *)

From Coq Require Import String List Arith ZArith QArith Lia Lqa Permutation Sorted.
From Coq Require Import SpecFloat.
From Verif Require Import Base Model_Agents Model_Market Model_Float Model_FloatMcAfee Spec_Float Spec_FloatMcAfee Spec_FloatMcAfeeTruth
  Proof_Float2 Proof_FM1 Proof_FM2 Proof_FM3 Proof_FM4.
Import ListNotations.
Open Scope Q_scope.

Definition nv (l : list double) (k : nat) : Q := dval (nth k l (fint 0)).

(** The number of deals, exactly. *)
Lemma loop_stop : forall it b s, Forall finite_double b -> Forall finite_double s -> exists k, (k <= length b)%nat /\ (k <= length s)%nat /\
  fst (f_optimal_loop it [b; s]) = pairs b s k
  /\ (forall t, (t < k)%nat -> 0 <= nv b t + nv s t)
  /\ (k = it \/ k = length b \/ k = length s \/ nv b k + nv s k < 0).
Proof.
  assert (Z : forall (b s : list double), pairs b s 0 = []) by (intros [|] [|]; reflexivity).
  induction it as [|it IH]; intros b s Fb Fs; cbn [f_optimal_loop].
  { exists 0%nat. split; [lia|]. split; [lia|]. rewrite Z. split; [reflexivity|]. split; [lia|]. left. reflexivity. }
  destruct b as [|x b]; [exists 0%nat; cbn; repeat split; try lia; auto|]. destruct s as [|y s]; [exists 0%nat; cbn; repeat split; try lia; auto|].
  inversion Fb as [|? ? Fx Fb']; subst. inversion Fs as [|? ? Fy Fs']; subst. cbn [f_heads].
  assert (SG : flt (f_gft [x; y]) (fint 0) = Qlt_bool (dval x + dval y) 0).
  { assert (X := sign2 [x] [y] [x; y]). unfold sign_right in X. rewrite X; [|constructor; [assumption|constructor]|constructor; [assumption|constructor]|constructor; [left; reflexivity|constructor; [left; reflexivity|constructor]]].
    cbn [map Qsum fold_right]. apply eq_true_iff_eq. rewrite !Qlt_bool_iff. split; intros; lra. }
  rewrite SG. destruct (Qlt_bool_reflect (dval x + dval y) 0) as [N|N].
  - exists 0%nat. split; [lia|]. split; [lia|]. split; [reflexivity|]. split; [lia|]. right. right. right. exact N.
  - cbn [map tl]. destruct (IH b s Fb' Fs') as (k & K1 & K2 & K3 & K4 & K5). exists (S k). cbn [fst length pairs]. rewrite K3.
    split; [lia|]. split; [lia|]. split; [reflexivity|]. split.
    + intros [|t] Ht; [unfold nv; cbn [nth]; lra|]. apply (K4 t). lia.
    + unfold nv in *. cbn [nth]. destruct K5 as [->|[->|[->|K5]]]; auto.
Qed.

Lemma dsorted : forall l i j, Forall finite_double l -> (i <= j)%nat -> (j < length l)%nat -> nv (f_desc l) j <= nv (f_desc l) i.
Proof.
  intros l i j F Hij Hj. assert (S0 := f_desc_sorted l F). assert (FD := f_desc_finite l F).
  assert (LL : length (f_desc l) = length l) by apply (Permutation_length (isort_perm _ l)). rewrite <- LL in Hj. clear LL F.
  revert i j Hij Hj. induction (f_desc l) as [|a r IH]; intros i j Hij Hj; [cbn in Hj; lia|].
  inversion FD as [|? ? Fa Fr]; subst. apply StronglySorted_inv in S0. destruct S0 as [S1 S2].
  destruct i as [|i], j as [|j]; try lia; unfold nv; cbn [nth]; cbn [length] in Hj.
  - lra.
  - assert (I : In (nth j r (fint 0)) r) by (apply nth_In; lia). rewrite Forall_forall in S2, Fr. specialize (S2 _ I). rewrite fle_dval in S2 by auto.
    apply Qle_bool_iff. exact S2.
  - apply IH; try assumption; lia.
Qed.

(** One side of a run: the agents [own] of a category meet the agents [other]; [k] deals are found, [p] is the agent whose deal is cancelled. *)
Record side (own other : list double) (k : nat) (tr : list double) (p : double) : Prop := {
  s_own : (k <= length own)%nat;
  s_oth : (k <= length other)%nat;
  s_row : forall t, (t < k)%nat -> 0 <= nv (f_desc own) t + nv (f_desc other) t;
  s_end : (k < length own)%nat -> (k < length other)%nat -> nv (f_desc own) k + nv (f_desc other) k < 0;
  s_none : k = 0%nat -> tr = [];
  s_some : (0 < k)%nat -> Permutation (p :: tr) (firstn k (f_desc own))
}.

Lemma desc_length : forall l, length (f_desc l) = length l.
Proof. intros l. apply (Permutation_length (isort_perm _ l)). Qed.

Lemma sides : forall it bs ss tb ts p1 p2, Forall finite_double bs -> Forall finite_double ss -> (length bs <= it \/ length ss <= it)%nat ->
  f_mcafee it [bs; ss] false = Ok ([tb; ts], [p1; p2]) -> exists k, side bs ss k tb p1 /\ side ss bs k ts p2.
Proof.
  intros it bs ss tb ts p1 p2 Fb Fs CAP H.
  destruct (loop_stop it (f_desc bs) (f_desc ss) (f_desc_finite _ Fb) (f_desc_finite _ Fs)) as (k & K1 & K2 & K3 & K4 & K5). rewrite desc_length in K1, K2. rewrite (desc_length bs), (desc_length ss) in K5.
  assert (E : (k < length bs)%nat -> (k < length ss)%nat -> nv (f_desc bs) k + nv (f_desc ss) k < 0).
  { intros L1 L2. destruct K5 as [K5|[K5|[K5|K5]]]; [exfalso; destruct CAP; lia|exfalso; lia|exfalso; lia|assumption]. }
  assert (T : (k = 0%nat -> tb = [] /\ ts = []) /\ ((0 < k)%nat -> Permutation (p1 :: tb) (firstn k (f_desc bs)) /\ Permutation (p2 :: ts) (firstn k (f_desc ss)))).
  { unfold f_mcafee in H. cbn [map bind] in H. fold (the_deals it bs ss) in H. change (fst (f_optimal_loop it [f_desc bs; f_desc ss])) with (the_deals it bs ss) in K3.
    assert (PERM : Permutation (f_by_gft (the_deals it bs ss)) (the_deals it bs ss)) by apply isort_perm.
    assert (PL := Permutation_length PERM). rewrite K3 in PL at 2. rewrite pairs_length in PL by (rewrite desc_length; assumption).
    destruct (f_by_gft (the_deals it bs ss)) as [|lp others] eqn:EB; cbn [length] in PL.
    - split; [|lia]. intros _. injection H as <- <- _ _. auto.
    - split; [lia|]. intros _.
      assert (DT : forall d, In d (lp :: others) -> exists x y, d = [x; y]).
      { intros d D. apply (Permutation_in _ PERM) in D. destruct (deal_two it bs ss d Fb Fs D) as (x & y & -> & _). eauto. }
      destruct (DT lp (or_introl eq_refl)) as (x0 & y0 & ->).
      destruct (add_two others [] [] (fun ps Hp => DT ps (or_intror Hp))) as (c' & d' & T1 & T2 & T3). rewrite T1 in H. injection H as <- <- <- <-. cbn [app] in T2, T3.
      rewrite K3 in PERM. destruct (pairs_nth k (f_desc bs) (f_desc ss) ltac:(rewrite desc_length; assumption) ltac:(rewrite desc_length; assumption) (fint 0)) as [N1 N2].
      split.
      + rewrite <- N1, <- PERM. cbn [map nth]. constructor. exact T2.
      + rewrite <- N2, <- PERM. cbn [map nth]. constructor. exact T3. }
  destruct T as [T0 T1]. exists k. split; constructor; try assumption.
  - intros Z. apply T0, Z.
  - intros P. apply T1, P.
  - intros t Ht. rewrite Qplus_comm. apply K4. assumption.
  - intros L1 L2. rewrite Qplus_comm. apply E; assumption.
  - intros Z. apply T0, Z.
  - intros P. apply T1, P.
Qed.

Lemma top_rest : forall l k x y, Forall finite_double l -> In x (firstn k (f_desc l)) -> In y (skipn k (f_desc l)) -> dval y <= dval x.
Proof.
  intros l k x y F Hx Hy. destruct (In_nth _ _ (fint 0) Hx) as (i & I1 & <-). destruct (In_nth _ _ (fint 0) Hy) as (j & J1 & <-).
  rewrite firstn_length in I1. rewrite skipn_length in J1. rewrite desc_length in *.
  assert (E1 : nth i (firstn k (f_desc l)) (fint 0) = nth i (f_desc l) (fint 0)).
  { rewrite <- (firstn_skipn k (f_desc l)) at 2. rewrite app_nth1; [reflexivity|]. rewrite firstn_length, desc_length. lia. }
  assert (E2 : nth j (skipn k (f_desc l)) (fint 0) = nth (k + j) (f_desc l) (fint 0)).
  { rewrite <- (firstn_skipn k (f_desc l)) at 2. rewrite app_nth2; rewrite firstn_length, desc_length; [|lia]. f_equal. lia. }
  rewrite E1, E2. apply (dsorted l i (k + j)); [assumption|lia|lia].
Qed.

Lemma top_last : forall l k x, Forall finite_double l -> (0 < k <= length l)%nat -> In x (firstn k (f_desc l)) -> nv (f_desc l) (k - 1) <= dval x.
Proof.
  intros l k x F Hk Hx. destruct (In_nth _ _ (fint 0) Hx) as (i & I1 & <-). rewrite firstn_length, desc_length in I1.
  assert (E1 : nth i (firstn k (f_desc l)) (fint 0) = nth i (f_desc l) (fint 0)).
  { rewrite <- (firstn_skipn k (f_desc l)) at 2. rewrite app_nth1; [reflexivity|]. rewrite firstn_length, desc_length. lia. }
  rewrite E1. apply (dsorted l i (k - 1)); [assumption|lia|lia].
Qed.

Lemma last_in : forall l k, (0 < k <= length l)%nat -> In (nth (k - 1) (f_desc l) (fint 0)) (firstn k (f_desc l)).
Proof.
  intros l k Hk. assert (E1 : nth (k - 1) (firstn k (f_desc l)) (fint 0) = nth (k - 1) (f_desc l) (fint 0)).
  { rewrite <- (firstn_skipn k (f_desc l)) at 2. rewrite app_nth1; [reflexivity|]. rewrite firstn_length, desc_length. lia. }
  rewrite <- E1. apply nth_In. rewrite firstn_length, desc_length. lia.
Qed.

Lemma filter_length_le : forall A (f : A -> bool) l, (length (filter f l) <= length l)%nat.
Proof. intros A f l. induction l as [|a l IH]; cbn; [lia|]. destruct (f a); cbn; lia. Qed.

(** If [k] agents [g] are at least as good as the others, they are as good as the [k] first of the sorted list. *)
Lemma last_of_top : forall l g rest k, Forall finite_double l -> Permutation (g ++ rest) l -> length g = k -> (0 < k)%nat ->
  (forall x y, In x g -> In y rest -> dval y <= dval x) -> exists x, In x g /\ dval x == nv (f_desc l) (k - 1) /\ forall z, In z g -> dval x <= dval z.
Proof.
  intros l g rest k F P LG K TOP.
  assert (LK : (k <= length l)%nat) by (rewrite <- (Permutation_length P), app_length; lia).
  (* the least of g *)
  assert (MIN : exists x, In x g /\ forall z, In z g -> dval x <= dval z).
  { clear -LG K. destruct g as [|a g]; [cbn in LG; lia|]. clear LG. revert a. induction g as [|b g IH]; intros a.
    - exists a. split; [left; reflexivity|]. intros z [<-|[]]. lra.
    - destruct (IH b) as (x & X1 & X2). destruct (Qlt_le_dec (dval a) (dval x)) as [L|L].
      + exists a. split; [left; reflexivity|]. intros z [<-|Z]; [lra|]. specialize (X2 z Z). lra.
      + exists x. split; [right; assumption|]. intros z [<-|Z]; [assumption|auto]. }
  destruct MIN as (x & X1 & X2). exists x. split; [assumption|]. split; [|assumption].
  assert (PD : Permutation (firstn k (f_desc l) ++ skipn k (f_desc l)) (g ++ rest)).
  { rewrite firstn_skipn. eapply Permutation_trans; [apply isort_perm|]. apply Permutation_sym. assumption. }
  assert (LF : length (firstn k (f_desc l)) = k) by (rewrite firstn_length, desc_length; lia).
  (* at least k agents are at least the k-th, at most k - 1 are more than the least of g *)
  assert (LE : dval x <= nv (f_desc l) (k - 1)).
  { destruct (Qlt_le_dec (nv (f_desc l) (k - 1)) (dval x)) as [L|L]; [exfalso|assumption].
    (* all of g are above the k-th: they are among the first k - 1 *)
    set (f := fun z => Qlt_bool (nv (f_desc l) (k - 1)) (dval z)).
    assert (C1 : (length (filter f (g ++ rest)) >= k)%nat).
    { rewrite filter_app, app_length. enough (filter f g = g) as -> by lia. clear -X2 L. assert (A : forall z, In z g -> f z = true).
      { intros z Z. unfold f. apply Qlt_bool_iff. specialize (X2 z Z). lra. }
      clear X2. induction g as [|a g IH]; [reflexivity|]. cbn [filter]. rewrite A by (left; reflexivity). rewrite IH; [reflexivity|]. intros z Z. apply A. right. assumption. }
    assert (C2 : (length (filter f (firstn k (f_desc l) ++ skipn k (f_desc l))) <= k - 1)%nat).
    { rewrite filter_app, app_length.
      assert (Z2 : filter f (skipn k (f_desc l)) = []).
      { assert (A : forall z, In z (skipn k (f_desc l)) -> f z = false).
        { intros z Z. unfold f. apply Qlt_bool_false. apply (top_rest l k _ z F (last_in l k ltac:(lia)) Z). }
        clear -A. induction (skipn k (f_desc l)) as [|a r IH]; [reflexivity|]. cbn [filter]. rewrite A by (left; reflexivity). apply IH. intros z Z. apply A. right. assumption. }
      rewrite Z2. cbn [length]. assert (I := last_in l k ltac:(lia)). apply in_split in I. destruct I as (l1 & l2 & E). rewrite E, filter_app, app_length. cbn [filter].
      assert (FX : f (nth (k - 1) (f_desc l) (fint 0)) = false) by (unfold f; apply Qlt_bool_false; unfold nv; lra). rewrite FX.
      rewrite E in LF. rewrite app_length in LF. cbn [length] in LF. assert (Y := filter_length_le _ f l1). assert (Y' := filter_length_le _ f l2). lia. }
    assert (C3 : Permutation (filter f (firstn k (f_desc l) ++ skipn k (f_desc l))) (filter f (g ++ rest))).
    { clear -PD. induction PD; cbn [filter]; [constructor|destruct (f x); [constructor|]; assumption|destruct (f x), (f y); try constructor; apply Permutation_refl|eapply Permutation_trans; eassumption]. }
    apply Permutation_length in C3. lia. }
  assert (GE : nv (f_desc l) (k - 1) <= dval x).
  { assert (I : In x (firstn k (f_desc l) ++ skipn k (f_desc l))) by (eapply Permutation_in; [apply Permutation_sym; exact PD|]; apply in_or_app; left; assumption).
    apply in_app_or in I. destruct I as [I|I]; [apply (top_last l k x F ltac:(lia) I)|].
    destruct (Qlt_le_dec (dval x) (nv (f_desc l) (k - 1))) as [L|L]; [exfalso|assumption].
    (* x is below all first k, which therefore are in g: k + 1 agents in g *)
    set (f := fun z => Qlt_bool (dval x) (dval z)).
    assert (C1 : (length (filter f (firstn k (f_desc l) ++ skipn k (f_desc l))) >= k)%nat).
    { rewrite filter_app, app_length. enough (filter f (firstn k (f_desc l)) = firstn k (f_desc l)) as -> by lia.
      assert (A : forall z, In z (firstn k (f_desc l)) -> f z = true).
      { intros z Z. unfold f. apply Qlt_bool_iff. assert (Y := top_last l k z F ltac:(lia) Z). lra. }
      clear -A. induction (firstn k (f_desc l)) as [|a r IH]; [reflexivity|]. cbn [filter]. rewrite A by (left; reflexivity). rewrite IH; [reflexivity|]. intros z Z. apply A. right. assumption. }
    assert (C2 : (length (filter f (g ++ rest)) <= k - 1)%nat).
    { rewrite filter_app, app_length.
      assert (Z2 : filter f rest = []).
      { assert (A : forall z, In z rest -> f z = false) by (intros z Z; unfold f; apply Qlt_bool_false; apply TOP; assumption).
        clear -A. induction rest as [|a r IH]; [reflexivity|]. cbn [filter]. rewrite A by (left; reflexivity). apply IH. intros z Z. apply A. right. assumption. }
      rewrite Z2. cbn [length]. apply in_split in X1. destruct X1 as (l1 & l2 & E). rewrite E, filter_app, app_length. cbn [filter].
      assert (FX : f x = false) by (unfold f; apply Qlt_bool_false; lra). rewrite FX.
      rewrite E in LG. rewrite app_length in LG. cbn [length] in LG. assert (Y := filter_length_le _ f l1). assert (Y' := filter_length_le _ f l2). lia. }
    assert (C3 : Permutation (filter f (firstn k (f_desc l) ++ skipn k (f_desc l))) (filter f (g ++ rest))).
    { clear -PD. induction PD; cbn [filter]; [constructor|destruct (f x0); [constructor|]; assumption|destruct (f x0), (f y); try constructor; apply Permutation_refl|eapply Permutation_trans; eassumption]. }
    apply Permutation_length in C3. lia. }
  lra.
Qed.

Lemma near_truth : forall pre post other v v' k k' tr tr' p p' u u' E, 0 <= E ->
  Forall finite_double (pre ++ v :: post) -> finite_double v' -> Forall finite_double other ->
  side (pre ++ v :: post) other k tr p -> side (pre ++ v' :: post) other k' tr' p' ->
  (forall x, In x tr -> dval p <= dval x + E) ->
  possible_gain (pre ++ v :: post) tr p v v u -> possible_gain (pre ++ v' :: post) tr' p' v' v u' -> u' <= u + E.
Proof.
  intros pre post other v v' k k' tr tr' p p' u u' E HE F Fv' FO R R' NR G G'.
  set (own := pre ++ v :: post) in *. set (own' := pre ++ v' :: post) in *.
  assert (F' : Forall finite_double own').
  { unfold own', own in *. apply Forall_app in F. destruct F as [F1 F2]. inversion F2; subst. apply Forall_app. split; [assumption|constructor; assumption]. }
  assert (LO : length own' = length own) by (unfold own, own'; rewrite !app_length; reflexivity).
  assert (U0 : 0 <= u + E) by (destruct G as [[I Eu]|[_ Eu]]; rewrite Eu; [specialize (NR v I); lra|lra]).
  destruct G' as [[I' Eu']|[_ Eu']]; [|lra]. destruct (Qlt_le_dec (dval p') (dval v)) as [LV|LV]; [|lra].
  assert (K' : (0 < k')%nat) by (destruct k'; [rewrite (s_none _ _ _ _ _ R' eq_refl) in I'; destruct I'|lia]).
  assert (T' := s_some _ _ _ _ _ R' K'). destruct (in_split _ _ I') as (t1 & t2 & ET).
  set (tb0 := t1 ++ t2).
  assert (PT : Permutation (firstn k' (f_desc own')) (v' :: p' :: tb0)).
  { eapply Permutation_trans; [apply Permutation_sym; exact T'|]. rewrite ET. eapply Permutation_trans; [apply perm_skip; apply Permutation_sym, Permutation_middle|]. apply perm_swap. }
  set (rest := skipn k' (f_desc own')).
  assert (PO : Permutation (p' :: tb0 ++ rest) (pre ++ post)).
  { apply (Permutation_cons_inv (a := v')). eapply Permutation_trans; [|apply Permutation_sym, Permutation_middle]. fold own'. etransitivity; [|apply (isort_perm (fun x y => fle y x) own')]. fold (f_desc own'). rewrite <- (firstn_skipn k' (f_desc own')). fold rest.
    change (v' :: p' :: tb0 ++ rest) with ((v' :: p' :: tb0) ++ rest). apply Permutation_app_tail. apply Permutation_sym. exact PT. }
  assert (PW : Permutation ((v :: p' :: tb0) ++ rest) own).
  { cbn [app]. unfold own. etransitivity; [apply perm_skip; exact PO|]. apply Permutation_middle. }
  assert (LG : length (v :: p' :: tb0) = k').
  { assert (X := Permutation_length PT). rewrite firstn_length, desc_length in X. cbn [length] in *. assert (Y := s_own _ _ _ _ _ R'). lia. }
  assert (TOPIN : forall x, In x (p' :: tb0) -> In x (firstn k' (f_desc own'))).
  { intros x Hx. eapply Permutation_in; [apply Permutation_sym; exact PT|]. right. exact Hx. }
  assert (TOP : forall x y, In x (v :: p' :: tb0) -> In y rest -> dval y <= dval x).
  { intros x y [<-|Hx] Hy.
    - assert (X := top_rest own' k' p' y F' (TOPIN p' (or_introl eq_refl)) Hy). lra.
    - apply (top_rest own' k' x y F' (TOPIN x Hx) Hy). }
  destruct (last_of_top own _ rest k' F PW LG K' TOP) as (x & X1 & X2 & X3).
  assert (XP : dval x <= dval p') by (apply X3; right; left; reflexivity).
  assert (KO' := s_own _ _ _ _ _ R'). assert (KT' := s_oth _ _ _ _ _ R'). assert (KO := s_own _ _ _ _ _ R). assert (KT := s_oth _ _ _ _ _ R).
  assert (XL : nv (f_desc own') (k' - 1) <= dval x).
  { destruct X1 as [<-|X1].
    - assert (Y := top_last own' k' p' F' ltac:(lia) (TOPIN p' (or_introl eq_refl))). lra.
    - apply (top_last own' k' x F' ltac:(lia) (TOPIN x X1)). }
  assert (KK : (k' <= k)%nat).
  { destruct (le_lt_dec k' k) as [L|L]; [assumption|exfalso].
    assert (N := s_end _ _ _ _ _ R ltac:(lia) ltac:(lia)). assert (P0 := s_row _ _ _ _ _ R' (k' - 1)%nat ltac:(lia)).
    assert (A1 := dsorted own k (k' - 1) F ltac:(lia) ltac:(lia)). assert (A2 := dsorted other k (k' - 1) FO ltac:(lia) ltac:(lia)). lra. }
  assert (BK := dsorted own (k' - 1) (k - 1) F ltac:(lia) ltac:(lia)).
  assert (T := s_some _ _ _ _ _ R ltac:(lia)).
  assert (PB : dval p <= nv (f_desc own) (k - 1) + E).
  { assert (I := last_in own k ltac:(lia)). apply (Permutation_in _ (Permutation_sym T)) in I. unfold nv. destruct I as [<-|I]; [lra|]. apply NR. exact I. }
  destruct G as [[I Eu]|[(others & PE & I) Eu]]; [lra|].
  assert (PE' : Permutation others (p :: skipn k (f_desc own))).
  { apply (Permutation_app_inv_l tr). eapply Permutation_trans; [exact PE|]. eapply Permutation_trans; [apply Permutation_sym, (isort_perm (fun x y => fle y x) own)|].
    fold (f_desc own). rewrite <- (firstn_skipn k (f_desc own)) at 1. eapply Permutation_trans; [apply Permutation_app_tail; apply Permutation_sym; exact T|].
    cbn [app]. apply Permutation_middle. }
  apply (Permutation_in _ PE') in I. destruct I as [<-|I]; [lra|].
  assert (Y := top_rest own k _ v F (last_in own k ltac:(lia)) I). unfold nv in *. lra.
Qed.

(** ** Both sides *)

Lemma mcafee_shape : forall it bs ss r, Forall finite_double bs -> Forall finite_double ss -> f_mcafee it [bs; ss] false = Ok r -> exists tb ts p1 p2, r = ([tb; ts], [p1; p2]).
Proof. intros it bs ss r Fb Fs H. destruct (result2 it bs ss false Fb Fs) as (tb & ts & p1 & p2 & _ & _ & E & _). exists tb, ts, p1, p2. congruence. Qed.

Theorem buyer_near_truth : forall it pre post ss v v' tb ts p1 p2 tb' ts' p1' p2' u u' B,
  Forall finite_double (pre ++ v :: post) -> finite_double v' -> Forall finite_double ss ->
  Forall (fun b => 0 <= dval b <= B) (pre ++ v :: post) -> Forall (fun s => dval s <= 0) ss ->
  (length (pre ++ v :: post) <= it \/ length ss <= it)%nat ->
  f_mcafee it [pre ++ v :: post; ss] false = Ok ([tb; ts], [p1; p2]) -> f_mcafee it [pre ++ v' :: post; ss] false = Ok ([tb'; ts'], [p1'; p2']) ->
  possible_gain (pre ++ v :: post) tb p1 v v u -> possible_gain (pre ++ v' :: post) tb' p1' v' v u' ->
  u' <= u + (1 # 4503599627370496) * B.
Proof.
  intros it pre post ss v v' tb ts p1 p2 tb' ts' p1' p2' u u' B F Fv' FS VB VS CAP H H' G G'.
  assert (F' : Forall finite_double (pre ++ v' :: post)).
  { apply Forall_app in F. destruct F as [F1 F2]. inversion F2; subst. apply Forall_app. split; [assumption|constructor; assumption]. }
  assert (CAP' : (length (pre ++ v' :: post) <= it \/ length ss <= it)%nat) by (rewrite app_length in *; cbn [length] in *; exact CAP).
  destruct (sides _ _ _ _ _ _ _ F FS CAP H) as (k & S1 & _). destruct (sides _ _ _ _ _ _ _ F' FS CAP' H') as (k' & S1' & _).
  assert (NR := near_rational _ _ _ _ _ _ _ _ B F FS VB VS H). destruct NR as [NR _].
  assert (B0 : 0 <= B).
  { apply Forall_app in VB. destruct VB as [_ VB]. inversion VB as [|? ? V _]. lra. }
  apply (near_truth pre post ss v v' k k' tb tb' p1 p1' u u'); auto. apply Qmult_le_0_compat; [discriminate|exact B0].
Qed.

Theorem seller_near_truth : forall it bs pre post v v' tb ts p1 p2 tb' ts' p1' p2' u u' B, 0 <= B ->
  Forall finite_double bs -> Forall finite_double (pre ++ v :: post) -> finite_double v' ->
  Forall (fun b => 0 <= dval b <= B) bs -> Forall (fun s => dval s <= 0) (pre ++ v :: post) ->
  (length bs <= it \/ length (pre ++ v :: post) <= it)%nat ->
  f_mcafee it [bs; pre ++ v :: post] false = Ok ([tb; ts], [p1; p2]) -> f_mcafee it [bs; pre ++ v' :: post] false = Ok ([tb'; ts'], [p1'; p2']) ->
  possible_gain (pre ++ v :: post) ts p2 v v u -> possible_gain (pre ++ v' :: post) ts' p2' v' v u' ->
  u' <= u + (1 # 4503599627370496) * B.
Proof.
  intros it bs pre post v v' tb ts p1 p2 tb' ts' p1' p2' u u' B B0 FB F Fv' VB VS CAP H H' G G'.
  assert (F' : Forall finite_double (pre ++ v' :: post)).
  { apply Forall_app in F. destruct F as [F1 F2]. inversion F2; subst. apply Forall_app. split; [assumption|constructor; assumption]. }
  assert (CAP' : (length bs <= it \/ length (pre ++ v' :: post) <= it)%nat) by (rewrite app_length in *; cbn [length] in *; exact CAP).
  destruct (sides _ _ _ _ _ _ _ FB F CAP H) as (k & _ & S1). destruct (sides _ _ _ _ _ _ _ FB F' CAP' H') as (k' & _ & S1').
  assert (NR := near_rational _ _ _ _ _ _ _ _ B FB F VB VS H). destruct NR as [_ NR].
  apply (near_truth pre post bs v v' k k' ts ts' p2 p2' u u'); auto. apply Qmult_le_0_compat; [discriminate|exact B0].
Qed.
