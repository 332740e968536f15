(** * On integer values and recipes of zeros and ones, doubles are exact *)

From Coq Require Import ZArith QArith Reals List Lia Lra Sorted Permutation Arith.
From Coq Require Import SpecFloat.
From Flocq Require Import Core BinarySingleNaN.
From Coq Require String.
From Verif Require Import Base Model_Agents Model_Trade Model_Prices Model_Market Model_Ascending Proof_Ascending2
  Model_Float Spec_Float Proof_Float Proof_Float2.
Import ListNotations.

#[local] Existing Instance hprec.
#[local] Existing Instance hmax.

Local Open Scope Z_scope.

(** ** Sorted lists of integers *)

Definition zdesc (l : list Z) : Prop := StronglySorted (fun a b => b <= a) l.

Lemma zdesc_unique : forall l l', Permutation l l' -> zdesc l -> zdesc l' -> l = l'.
Proof.
  induction l as [|a l IH]; intros l' P S S'.
  - apply Permutation_nil in P. auto.
  - destruct l' as [|b l']; [apply Permutation_sym, Permutation_nil in P; discriminate|].
    inversion S as [|x y S1 S2 Eq]; subst. inversion S' as [|x y S1' S2' Eq]; subst.
    rewrite Forall_forall in S2, S2'.
    assert (b = a).
    { assert (A : In b (a :: l)) by (apply (Permutation_in _ (Permutation_sym P)); left; reflexivity).
      assert (B : In a (b :: l')) by (apply (Permutation_in _ P); left; reflexivity).
      destruct A as [A|A]; [auto|]. destruct B as [B|B]; [auto|]. apply S2 in A. apply S2' in B. lia. }
    subst b. f_equal. apply IH; auto. apply Permutation_cons_inv in P. assumption.
Qed.

Definition small (K : Z) (z : Z) : Prop := Z.abs z <= K.

Lemma fint_le : forall a b, small (2 ^ 53) a -> small (2 ^ 53) b -> fle (fint a) (fint b) = (a <=? b).
Proof. intros a b Ha Hb. rewrite !int_B. apply rep_le; apply rep_int; assumption. Qed.

Lemma fint_finite : forall z, small (2 ^ 53) z -> finite_double (fint z).
Proof.
  intros z H. rewrite int_B. destruct (rep_int z H) as [F _]. split; [apply valid_binary_B2SF|].
  destruct (bint z); simpl in *; auto; discriminate.
Qed.

Lemma sort_int : forall zs, Forall (small (2 ^ 53)) zs ->
  exists zs', Permutation zs' zs /\ zdesc zs' /\ f_sort (map fint zs) = map fint zs'
              /\ sort_desc (map inject_Z zs) = map inject_Z zs'.
Proof.
  intros zs H.
  destruct (Permutation_map_inv fint zs (l1 := f_sort (map fint zs))) as (z1 & E1 & P1).
  { apply sort_perm. }
  assert (PQ : Permutation (sort_desc (map inject_Z zs)) (map inject_Z zs)).
  { unfold sort_desc. clear. induction (map inject_Z zs) as [|x l IH]; simpl; [reflexivity|].
    assert (I : forall y m, Permutation (insert (fun x y => Qle_bool y x) y m) (y :: m)).
    { intros y m. induction m as [|w m IHm]; simpl; [reflexivity|]. destruct (Qle_bool w y); [reflexivity|].
      rewrite IHm. apply perm_swap. }
    rewrite I, IH. reflexivity. }
  destruct (Permutation_map_inv inject_Z zs PQ) as (z2 & E2 & P2).
  assert (H1 : Forall (small (2 ^ 53)) z1).
  { rewrite Forall_forall in *. intros z Hz. apply H. apply (Permutation_in _ (Permutation_sym P1)). assumption. }
  assert (D1 : zdesc z1).
  { assert (S : fdesc (map fint z1)).
    { rewrite <- E1. apply sort_sorted. rewrite Forall_forall in *. intros x Hx. apply in_map_iff in Hx.
      destruct Hx as (z & <- & Hz). apply fint_finite. auto. }
    clear - S H1. induction z1 as [|a l IH]; [constructor|]. cbn [map] in S. inversion S as [|x y S1 S2 Eq]; subst.
    inversion H1 as [|x y Ha Hl Eq]; subst. constructor; [apply IH; auto|].
    rewrite Forall_forall in *. intros b Hb. assert (Q : fle (fint b) (fint a) = true) by (apply S2; apply in_map; assumption).
    rewrite fint_le in Q; auto. apply Z.leb_le in Q. assumption. }
  assert (D2 : zdesc z2).
  { assert (S : StronglySorted (fun a b => (b <= a)%Q) (map inject_Z z2)).
    { rewrite <- E2. unfold sort_desc. clear.
      assert (I : forall y m, StronglySorted (fun a b => (b <= a)%Q) m ->
        StronglySorted (fun a b => (b <= a)%Q) (insert (fun x y => Qle_bool y x) y m)
        /\ (forall z, In z (insert (fun x y => Qle_bool y x) y m) -> z = y \/ In z m)).
      { intros y m S. induction S as [|w m S IH F]; simpl.
        - split; [constructor; constructor|]. intros z [<-|[]]; auto.
        - destruct (Qle_bool w y) eqn:E.
          + apply Qle_bool_iff in E. split.
            * constructor; [constructor; assumption|]. constructor; [assumption|].
              rewrite Forall_forall in *. intros z Hz. eapply Qle_trans; [apply F; assumption|assumption].
            * intros z [<-|[<-|Hz]]; auto.
          + apply Qle_bool_false in E. destruct IH as [I1 I2]. split.
            * constructor; [assumption|]. rewrite Forall_forall in *. intros z Hz. destruct (I2 z Hz) as [->|Hz']; auto.
              apply Qlt_le_weak. assumption.
            * intros z [<-|Hz]; auto. destruct (I2 z Hz); auto. }
      induction (map inject_Z zs) as [|x l IH]; simpl; [constructor|]. apply I. assumption. }
    clear - S. induction z2 as [|a l IH]; [constructor|]. cbn [map] in S. inversion S as [|x y S1 S2 Eq]; subst.
    constructor; [apply IH; assumption|]. rewrite Forall_forall in *. intros b Hb.
    rewrite Zle_Qle. apply S2. apply in_map. assumption. }
  exists z1. split; [apply Permutation_sym; assumption|]. split; [assumption|]. split; [assumption|].
  rewrite E2. f_equal. apply zdesc_unique; auto. rewrite <- P2. assumption.
Qed.

(** ** The relation between the two runs *)

Definition prel (K : Z) (fp : double) (qp : Q) : Prop :=
  exists b z, fp = B2SF b /\ rep z b /\ (qp == inject_Z z)%Q /\ small K z.

Definition crel (K : Z) (fc : list double) (qc : category) : Prop :=
  exists zs, fc = map fint zs /\ cvalues qc = map inject_Z zs /\ Forall (small K) zs.

Lemma small_le : forall K K' z, K <= K' -> small K z -> small K' z.
Proof. unfold small. lia. Qed.

Lemma dot_rel : forall K fps qps, Forall2 (prel K) fps qps -> forall recipe bacc a,
  Forall (fun r => (r <= 1)%nat) recipe -> rep a bacc -> 0 <= K -> small (2 ^ 53 - Z.of_nat (length fps) * K) a ->
  exists b z, f_dot_from (B2SF bacc) fps recipe = B2SF b /\ rep (a + z) b /\ (dot qps recipe == inject_Z z)%Q
              /\ small (Z.of_nat (length fps) * K) z.
Proof.
  intros K fps qps H. induction H as [|fp qp fps qps (bp & zp & Efp & Rp & Eqp & Sp) H IH]; intros [|r recipe] bacc a Hr Ra HK Sa.
  - exists bacc, 0. simpl. rewrite Z.add_0_r. split; [reflexivity|]. split; [assumption|]. split; [reflexivity|]. unfold small. lia.
  - exists bacc, 0. simpl. rewrite Z.add_0_r. split; [reflexivity|]. split; [assumption|]. split; [reflexivity|]. unfold small. lia.
  - exists bacc, 0. cbn [f_dot_from dot]. rewrite Z.add_0_r. split; [reflexivity|]. split; [assumption|]. split; [reflexivity|].
    unfold small. cbn [length]. lia.
  - cbn [f_dot_from dot length] in *. inversion Hr as [|x y Hr1 Hr2 Eq]; subst. unfold small in *.
    assert (Z1 : Z.abs (zp * Z.of_nat r) <= K) by (destruct r as [|[|r]]; [rewrite Z.mul_0_r; simpl; lia|rewrite Z.mul_1_r; lia|lia]).
    assert (B53 : K <= 2 ^ 53) by nia.
    assert (R1 : rep (zp * Z.of_nat r) (Bmult mode_NE bp (bint (Z.of_nat r)))).
    { apply rep_mul; [assumption|apply rep_int; destruct r as [|[|r]]; simpl; lia|lia]. }
    assert (R2 : rep (a + zp * Z.of_nat r) (Bplus mode_NE bacc (Bmult mode_NE bp (bint (Z.of_nat r))))).
    { apply rep_add; [assumption..|]. nia. }
    rewrite int_B, mul_B, add_B.
    destruct (IH recipe _ _ Hr2 R2 HK) as (b & z & E & R & D & S); [nia|].
    exists b, (zp * Z.of_nat r + z). split; [assumption|]. split; [rewrite Z.add_assoc; assumption|].
    split; [|nia]. rewrite D, Eqp, inject_Z_plus, inject_Z_mult. reflexivity.
Qed.

Lemma argmax_rel : forall fkey qkey l best,
  (forall a b, In a (best :: l) -> In b (best :: l) -> flt (fkey a) (fkey b) = Qlt_bool (qkey a) (qkey b)) ->
  f_argmax_from fkey best l = argmax_from qkey best l.
Proof.
  induction l as [|x l IH]; intros best H; simpl; [reflexivity|].
  rewrite (H best x) by (simpl; auto). destruct (Qlt_bool _ _); apply IH; intros a b Ha Hb; apply H; simpl in *; tauto.
Qed.

Lemma potential_rel : forall K N cats qcats recipe, Forall2 (crel K) cats qcats ->
  Forall (fun r => (r <= 1)%nat) recipe -> Forall (fun c => (length c <= N)%nat) cats -> Z.of_nat N <= 2 ^ 53 ->
  forall a b, In a (relevant recipe) -> In b (relevant recipe) ->
  flt (f_potential cats recipe a) (f_potential cats recipe b)
  = Qlt_bool (fractional_potential_ps qcats recipe a) (fractional_potential_ps qcats recipe b).
Proof.
  intros K N cats qcats recipe H R1 HN HB a b Ha Hb.
  assert (One : forall i, In i (relevant recipe) -> nth i recipe 0%nat = 1%nat).
  { intros i Hi. destruct (relevant_in _ _ Hi) as (r & E). rewrite (nth_error_nth _ _ _ E).
    rewrite Forall_forall in R1. apply nth_error_In in E. apply R1 in E. lia. }
  assert (Sz : forall i, nth i (map csize qcats) 0%nat = length (nth i cats [])).
  { clear - H. induction H as [|c q cats qcats (zs & E1 & E2 & _) H IH]; intros [|i]; simpl; auto.
    unfold csize. rewrite E1, E2, !map_length. reflexivity. }
  assert (LN : forall i, Z.abs (Z.of_nat (length (nth i cats []))) <= 2 ^ 53).
  { intros i. destruct (Nat.lt_ge_cases i (length cats)) as [L|L].
    - rewrite Forall_forall in HN. pose proof (HN _ (nth_In cats [] L)). lia.
    - rewrite nth_overflow by assumption. simpl. lia. }
  unfold f_potential, fractional_potential_ps. rewrite (One a Ha), (One b Hb), !Sz.
  change (fint (Z.of_nat 1)) with (fint 1). rewrite !int_B, !div_B.
  rewrite (rep_lt (Z.of_nat (length (nth a cats []))) (Z.of_nat (length (nth b cats [])))).
  2,3: apply rep_div1; [apply rep_int; apply LN|apply rep_1].
  unfold Qlt_bool, Qle_bool. cbn. rewrite !Z.mul_1_r. apply Z.ltb_antisym.
Qed.

Lemma get_rel : forall A B (P : A -> B -> Prop) l l' i x, Forall2 P l l' -> nth_error l i = Some x ->
  exists y, nth_error l' i = Some y /\ P x y.
Proof.
  intros A B P l l' i x H. revert i. induction H as [|a b l l' H1 H2 IH]; intros [|i] E; simpl in *; try discriminate; eauto.
  inversion E; subst. eauto.
Qed.

Lemma Forall2_mono : forall A B (P P' : A -> B -> Prop) l l', (forall x y, P x y -> P' x y) -> Forall2 P l l' -> Forall2 P' l l'.
Proof. intros A B P P' l l' H F. induction F; constructor; auto. Qed.

Lemma loop_rel : forall K N recipe, 0 <= K -> Forall (fun r => (r <= 1)%nat) recipe ->
  (Z.of_nat (length recipe) + 2) * K <= 2 ^ 53 -> Z.of_nat N <= 2 ^ 53 ->
  forall fuel cats prices qcats pv res,
  Forall2 (crel K) cats qcats -> Forall2 (prel K) prices (pv_prices pv) -> pv_recipe pv = recipe ->
  length cats = length recipe -> length prices = length recipe -> Forall (fun c => (length c <= N)%nat) cats ->
  f_loop fuel recipe cats prices = Ok res ->
  exists qs, ascending_loop fuel recipe (qcats, pv) = Ok qs /\ Forall2 (crel K) (fst res) (fst qs)
             /\ Forall2 (prel ((Z.of_nat (length recipe) + 1) * K)) (snd res) (pv_prices (snd qs)).
Proof.
  intros K N recipe HK R1 HB HN.
  induction fuel as [|fuel IH]; intros cats prices qcats pv res Hc Hp Hr Lc Lp HL H; [discriminate|].
  assert (Up : Forall2 (prel ((Z.of_nat (length recipe) + 1) * K)) prices (pv_prices pv)).
  { eapply Forall2_mono; [|exact Hp]. intros x y (b & z & E1 & E2 & E3 & E4). exists b, z. repeat split; auto; try apply E2.
    unfold small in *. nia. }
  cbn [f_loop] in H. cbn [ascending_loop]. unfold ascending_round, argmax.
  change (relevant_indices recipe) with (relevant recipe).
  change (filter _ _) with (relevant recipe) in H.
  destruct (relevant recipe) as [|x l] eqn:R; [discriminate|].
  rewrite (argmax_rel _ (fractional_potential_ps qcats recipe)) in H.
  2:{ intros a b Ha Hb. eapply potential_rel; eauto; rewrite R; assumption. }
  assert (Im : In (argmax_from (fractional_potential_ps qcats recipe) x l) (relevant recipe)).
  { rewrite R. rewrite <- (argmax_rel (f_potential cats recipe)); [apply argmax_in|].
    intros a b Ha Hb. eapply potential_rel; eauto; rewrite R; assumption. }
  cbn [bind]. set (main := argmax_from _ _ _) in *.
  destruct (relevant_in _ _ Im) as (r & Hmr).
  assert (r = 0%nat) by (rewrite Forall_forall in R1; pose proof (R1 _ (nth_error_In _ _ Hmr)); lia). subst r.
  assert (Hi : (main < length recipe)%nat) by (apply nth_error_Some; congruence).
  destruct (nth_error cats main) as [c|] eqn:Hcm; [|apply nth_error_None in Hcm; lia].
  destruct (nth_error prices main) as [p|] eqn:Hpm; [|apply nth_error_None in Hpm; lia].
  destruct (get_rel _ _ _ _ _ _ _ Hc Hcm) as (qc & Hqc & zs & Ec & Eqc & Szs).
  destruct (get_rel _ _ _ _ _ _ _ Hp Hpm) as (qp & Hqp & bp & zp & Ep & Rp & Eqp & Szp).
  unfold get in H |- *. rewrite Hcm in H. rewrite Hqc. cbn [bind] in H |- *.
  unfold csize, lowest_agent_value, remove_lowest_agent. rewrite Eqc, map_length.
  destruct (rev c) as [|low rc] eqn:Rc.
  { assert (c = []) by (rewrite <- (rev_involutive c), Rc; reflexivity). subst c. destruct zs; [|discriminate].
    simpl. eexists. split; [reflexivity|]. inversion H; subst. split; assumption. }
  apply rev_last in Rc.
  assert (E : exists zl z, zs = zl ++ [z] /\ low = fint z /\ removelast c = map fint zl).
  { destruct (list_eq_dec Z.eq_dec zs []) as [->|NE].
    - exfalso. subst c. symmetry in Rc. apply app_eq_nil in Rc. destruct Rc as [_ Rc]. discriminate.
    - destruct (exists_last NE) as (zs0 & z0 & Ez). exists zs0, z0. split; [assumption|].
      rewrite Ec, Ez, map_app in Rc. rewrite Ec, Ez, map_app. cbn [map] in Rc |- *.
      rewrite removelast_app in Rc by discriminate. rewrite removelast_app by discriminate.
      cbn [removelast] in Rc |- *. rewrite app_nil_r in Rc. rewrite app_nil_r.
      apply app_inj_tail in Rc. split; [symmetry; apply Rc|reflexivity]. }
  destruct E as (zl & z & Ez & El & Er).
  assert (Lz : (length zs =? 0)%nat = false) by (rewrite Ez, app_length; simpl; apply Nat.eqb_neq; lia).
  rewrite Lz.
  assert (Eqlow : match map inject_Z zs with [] => Raise IndexError | v :: l0 => Ok (last (v :: l0) 0%Q) end = Ok (inject_Z z)).
  { rewrite Ez, map_app. cbn [map]. rewrite <- (last_last (map inject_Z zl) (inject_Z z) 0%Q) at 2.
    destruct (map inject_Z zl ++ [inject_Z z]) as [|v vl] eqn:Q; [|reflexivity].
    apply app_eq_nil in Q. destruct Q as [_ Q]. discriminate. }
  assert (Eqrem : match map inject_Z zs with [] => Raise IndexError | v :: l0 => Ok (mkCat (cname qc) (removelast (v :: l0))) end
                  = Ok (mkCat (cname qc) (map inject_Z zl))).
  { rewrite Ez, map_app. cbn [map].
    assert (RL : removelast (map inject_Z zl ++ [inject_Z z]) = map inject_Z zl)
      by (rewrite removelast_app by discriminate; cbn [removelast]; apply app_nil_r).
    destruct (map inject_Z zl ++ [inject_Z z]) as [|v vl] eqn:Q; [|rewrite RL; reflexivity].
    apply app_eq_nil in Q. destruct Q as [_ Q]. discriminate. }
  cbv zeta in Eqlow, Eqrem.
  rewrite Eqlow. cbn [bind].
  (* the price increase *)
  assert (Sz : small K z) by (rewrite Ez in Szs; apply Forall_app in Szs; destruct Szs as [_ Q]; inversion Q; assumption).
  unfold f_increase, f_sum_without, get in H. rewrite Hmr, Hpm in H. cbn [bind] in H.
  unfold increase_price_up_to_balance, price_sum_without_category, get. rewrite Hr, Hmr, Hqp. cbn [bind].
  unfold price_sum. rewrite Hr.
  change (fint (Z.of_nat 1)) with (fint 1) in H.
  assert (K1 : K <= 2 ^ 53) by nia.
  destruct (dot_rel K prices (pv_prices pv) Hp recipe (bint 0) 0 R1) as (bd & zd & Ed & Rd & Dd & Sd);
    [apply rep_int; lia|assumption|unfold small; rewrite Lp; nia|].
  unfold f_dot in H. rewrite int_B in H. rewrite Ed in H. rewrite Ep in H. rewrite Z.add_0_l in Rd.
  rewrite (int_B 1), mul_B, sub_B in H. unfold small in *. rewrite Lp in Sd.
  assert (Rw : rep (zd - 1 * zp) (Bminus mode_NE bd (Bmult mode_NE (bint 1) bp))).
  { apply rep_sub; [assumption|apply rep_mul; [apply rep_1|assumption|lia]|nia]. }
  set (bw := Bminus mode_NE bd _) in *.
  rewrite El, (int_B z), mul_B, add_B in H.
  assert (Rs : rep (zd - 1 * zp + 1 * z) (Bplus mode_NE bw (Bmult mode_NE (bint 1) (bint z)))).
  { apply rep_add; [assumption|apply rep_mul; [apply rep_1|apply rep_int; lia|lia]|nia]. }
  rewrite (rep_le 0 _ _ _ (rep_int 0 ltac:(lia)) Rs) in H.
  assert (Ew : (dot (pv_prices pv) recipe - Qn 1 * qp == inject_Z (zd - 1 * zp))%Q).
  { rewrite Dd, Eqp. unfold Qn. rewrite <- inject_Z_mult. unfold Zminus. rewrite inject_Z_plus, inject_Z_opp. reflexivity. }
  assert (Et : Qle_bool 0 (dot (pv_prices pv) recipe - Qn 1 * qp + Qn 1 * inject_Z z) = (0 <=? zd - 1 * zp + 1 * z)).
  { apply Bool.eq_true_iff_eq. rewrite Qle_bool_iff, Z.leb_le, Ew. unfold Qn. rewrite <- inject_Z_mult, <- inject_Z_plus.
    change 0%Q with (inject_Z 0). rewrite <- Zle_Qle. reflexivity. }
  rewrite Et. destruct (0 <=? zd - 1 * zp + 1 * z).
  - change (1 =? 0)%nat with false in H |- *. cbv iota in H |- *. cbn [bind fst snd pv_status pv_prices] in H |- *.
    match type of H with Ok ?a = Ok ?b => assert (HE : b = a) by congruence end. clear H. rewrite HE. clear res HE.
    eexists. split; [reflexivity|]. cbn [fst snd pv_prices]. split; [assumption|].
    apply Forall2_set; [assumption|].
    rewrite ?int_B, sub_B, div_B. exists (Bdiv mode_NE (Bminus mode_NE (bint 0) bw) (bint 1)), (0 - (zd - 1 * zp)).
    split; [reflexivity|]. split.
    { apply rep_div1; [|apply rep_1]. apply rep_sub; [apply rep_int; lia|assumption|nia]. }
    split; [|unfold small; nia].
    rewrite Ew. generalize (zd - 1 * zp). intros y. replace (0 - y) with (- y) by lia. rewrite inject_Z_opp.
    change (Qn 1) with 1%Q. field.
  - cbn [bind fst snd pv_status pv_prices pv_recipe] in H |- *. rewrite Eqrem. cbn [bind fst snd].
    apply IH with (qcats := set_nth main (mkCat (cname qc) (map inject_Z zl)) qcats)
      (pv := mkPV recipe (set_nth main (inject_Z z) (pv_prices pv)) (Some STOPPED_AT_AGENT_VALUE)) in H;
      cbn [pv_prices pv_recipe]; rewrite ?set_len; auto.
    + apply Forall2_set; [assumption|]. exists zl. split; [assumption|]. split; [reflexivity|].
      rewrite Ez in Szs. apply Forall_app in Szs. apply Szs.
    + apply Forall2_set; [assumption|]. exists (bint z), z. split; [reflexivity|]. split; [apply rep_int; lia|].
      split; [reflexivity|assumption].
    + rewrite Forall_forall in *. intros d Hd. apply In_nth_error in Hd. destruct Hd as (j & Hj).
      destruct (Nat.eq_dec main j) as [<-|NE].
      * rewrite nth_set_same in Hj by lia. inversion Hj; subst d. rewrite Er, map_length.
        pose proof (HL _ (nth_error_In _ _ Hcm)). subst c. rewrite Ez, map_length, app_length in H0. lia.
      * rewrite nth_set_other in Hj by assumption. apply HL. eapply nth_error_In. eassumption.
Qed.

(** ** Whole runs *)

Lemma start_rel : forall K zs m, K <= 2 ^ 53 -> map cvalues m = map (map inject_Z) zs -> Forall (Forall (small K)) zs ->
  Forall2 (crel K) (map f_sort (map (map fint) zs)) (clone_market m).
Proof.
  intros K zs. induction zs as [|z zs IH]; intros [|c m] HK E F; try discriminate; [constructor|].
  cbn [map] in E. injection E as Ec Em. inversion F as [|x y F1 F2 Eq]; subst.
  cbn [map clone_market]. constructor; [|apply IH; assumption].
  destruct (sort_int z) as (z' & P & _ & E1 & E2).
  { rewrite Forall_forall in *. intros a Ha. apply F1 in Ha. unfold small in *. lia. }
  exists z'. split; [assumption|]. split.
  - unfold clone, new_category. cbn [cvalues]. rewrite Ec. assumption.
  - rewrite Forall_forall in *. intros a Ha. apply F1. apply (Permutation_in _ P). assumption.
Qed.

Lemma crel_values : forall K fcs qcs, Forall2 (crel K) fcs qcs ->
  exists zs, fcs = map (map fint) zs /\ map cvalues qcs = map (map inject_Z) zs.
Proof.
  intros K fcs qcs H. induction H as [|f q fcs qcs (z & E1 & E2 & _) H (zs & E3 & E4)].
  - exists []. split; reflexivity.
  - exists (z :: zs). cbn [map]. split; congruence.
Qed.

Lemma rep_is_int : forall z b, Z.abs z <= 2 ^ 53 -> rep z b -> is_int z (B2SF b).
Proof.
  intros z b Hz [F E]. unfold is_int. rewrite int_B. destruct (rep_int z Hz) as [F' E'].
  change (SFeqb (B2SF b) (B2SF (bint z))) with (Beqb b (bint z)). rewrite Beqb_correct by assumption.
  rewrite E, E'. apply Req_bool_true. reflexivity.
Qed.

Lemma prel_ints : forall K fps qps, K <= 2 ^ 53 -> Forall2 (prel K) fps qps ->
  exists ps, Forall2 is_int ps fps /\ Forall2 (fun z q => (q == inject_Z z)%Q) ps qps.
Proof.
  intros K fps qps HK H. induction H as [|f q fps qps (b & z & E1 & R & E2 & S) H (ps & A & B)].
  - exists []. split; constructor.
  - exists (z :: ps). unfold small in S. split; constructor; auto. subst f. apply rep_is_int; [lia|assumption].
Qed.

Lemma new_trade_fields : forall cats recipe p t, new_trade cats recipe p = Ok t -> tcats t = cats /\ tprices t = p.
Proof. intros cats recipe p t H. unfold new_trade in H. destruct (min_list _); inversion H; subst. split; reflexivity. Qed.

Lemma potential_nonempty : forall cats recipe, length recipe = length cats -> Exists (fun r => (0 < r)%nat) recipe ->
  potential_deals cats recipe <> [].
Proof.
  intros cats recipe L E. unfold potential_deals. intros H. apply map_eq_nil in H. revert cats L H.
  induction E as [r recipe Hr|r recipe E IH]; intros [|c cats] L H; try discriminate; cbn [combine filter snd] in H.
  - rewrite (proj2 (Nat.ltb_lt _ _) Hr) in H. discriminate.
  - destruct (0 <? r)%nat; [discriminate|]. apply (IH cats); [simpl in L; lia|assumption].
Qed.

Lemma float_run_rel : forall zs recipe K m,
  map cvalues m = map (map inject_Z) zs -> length recipe = length zs ->
  Exists (fun r => (0 < r)%nat) recipe -> Forall (fun r => (r <= 1)%nat) recipe ->
  Forall (Forall (fun z => Z.abs z <= K)) zs -> 100000000 <= K ->
  (Z.of_nat (length recipe) + 2) * K <= 2 ^ 53 -> Z.of_nat (nsum (map (@length Z) zs)) <= 2 ^ 53 ->
  exists fcs fps t prices, f_auction (map (map fint) zs) recipe = Ok (fcs, fps) /\ ascending_auction m recipe = Ok t
    /\ tprices t = Some prices
    /\ Forall2 (crel K) fcs (tcats t) /\ Forall2 (prel ((Z.of_nat (length recipe) + 1) * K)) fps prices.
Proof.
  intros zs recipe K m Em Lr Ex R1 Sz HK HB HN.
  assert (Lm : length m = length zs) by (rewrite <- (map_length cvalues m), Em, map_length; reflexivity).
  destruct (auction_ends (map (map fint) zs) recipe) as (res & E); [rewrite map_length; assumption|assumption|].
  pose proof E as E0. unfold f_auction in E.
  destruct (length recipe =? length (map (map fint) zs))%nat eqn:El; [|discriminate].
  assert (EN : nsum (map (@length double) (map (map fint) zs)) = nsum (map (@length Z) zs)).
  { f_equal. rewrite map_map. apply map_ext. intros. apply map_length. }
  assert (ET : (total_agents m + 1 = S (nsum (map (@length Z) zs)))%nat).
  { rewrite Nat.add_1_r. f_equal. unfold total_agents. f_equal.
    transitivity (map (@length Q) (map cvalues m)); [rewrite map_map; reflexivity|]. rewrite Em, map_map.
    apply map_ext. intros. apply map_length. }
  apply (loop_rel K (nsum (map (@length Z) zs)) recipe) with (qcats := clone_market m)
    (pv := new_price_vector recipe (- MAX_VALUE)) in E; auto; try lia.
  - destruct E as (qs & E1 & E2 & E3). destruct res as [fcs fps].
    assert (L3 : length (fst qs) = length recipe).
    { apply Forall2_length in E2. rewrite <- E2. cbn [fst].
      pose proof (float_best _ _ _ _ E0) as F. apply Forall2_length in F. rewrite <- F, map_length. auto. }
    assert (T : exists t, new_trade (fst qs) recipe (Some (pv_prices (snd qs))) = Ok t).
    { unfold new_trade. pose proof (potential_nonempty (fst qs) recipe ltac:(auto) Ex) as P.
      destruct (potential_deals (fst qs) recipe) as [|d l]; [congruence|]. simpl. destruct (min_list l); eexists; reflexivity. }
    destruct T as (t & T). destruct (new_trade_fields _ _ _ _ T) as [T1 T2].
    exists fcs, fps, t, (pv_prices (snd qs)). split; [assumption|]. split.
    { unfold ascending_auction, ascending_auction_M. rewrite Lm, <- Lr, Nat.eqb_refl, ET. rewrite EN in E1.
      unfold ascending_start. match goal with |- bind ?x _ = _ => assert (X : x = Ok qs) by exact E1; rewrite X end. cbn [bind]. assumption. }
    split; [assumption|]. rewrite T1. split; assumption.
  - apply start_rel; auto. nia.
  - unfold new_price_vector. cbn [pv_prices].
    assert (R : prel K (fint (-100000000)) (- MAX_VALUE)%Q).
    { exists (bint (-100000000)), (-100000000). split; [apply int_B|]. split; [apply rep_int; lia|]. split; [reflexivity|].
      unfold small. lia. }
    clear - R. generalize (length recipe). intros n. induction n as [|n IH]; cbn [repeat]; [apply Forall2_nil|apply Forall2_cons; assumption].
  - rewrite !map_length. auto.
  - rewrite repeat_length. reflexivity.
  - rewrite Forall_forall. intros c Hc. apply in_map_iff in Hc. destruct Hc as (d & <- & Hd). rewrite sort_len.
    apply in_map_iff in Hd. destruct Hd as (z & <- & Hz). rewrite map_length. clear - Hz.
    unfold nsum. induction zs as [|a zs IH]; [destruct Hz|]. destruct Hz as [->|Hz]; simpl; [lia|]. apply IH in Hz. lia.
Qed.

Lemma float_exact : forall zs recipe K m,
  map cvalues m = map (map inject_Z) zs -> length recipe = length zs ->
  Exists (fun r => (0 < r)%nat) recipe -> Forall (fun r => (r <= 1)%nat) recipe ->
  Forall (Forall (fun z => Z.abs z <= K)) zs -> 100000000 <= K ->
  (Z.of_nat (length recipe) + 2) * K <= 2 ^ 53 -> Z.of_nat (nsum (map (@length Z) zs)) <= 2 ^ 53 ->
  exists zs' ps fps t prices,
    f_auction (map (map fint) zs) recipe = Ok (map (map fint) zs', fps) /\ Forall2 is_int ps fps
    /\ ascending_auction m recipe = Ok t
    /\ map cvalues (tcats t) = map (map inject_Z) zs' /\ tprices t = Some prices
    /\ Forall2 (fun z q => (q == inject_Z z)%Q) ps prices.
Proof.
  intros zs recipe K m Em Lr Ex R1 Sz HK HB HN.
  destruct (float_run_rel zs recipe K m) as (fcs & fps & t & prices & A & B & C & D & E); auto.
  destruct (crel_values _ _ _ D) as (zs' & -> & Ev). destruct (prel_ints ((Z.of_nat (length recipe) + 1) * K) fps prices ltac:(nia) E) as (ps & P1 & P2).
  exists zs', ps, fps, t, prices. auto 10.
Qed.

(** ** Exact budget balance *)

Lemma deals_rel : forall K fcs qcs, Forall2 (crel K) fcs qcs -> forall recipe, f_deals fcs recipe = potential_deals qcs recipe.
Proof.
  intros K fcs qcs H. induction H as [|f q fcs qcs (z & E1 & E2 & _) H IH]; intros [|r recipe]; try reflexivity.
  unfold potential_deals. cbn [f_deals combine filter snd]. destruct r as [|r].
  - cbn. rewrite IH. reflexivity.
  - cbn [Nat.ltb Nat.leb map fst snd]. unfold csize. rewrite E1, E2, !map_length. f_equal. apply IH.
Qed.

Lemma float_balanced : forall zs recipe K fcs fps,
  length recipe = length zs -> Exists (fun r => (0 < r)%nat) recipe -> Forall (fun r => (r <= 1)%nat) recipe ->
  Forall (Forall (fun z => Z.abs z <= K)) zs -> 100000000 <= K ->
  (Z.of_nat (length recipe) + 2) * (Z.of_nat (length recipe) + 1) * K <= 2 ^ 53 -> Z.of_nat (nsum (map (@length Z) zs)) <= 2 ^ 53 ->
  f_auction (map (map fint) zs) recipe = Ok (fcs, fps) -> Forall (fun n => (0 < n)%nat) (f_deals fcs recipe) ->
  is_int 0 (f_dot fps recipe).
Proof.
  intros zs recipe K fcs fps Lr Ex R1 Sz HK HB HN HA HD.
  set (m := map (fun z => mkCat String.EmptyString (map inject_Z z)) zs).
  assert (Em : map cvalues m = map (map inject_Z) zs).
  { unfold m. rewrite map_map. reflexivity. }
  destruct (float_run_rel zs recipe K m) as (fcs' & fps' & t & prices & A & B & C & D & E); auto; [nia|].
  rewrite HA in A. injection A as <- <-.
  assert (ND : (0 < num_of_deals t)%nat).
  { rewrite (deals_rel _ _ _ D) in HD. unfold ascending_auction, ascending_auction_M in B.
    destruct (_ =? _)%nat; [|discriminate]. apply bind_Ok in B. destruct B as (s & _ & B).
    pose proof (new_trade_fields _ _ _ _ B) as [T1 _]. rewrite T1 in HD.
    unfold new_trade in B. destruct (min_list (potential_deals (fst s) recipe)) as [d|] eqn:Q; [|discriminate].
    inversion B; subst t. unfold num_of_deals. cbn [tdeals]. clear - HD Q. revert d Q.
    induction HD as [|x l Hx H IH]; intros d Q; [discriminate|]. simpl in Q. destruct (min_list l) as [d'|].
    - inversion Q; subst. specialize (IH d' eq_refl). lia.
    - inversion Q; subst. assumption. }
  destruct (Proof_Ascending2.ascending_sbb MAX_VALUE (total_agents m + 1) m recipe t) as (pr & P1 & P2 & P3); auto; [reflexivity|].
  rewrite C in P1. injection P1 as <-.
  assert (Lf : length fps = length recipe).
  { assert (X : length fps = length prices) by (eapply Forall2_length; exact E). rewrite X, P2. unfold m. rewrite map_length. auto. }
  destruct (dot_rel _ _ _ E recipe (bint 0) 0 R1) as (b & z & F1 & F2 & F3 & F4);
    [apply rep_int; lia|nia|unfold small; rewrite Lf; nia|].
  unfold f_dot. rewrite int_B, F1. rewrite Z.add_0_l in F2.
  assert (z = 0).
  { rewrite P3 in F3. unfold Qeq in F3. simpl in F3. lia. }
  subst z. apply rep_is_int; [lia|assumption].
Qed.
