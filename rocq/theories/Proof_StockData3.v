(** * Proofs about the stock prices, continued (C85): balance, signs, which sellers, the shuffled prices *)

From Coq Require Import String List Arith Lia ZArith QArith Qround Lqa Permutation Bool.
From Verif Require Import Base Model_Experiment Model_StockData Spec_StockData Proof_StockData Proof_StockData2.
Import ListNotations.
Open Scope Q_scope.

Lemma py_int_Z : forall q z, q == inject_Z z -> py_int q = z.
Proof.
  intros q z H. rewrite (py_int_comp _ _ H). unfold py_int. destruct (Qle_bool 0 (inject_Z z)); [apply Qfloor_Z|apply Qceiling_Z].
Qed.

Lemma truncation_sign : forall q z, truncation q z -> (0 <= q -> (0 <= z)%Z) /\ (q <= 0 -> (z <= 0)%Z).
Proof. intros q z [A B]. split; intros H; [apply A|apply B]; exact H. Qed.

Lemma thousands_pos : forall x, 0 <= x -> (0 <= thousands x)%Z.
Proof. intros x H. apply (truncation_sign _ _ (thousands_truncation x)). lra. Qed.

Lemma thousands_neg : forall x, x <= 0 -> (thousands x <= 0)%Z.
Proof. intros x H. apply (truncation_sign _ _ (thousands_truncation x)). lra. Qed.

Lemma in_concat_repeat : forall {A B} (g : A -> B) r l x, In x (concat (map (fun i => repeat (g i) r) l)) -> exists i, In i l /\ x = g i.
Proof.
  intros A B g r l x H. apply in_concat in H. destruct H as (c & Hc & Hx). apply in_map_iff in Hc. destruct Hc as (i & <- & Hi).
  exists i. split; [exact Hi|]. apply repeat_spec in Hx. exact Hx.
Qed.

Lemma source_range : forall L K j i, In i (source L K j) -> (i < L)%nat.
Proof.
  intros L K j i H. unfold source in H. apply in_map_iff in H. destruct H as (q & <- & Hq). apply in_seq in Hq.
  apply Nat.mod_upper_bound. lia.
Qed.

(** ** A property of all prices carries over *)
Lemma in_array_add : forall a b x, In x (array_add a b) -> exists u v, In u a /\ In v b /\ x = u + v.
Proof.
  intros a b x H. unfold array_add in H. apply in_map_iff in H. destruct H as ((u & v) & <- & H).
  exists u, v. split; [apply (in_combine_l _ _ _ _ H)|]. split; [apply (in_combine_r _ _ _ _ H)|reflexivity].
Qed.

Lemma in_array_opp : forall a x, In x (array_opp a) -> exists u, In u a /\ x == - u.
Proof. intros a x H. unfold array_opp in H. apply in_map_iff in H. destruct H as (u & <- & H). exists u. split; [exact H|]. ring. Qed.

(** Every category of the file is a list of thousandths of multiples of prices. *)
Lemma origin : forall f n recipe cats j cat z, days n f -> get_prices f recipe = Ok cats ->
  nth_error cats j = Some cat -> In z cat ->
  exists x, z = thousands x /\
    match j with
    | O => exists u v k, In u (high f ++ close f) /\ In v (high f ++ close f) /\ ((k = 0 /\ x == u + v) \/ (x == u * k /\ 0 <= k))
    | S _ => exists u v k, In u (open_ f ++ low f) /\ In v (open_ f ++ low f) /\ ((k = 0 /\ x == - u - v) \/ (k = 1 /\ x == - u))
    end.
Proof.
  intros f n recipe cats j cat z D E N I.
  assert (HM : forall l, In z (map thousands l) -> exists x, z = thousands x /\ In x l).
  { intros l H. apply in_map_iff in H. destruct H as (x & <- & H). exists x. auto. }
  assert (B1 : forall l, incl l (high f ++ close f) -> In z (map thousands l) -> exists x, z = thousands x /\ exists u v k, In u (high f ++ close f) /\ In v (high f ++ close f) /\ ((k = 0 /\ x == u + v) \/ (x == u * k /\ 0 <= k))).
  { intros l HI H. destruct (HM _ H) as (x & -> & Hx). exists x. split; [reflexivity|]. exists x, x, 1. split; [apply HI; exact Hx|]. split; [apply HI; exact Hx|].
    right. split; [ring|lra]. }
  assert (B2 : In z (map thousands (array_add (high f) (close f))) -> exists x, z = thousands x /\ exists u v k, In u (high f ++ close f) /\ In v (high f ++ close f) /\ ((k = 0 /\ x == u + v) \/ (x == u * k /\ 0 <= k))).
  { intros H. destruct (HM _ H) as (x & -> & Hx). exists x. split; [reflexivity|]. destruct (in_array_add _ _ _ Hx) as (u & v & Hu & Hv & ->).
    exists u, v, 0. rewrite !in_app_iff. split; [left; exact Hu|]. split; [right; exact Hv|]. left. split; reflexivity. }
  assert (S1 : forall l, incl l (open_ f ++ low f) -> In z (map thousands (array_opp l)) -> exists x, z = thousands x /\ exists u v k, In u (open_ f ++ low f) /\ In v (open_ f ++ low f) /\ ((k = 0 /\ x == - u - v) \/ (k = 1 /\ x == - u))).
  { intros l HI H. destruct (HM _ H) as (x & -> & Hx). exists x. split; [reflexivity|]. destruct (in_array_opp _ _ Hx) as (u & Hu & Ex).
    exists u, u, 1. split; [apply HI; exact Hu|]. split; [apply HI; exact Hu|]. right. split; [reflexivity|exact Ex]. }
  assert (S2 : In z (map thousands (array_add (array_opp (open_ f)) (array_opp (low f)))) -> exists x, z = thousands x /\ exists u v k, In u (open_ f ++ low f) /\ In v (open_ f ++ low f) /\ ((k = 0 /\ x == - u - v) \/ (k = 1 /\ x == - u))).
  { intros H. destruct (HM _ H) as (x & -> & Hx). exists x. split; [reflexivity|]. destruct (in_array_add _ _ _ Hx) as (u' & v' & Hu & Hv & ->).
    destruct (in_array_opp _ _ Hu) as (u & Iu & Eu). destruct (in_array_opp _ _ Hv) as (v & Iv & Ev).
    exists u, v, 0. rewrite !in_app_iff. split; [left; exact Iu|]. split; [right; exact Iv|]. left. split; [reflexivity|rewrite Eu, Ev; ring]. }
  assert (J1 : incl (high f) (high f ++ close f)) by apply incl_appl, incl_refl.
  assert (J2 : incl (open_ f) (open_ f ++ low f)) by apply incl_appl, incl_refl.
  assert (J3 : incl (low f) (open_ f ++ low f)) by apply incl_appr, incl_refl.
  destruct (special_dec recipe) as [[->|[->|[->|[->|[a ->]]]]]|NS].
  - unfold get_prices in E. cbn [get_prices_raw bind map] in E. injection E as <-.
    destruct j as [|[|j]]; cbn [nth_error] in N; try injection N as <-.
    + apply (B1 _ (incl_refl _)). exact I.
    + apply (S1 _ (incl_refl _)). unfold array_opp in *. rewrite map_app. exact I.
    + destruct j; discriminate.
  - unfold get_prices in E. cbn [get_prices_raw bind map] in E. injection E as <-.
    destruct j as [|[|j]]; cbn [nth_error] in N; try injection N as <-.
    + apply (B1 _ (incl_refl _)). exact I.
    + apply S2. exact I.
    + destruct j; discriminate.
  - unfold get_prices in E. cbn [get_prices_raw bind map] in E. injection E as <-.
    destruct j as [|[|j]]; cbn [nth_error] in N; try injection N as <-.
    + apply B2. exact I.
    + apply (S1 _ (incl_refl _)). unfold array_opp in *. rewrite map_app. exact I.
    + destruct j; discriminate.
  - unfold get_prices in E. cbn [get_prices_raw bind map] in E. injection E as <-.
    destruct j as [|[|[|j]]]; cbn [nth_error] in N; try injection N as <-.
    + apply (B1 _ (incl_refl _)). exact I.
    + apply (S1 _ J2). exact I.
    + apply (S1 _ J3). exact I.
    + destruct j; discriminate.
  - unfold get_prices in E. rewrite raw_three in E. cbn [bind map] in E. injection E as <-.
    destruct j as [|[|[|j]]]; cbn [nth_error] in N; try injection N as <-.
    + apply B2. exact I.
    + apply (S1 _ J2). exact I.
    + apply (S1 _ J3). exact I.
    + destruct j; discriminate.
  - destruct recipe as [|r0 rest].
    { unfold get_prices in E. rewrite get_prices_raw_general in E by exact NS. discriminate. }
    destruct (general_spec f n r0 rest D NS) as (cats' & E' & L & C0 & CJ). rewrite E in E'. injection E' as <-.
    destruct j as [|j].
    + rewrite C0 in N. injection N as <-. destruct (in_concat_repeat (fun b => thousands (b * Qn (nsum rest))) _ _ _ I) as (b & Hb & ->).
      exists (b * Qn (nsum rest)). split; [reflexivity|]. exists b, b, (Qn (nsum rest)). split; [exact Hb|]. split; [exact Hb|].
      right. split; [reflexivity|]. unfold Qn. change 0 with (inject_Z 0). rewrite <- Zle_Qle. lia.
    + assert (Hj : (j < length rest)%nat) by (assert (S j < length cats)%nat by (apply nth_error_Some; congruence); lia).
      rewrite (CJ j Hj) in N. injection N as <-.
      destruct (in_concat_repeat (fun i => thousands (- nth i (open_ f ++ low f) 0)) _ _ _ I) as (i & Hi & ->).
      apply source_range in Hi. destruct D as (D1 & D2 & D3 & D4).
      exists (- nth i (open_ f ++ low f) 0). split; [reflexivity|].
      assert (HIn : In (nth i (open_ f ++ low f) 0) (open_ f ++ low f)) by (apply nth_In; rewrite app_length; lia).
      exists (nth i (open_ f ++ low f) 0), (nth i (open_ f ++ low f) 0), 1. split; [exact HIn|]. split; [exact HIn|]. right. split; reflexivity.
Qed.

Lemma signs : forall f n recipe cats j cat z, days n f -> Forall (fun x => 0 <= x) (high f ++ close f ++ open_ f ++ low f) ->
  get_prices f recipe = Ok cats -> nth_error cats j = Some cat -> In z cat ->
  (j = 0%nat -> (0 <= z)%Z) /\ (j <> 0%nat -> (z <= 0)%Z).
Proof.
  intros f n recipe cats j cat z D P E N I. destruct (origin f n recipe cats j cat z D E N I) as (x & -> & H).
  rewrite Forall_forall in P.
  destruct j as [|j]; (split; intros Hj; [|]); try discriminate; try (exfalso; apply Hj; reflexivity).
  - destruct H as (u & v & k & Hu & Hv & H). apply thousands_pos.
    assert (0 <= u) by (apply P; rewrite app_assoc; apply in_app_iff; left; exact Hu).
    assert (0 <= v) by (apply P; rewrite app_assoc; apply in_app_iff; left; exact Hv).
    destruct H as [[_ H]|[H K]]; [lra|]. rewrite H. apply Qmult_le_0_compat; assumption.
  - destruct H as (u & v & k & Hu & Hv & H). apply thousands_neg.
    assert (0 <= u) by (apply P; rewrite app_assoc; apply in_app_iff; right; exact Hu).
    assert (0 <= v) by (apply P; rewrite app_assoc; apply in_app_iff; right; exact Hv).
    destruct H as [[_ H]|[_ H]]; lra.
Qed.

(** ** Balance *)
Lemma set_value_const : forall rest vs v, Forall2 (fun (_ : nat) w => w = v) rest vs ->
  set_value rest vs = (Z.of_nat (nsum rest) * v)%Z.
Proof.
  intros rest vs v H. induction H as [|r w rest vs E H IH]; [reflexivity|]. cbn [set_value]. rewrite IH, E.
  change (nsum (r :: rest)) with (r + nsum rest)%nat. nia.
Qed.

Lemma const_vals : forall p P f, constant_price p f -> p * 1000 == inject_Z P ->
  (forall x, In x (high f ++ close f) -> thousands x = P) /\ (forall x, In x (open_ f ++ low f) -> thousands (- x) = (- P)%Z)
  /\ (forall x k, In x (high f ++ close f) -> thousands (x * Qn k) = (P * Z.of_nat k)%Z)
  /\ (forall x, In x (array_add (high f) (close f)) -> thousands x = (2 * P)%Z)
  /\ (forall x, In x (array_opp (open_ f ++ low f)) -> thousands x = (- P)%Z)
  /\ (forall x, In x (array_add (array_opp (open_ f)) (array_opp (low f))) -> thousands x = (- (2 * P))%Z).
Proof.
  intros p P f C HP. unfold constant_price in C. rewrite Forall_forall in C.
  assert (CB : forall x, In x (high f ++ close f) -> x == p) by (intros x H; apply C; rewrite app_assoc; apply in_app_iff; left; exact H).
  assert (CS : forall x, In x (open_ f ++ low f) -> x == p) by (intros x H; apply C; rewrite app_assoc; apply in_app_iff; right; exact H).
  repeat split; intros.
  - apply py_int_Z. rewrite (CB _ H). exact HP.
  - apply py_int_Z. rewrite (CS _ H), inject_Z_opp, <- HP. ring.
  - apply py_int_Z. rewrite (CB _ H), inject_Z_mult, <- HP. unfold Qn. ring.
  - apply py_int_Z. destruct (in_array_add _ _ _ H) as (u & v & Hu & Hv & ->).
    rewrite (CB u), (CB v) by (apply in_app_iff; auto). rewrite inject_Z_mult, <- HP. ring.
  - apply py_int_Z. destruct (in_array_opp _ _ H) as (u & Hu & Ex). rewrite Ex, (CS u Hu), inject_Z_opp, <- HP. ring.
  - apply py_int_Z. destruct (in_array_add _ _ _ H) as (u & v & Hu & Hv & ->).
    destruct (in_array_opp _ _ Hu) as (u' & Iu & Eu). destruct (in_array_opp _ _ Hv) as (v' & Iv & Ev).
    rewrite Eu, Ev, (CS u'), (CS v') by (apply in_app_iff; auto). rewrite inject_Z_opp, inject_Z_mult, <- HP. ring.
Qed.

Lemma balance : forall f n recipe cats vs p P, days n f -> constant_price p f -> p * 1000 == inject_Z P ->
  get_prices f recipe = Ok cats -> one_each cats vs ->
  (special_recipe recipe -> set_value recipe vs = 0%Z)
  /\ (forall r0 rest, recipe = r0 :: rest -> ~ special_recipe recipe ->
        set_value recipe vs = ((Z.of_nat r0 - 1) * Z.of_nat (nsum rest) * P)%Z).
Proof.
  intros f n recipe cats vs p P D C HP E O. destruct (const_vals p P f C HP) as (K1 & K2 & K3 & K4 & K5 & K6).
  assert (HM : forall l v w, (forall x, In x l -> thousands x = v) -> In w (map thousands l) -> w = v).
  { intros l v w H I. apply in_map_iff in I. destruct I as (x & <- & I). apply H. exact I. }
  assert (KO : forall x, In x (array_opp (open_ f)) -> thousands x = (- P)%Z).
  { intros x I. apply K5. unfold array_opp. rewrite map_app. apply in_app_iff. left. exact I. }
  assert (KL : forall x, In x (array_opp (low f)) -> thousands x = (- P)%Z).
  { intros x I. apply K5. unfold array_opp. rewrite map_app. apply in_app_iff. right. exact I. }
  assert (KOL : forall x, In x (array_opp (open_ f) ++ array_opp (low f)) -> thousands x = (- P)%Z).
  { intros x I. apply in_app_iff in I. destruct I; auto. }
  unfold one_each in O. split.
  - intros S. destruct S as [->|[->|[->|[->|[a ->]]]]].
    + unfold get_prices in E. cbn [get_prices_raw bind map] in E. injection E as <-.
      inversion O as [|? v0 ? vs1 I0 O1]; subst. inversion O1 as [|? v1 ? vs2 I1 O2]; subst. inversion O2; subst.
      rewrite (HM _ P _ K1 I0), (HM _ _ _ KOL I1). cbn [set_value]. lia.
    + unfold get_prices in E. cbn [get_prices_raw bind map] in E. injection E as <-.
      inversion O as [|? v0 ? vs1 I0 O1]; subst. inversion O1 as [|? v1 ? vs2 I1 O2]; subst. inversion O2; subst.
      rewrite (HM _ P _ K1 I0), (HM _ _ _ K6 I1). cbn [set_value]. lia.
    + unfold get_prices in E. cbn [get_prices_raw bind map] in E. injection E as <-.
      inversion O as [|? v0 ? vs1 I0 O1]; subst. inversion O1 as [|? v1 ? vs2 I1 O2]; subst. inversion O2; subst.
      rewrite (HM _ _ _ K4 I0), (HM _ _ _ KOL I1). cbn [set_value]. lia.
    + unfold get_prices in E. cbn [get_prices_raw bind map] in E. injection E as <-.
      inversion O as [|? v0 ? vs1 I0 O1]; subst. inversion O1 as [|? v1 ? vs2 I1 O2]; subst. inversion O2 as [|? v2 ? vs3 I2 O3]; subst. inversion O3; subst.
      rewrite (HM _ _ _ K1 I0), (HM _ _ _ KO I1), (HM _ _ _ KL I2). cbn [set_value]. lia.
    + unfold get_prices in E. rewrite raw_three in E. cbn [bind map] in E. injection E as <-.
      inversion O as [|? v0 ? vs1 I0 O1]; subst. inversion O1 as [|? v1 ? vs2 I1 O2]; subst. inversion O2 as [|? v2 ? vs3 I2 O3]; subst. inversion O3; subst.
      rewrite (HM _ _ _ K4 I0), (HM _ _ _ KO I1), (HM _ _ _ KL I2). cbn [set_value]. lia.
  - intros r0 rest -> NS. destruct (general_spec f n r0 rest D NS) as (cats' & E' & L & C0 & CJ). rewrite E in E'. injection E' as <-.
    destruct cats as [|c0 cats]; [discriminate|]. simpl in C0. injection C0 as C0.
    inversion O as [|? v0 ? vs1 I0 O1]; subst vs. subst.
    destruct (in_concat_repeat (fun b => thousands (b * Qn (nsum rest))) _ _ _ I0) as (b & Hb & Ev0). rewrite (K3 _ _ Hb) in Ev0.
    cbn [set_value]. rewrite (set_value_const rest vs1 (- P)%Z).
    + rewrite Ev0. ring.
    + assert (G : forall j c v, nth_error cats j = Some c -> In v c -> v = (- P)%Z).
      { intros j c v Hn Hv. assert (Hj : (j < length rest)%nat) by (assert (j < length cats)%nat by (apply nth_error_Some; congruence); simpl in L; lia).
        assert (CJ' := CJ j Hj). cbn [nth_error] in CJ'. rewrite CJ' in Hn. injection Hn as <-.
        destruct (in_concat_repeat (fun i => thousands (- nth i (open_ f ++ low f) 0)) _ _ _ Hv) as (i & Hi & ->).
        apply source_range in Hi. apply K2. apply nth_In. rewrite app_length. destruct D as (D1 & D2 & D3 & D4). lia. }
      assert (LC : length cats = length rest) by (simpl in L; lia).
      clear -G LC O1. revert rest LC. induction O1 as [|c v cats vs I O IH]; intros [|r rest] LC; simpl in LC; try discriminate; constructor.
      * apply (G 0%nat c v eq_refl I).
      * apply IH; [intros j; apply (G (S j))|lia].
Qed.

(** ** Which sellers *)
Lemma permutation_concat_map : forall {A B} (g : A -> list B) l l', Permutation l l' -> Permutation (concat (map g l)) (concat (map g l')).
Proof.
  intros A B g l l' H. induction H; cbn [map concat]; [reflexivity|apply Permutation_app_head; assumption| |eapply perm_trans; eassumption].
  rewrite !app_assoc. apply Permutation_app_tail. apply Permutation_app_comm.
Qed.

Lemma concat_map_nth : forall {B} (g : Q -> list B) l n, length l = n -> concat (map (fun i => g (nth i l 0)) (seq 0 n)) = concat (map g l).
Proof.
  intros B g l. induction l as [|a l IH]; intros n <-; [reflexivity|]. cbn [length seq map concat nth]. f_equal.
  rewrite <- seq_shift, map_map. apply IH. reflexivity.
Qed.

Lemma coprime_categories : forall f n r0 rest cats j r cat, days n f -> ~ special_recipe (r0 :: rest) ->
  Nat.gcd (length rest) (2 * n) = 1%nat -> get_prices f (r0 :: rest) = Ok cats ->
  nth_error rest j = Some r -> nth_error cats (S j) = Some cat ->
  Permutation cat (concat (map (fun x => repeat (thousands (- x)) r) (open_ f ++ low f))).
Proof.
  intros f n r0 rest cats j r cat D NS G E Hr Hc.
  destruct (general_spec f n r0 rest D NS) as (cats' & E' & L & C0 & CJ). rewrite E in E'. injection E' as <-.
  assert (Hj : (j < length rest)%nat) by (apply nth_error_Some; congruence).
  rewrite (CJ j Hj) in Hc. injection Hc as <-. rewrite (nth_error_nth _ _ _ Hr).
  rewrite (permutation_concat_map _ _ _ (source_permutation (2 * n) (length rest) j G)).
  rewrite (concat_map_nth (fun x => repeat (thousands (- x)) r)); [reflexivity|]. rewrite app_length. destruct D as (D1 & D2 & D3 & D4). lia.
Qed.

Lemma residue_categories : forall f n r0 rest cats j cat z g, days n f -> ~ special_recipe (r0 :: rest) ->
  Nat.divide g (length rest) -> Nat.divide g (2 * n) -> get_prices f (r0 :: rest) = Ok cats ->
  nth_error cats (S j) = Some cat -> In z cat ->
  exists i x, nth_error (open_ f ++ low f) i = Some x /\ (i mod g = j mod g)%nat /\ z = thousands (- x).
Proof.
  intros f n r0 rest cats j cat z g D NS G1 G2 E Hc I.
  destruct (general_spec f n r0 rest D NS) as (cats' & E' & L & C0 & CJ). rewrite E in E'. injection E' as <-.
  assert (Hj : (j < length rest)%nat) by (assert (S j < length cats)%nat by (apply nth_error_Some; congruence); lia).
  rewrite (CJ j Hj) in Hc. injection Hc as <-.
  destruct (in_concat_repeat (fun i => thousands (- nth i (open_ f ++ low f) 0)) _ _ _ I) as (i & Hi & ->).
  assert (HR := source_range _ _ _ _ Hi). exists i, (nth i (open_ f ++ low f) 0). destruct D as (D1 & D2 & D3 & D4).
  split; [apply nth_error_nth'; rewrite app_length; lia|]. split; [|reflexivity].
  apply (source_residue _ _ _ _ _ G1 G2 Hi).
Qed.

Lemma map_nth_error_ext : forall {A} (l : list A) (g : nat -> A), (forall j, (j < length l)%nat -> nth_error l j = Some (g j)) -> l = map g (seq 0 (length l)).
Proof.
  intros A l. induction l as [|a l IH]; intros g H; [reflexivity|]. cbn [length seq map]. f_equal.
  - assert (H0 := H 0%nat ltac:(simpl; lia)). simpl in H0. congruence.
  - rewrite <- seq_shift, map_map. apply IH. intros j Hj. apply (H (S j)). simpl. lia.
Qed.

Lemma all_sellers : forall f n r0 r k cats, days n f -> ~ special_recipe (r0 :: repeat r k) ->
  get_prices f (r0 :: repeat r k) = Ok cats ->
  Permutation (concat (tl cats)) (concat (repeat (concat (map (fun x => repeat (thousands (- x)) r) (open_ f ++ low f))) k)).
Proof.
  intros f n r0 r k cats D NS E.
  destruct (general_spec f n r0 (repeat r k) D NS) as (cats' & E' & L & C0 & CJ). rewrite E in E'. injection E' as <-.
  rewrite repeat_length in *. destruct cats as [|c0 cats]; [discriminate|]. cbn [tl]. simpl in L. assert (L' : length cats = k) by lia.
  set (g := fun i => repeat (thousands (- nth i (open_ f ++ low f) 0)) r).
  assert (X : cats = map (fun j => concat (map g (source (2 * n) k j))) (seq 0 k)).
  { replace (seq 0 k) with (seq 0 (length cats)) by (rewrite L'; reflexivity). apply map_nth_error_ext. intros j Hj. assert (Hj' : (j < k)%nat) by lia. assert (Y := CJ j Hj'). cbn [nth_error] in Y.
    rewrite Y. f_equal. f_equal. apply map_ext. intros i. unfold g. f_equal.
    rewrite (nth_indep _ 0%nat r) by (rewrite repeat_length; exact Hj'). rewrite nth_repeat. reflexivity. }
  rewrite X.
  assert (Y : concat (map (fun j => concat (map g (source (2 * n) k j))) (seq 0 k)) = concat (map g (concat (map (source (2 * n) k) (seq 0 k))))).
  { generalize (seq 0 k). intros l. induction l as [|j l IH]; [reflexivity|]. cbn [map concat]. rewrite map_app, concat_app, IH. reflexivity. }
  rewrite Y, (permutation_concat_map g _ _ (source_total (2 * n) k)).
  assert (Z1 : concat (map g (seq 0 (2 * n))) = concat (map (fun x => repeat (thousands (- x)) r) (open_ f ++ low f))).
  { apply (concat_map_nth (fun x => repeat (thousands (- x)) r)). rewrite app_length. destruct D as (D1 & D2 & D3 & D4). lia. }
  rewrite <- Z1. clear. induction k as [|k IH]; [reflexivity|]. cbn [repeat concat]. rewrite map_app, concat_app.
  apply Permutation_app_head. exact IH.
Qed.

(** ** The shuffled prices *)
Lemma shuffled_first : forall s1 s2 cache f name, (forall l, Permutation l (s1 l)) -> (forall l, Permutation l (s2 l)) ->
  lookup name cache = None ->
  Permutation (fst (get_all_prices_shuffled s1 s2 cache f name)) (map thousands (high f ++ close f ++ open_ f ++ low f)).
Proof.
  intros s1 s2 cache f name H1 H2 N. unfold get_all_prices_shuffled. rewrite N. cbn [fst]. rewrite <- H2, <- H1.
  unfold all_prices. rewrite !map_app. reflexivity.
Qed.

Lemma shuffled_again : forall s1 s2 s1' s2' cache f f' name other, 
  let r := get_all_prices_shuffled s1 s2 cache f name in
  fst (get_all_prices_shuffled s1' s2' (snd r) f' name) = fst r
  /\ snd (get_all_prices_shuffled s1' s2' (snd r) f' name) = snd r
  /\ (other <> name -> lookup other (snd r) = lookup other cache).
Proof.
  intros s1 s2 s1' s2' cache f f' name other r. unfold r, get_all_prices_shuffled.
  destruct (lookup name cache) eqn:E; cbn [fst snd].
  - rewrite E. repeat split; reflexivity.
  - cbn [lookup]. rewrite String.eqb_refl. cbn [fst snd]. split; [reflexivity|]. split; [reflexivity|].
    intros H. destruct (String.eqb_spec name other); [congruence|reflexivity].
Qed.
