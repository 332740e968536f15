(** * C106: two runs that differ in one report *)

From Coq Require Import String ZArith Reals Qreals QArith Qpower Qabs List Lia Lra Lqa Sorted Permutation.
From Coq Require Import SpecFloat.
From Flocq Require Import Core BinarySingleNaN Plus_error Relative.
From Verif Require Import Base Model_Float Spec_Float Spec_FloatMcAfee Spec_FloatBudget Spec_FloatTruth
  Proof_Float Proof_Float2 Proof_FM1 Proof_FB1 Proof_FB2 Proof_FB3 Proof_FU1 Proof_FU2.
Import ListNotations.

Local Open Scope nat_scope.
#[local] Existing Instance hprec.
#[local] Existing Instance hmax.
#[local] Existing Instance ve.
Ltac lra := first [Lra.lra | Lqa.lra].

Lemma set_set : forall A (l : list A) i x y, set_nth i y (set_nth i x l) = set_nth i y l.
Proof. induction l as [|a l IH]; intros [|i] x y; cbn [set_nth]; try reflexivity. rewrite IH. reflexivity. Qed.

Lemma set_comm : forall A (l : list A) i j x y, i <> j -> set_nth i x (set_nth j y l) = set_nth j y (set_nth i x l).
Proof. induction l as [|a l IH]; intros [|i] [|j] x y H; cbn [set_nth]; try reflexivity; [lia|]. rewrite IH by lia. reflexivity. Qed.

Lemma map_set_len : forall (l : list (list double)) i c c', length c = length c' -> map (@length double) (set_nth i c l) = map (@length double) (set_nth i c' l).
Proof. induction l as [|a l IH]; intros [|i] c c' H; cbn [set_nth map]; try reflexivity; [rewrite H; reflexivity|]. rewrite (IH i c c' H). reflexivity. Qed.

Lemma argmax_ext : forall f g l x, (forall j, f j = g j) -> f_argmax_from f x l = f_argmax_from g x l.
Proof. intros f g l. induction l as [|y l IH]; intros x H; cbn [f_argmax_from]; [reflexivity|]. rewrite !H. destruct (flt _ _); apply IH; exact H. Qed.

Lemma potential_len : forall cats cats' recipe j, map (@length double) cats = map (@length double) cats' -> f_potential cats recipe j = f_potential cats' recipe j.
Proof.
  intros cats cats' recipe j H. unfold f_potential. assert (E : length (nth j cats []) = length (nth j cats' [])); [|rewrite E; reflexivity].
  rewrite <- (map_nth (@length double) cats [] j), <- (map_nth (@length double) cats' [] j), H. reflexivity.
Qed.

Lemma increase_flag : forall recipe prices i r p low b np, nth_error recipe i = Some (S r) -> nth_error prices i = Some p ->
  f_increase recipe prices i low = Ok (b, np) -> b = fle (fint 0) (fadd (fsub (f_dot prices recipe) (fmul (fint (Z.of_nat (S r))) p)) (fmul (fint (Z.of_nat (S r))) low)).
Proof.
  intros recipe prices i r p low b np Hr Hp E. unfold f_increase, f_sum_without, get in E. rewrite Hr, Hp in E. cbn [bind] in E.
  change (S r =? 0) with false in E. destruct (fle (fint 0) _); injection E; auto.
Qed.

Section Two.
Variables (recipe : list nat) (B : Q) (k : Z) (i : nat).
Hypothesis (HB : (100000000 <= B)%Q).
Hypothesis (HK : (2 * inject_Z (traders recipe) * B <= Qpower 2 k)%Q).
Hypothesis (K1000 : (k <= 1000)%Z).
Hypothesis (HT : (traders recipe <= 2 ^ 53)%Z).
Hypothesis (HN : (2 * Z.of_nat (length recipe) + 2 <= 2 ^ 53)%Z).

Let d := bpow radix2 (k - 54).
Let err := ((4 * INR (length recipe) + 8) * d)%R.

Lemma HR : Forall (fun r => (Z.of_nat r <= 2 ^ 53)%Z) recipe.
Proof. apply Forall_forall. intros a Ha. apply nsum_le in Ha. unfold traders in HT. lia. Qed.

(** After the agent with the lower report has left: the price of its category ends near its report or above. *)
Lemma tail_price : forall lo : bf, okp (Q2R B) lo -> forall fuel cats ps c p cats' prices',
  length cats = length recipe -> Forall (Forall (bound B)) cats -> Forall (okp (Q2R B)) ps -> length ps = length recipe ->
  nth_error cats i = Some c -> Forall (fun v => fle (B2SF lo) v = true) c -> nth_error ps i = Some p -> (B2R lo <= B2R p)%R ->
  (rpaid ps recipe <= (2 * INR (length recipe) + 3) * d)%R ->
  f_loop fuel recipe cats (map B2SF ps) = Ok (cats', prices') ->
  exists bp : bf, nth_error prices' i = Some (B2SF bp) /\ is_finite bp = true /\ (B2R lo - err <= B2R bp)%R.
Proof.
  intros lo OLO. induction fuel as [|fuel IH]; intros cats ps c p cats' prices' Lc HC HP LP Ec FC Ep PL SUM H; [discriminate|].
  assert (D0 : (0 <= d)%R) by apply bpow_ge_0.
  assert (ERR : (0 <= err)%R) by (unfold err; apply Rmult_le_pos; [assert (P := pos_INR (length recipe)); lra|exact D0]).
  assert (OP : okp (Q2R B) p) by (rewrite Forall_forall in HP; apply HP; eapply nth_error_In; exact Ep).
  cbn [f_loop] in H. change (filter _ _) with (relevant recipe) in H.
  destruct (relevant recipe) as [|x l] eqn:R; [discriminate|].
  assert (Im : In (f_argmax_from (f_potential cats recipe) x l) (relevant recipe)) by (rewrite R; apply argmax_in).
  set (main := f_argmax_from _ _ _) in *. clearbody main.
  destruct (relevant_in _ _ Im) as (r & Hr).
  assert (Hi : main < length recipe) by (apply nth_error_Some; congruence).
  destruct (nth_error cats main) as [cm|] eqn:Hc; [|apply nth_error_None in Hc; lia].
  destruct (nth_error ps main) as [pm|] eqn:Hp; [|apply nth_error_None in Hp; lia].
  assert (Hp' : nth_error (map B2SF ps) main = Some (B2SF pm)) by (rewrite nth_error_map, Hp; reflexivity).
  assert (STOP : exists bp : bf, nth_error (map B2SF ps) i = Some (B2SF bp) /\ is_finite bp = true /\ (B2R lo - err <= B2R bp)%R).
  { exists p. rewrite nth_error_map, Ep. split; [reflexivity|]. split; [apply OP|lra]. }
  unfold get in H. rewrite Hc in H. cbn [bind] in H.
  destruct (rev cm) as [|low rc] eqn:Rc; [inversion H; subst; exact STOP|].
  apply rev_last in Rc.
  destruct (increase_ok recipe (map B2SF ps) main r low (B2SF pm) Hr Hp') as (b & np & E & E1 & E2). rewrite E in H. cbn [bind fst snd] in H.
  destruct (sizes recipe B k main r Hr HB HK) as (B1 & HB' & K1).
  assert (BC := Forall_nth _ _ _ _ _ HC Hc). rewrite Rc in BC. apply Forall_app in BC. destruct BC as [BC BL]. inversion BL as [|? ? BL1 _]; subst.
  destruct (bound_okp B low BL1) as (bl & El & OL). subst low.
  destruct b.
  - inversion H; subst cats' prices'. clear H. destruct (E2 eq_refl) as (w & Ew & L & En). subst w.
    destruct (final_balance k (Q2R B) recipe ps main r pm ltac:(lia) ltac:(lra) HP HR LP Hr Hp HB' HN) as (bp & EB & FB & _). rewrite EB in En. subst np.
    destruct (Nat.eq_dec main i) as [->|NE].
    + rewrite nth_set_same by (rewrite map_length; lia). exists bp. split; [reflexivity|]. split; [exact FB|].
      assert (X := last_price k (Q2R B) recipe ps i r pm ltac:(lia) ltac:(lra) HP HR LP Hr Hp HB' HN SUM bp EB). fold d in X. fold err in X.
      assert (pm = p) by congruence. subst pm. lra.
    + rewrite nth_set_other by exact NE. exact STOP.
  - rewrite (E1 eq_refl) in E, H.
    assert (ST : fle (fint 0) (fadd (fsub (f_dot (map B2SF ps) recipe) (fmul (fint (Z.of_nat (S r))) (B2SF pm))) (fmul (fint (Z.of_nat (S r))) (B2SF bl))) = false).
    { symmetry. exact (increase_flag _ _ _ _ _ _ _ _ Hr Hp' E). }
    assert (SM := stay_sum k (Q2R B) recipe ps main r pm bl ltac:(lia) ltac:(lra) HP HR LP Hr Hp HB' HN OL ST). fold d in SM.
    rewrite <- map_set in H.
    assert (HP2 : Forall (okp (Q2R B)) (set_nth main bl ps)) by (apply Forall_set; assumption).
    assert (HC2 : Forall (Forall (bound B)) (set_nth main (removelast cm) cats)) by (apply Forall_set; assumption).
    destruct (Nat.eq_dec main i) as [->|NE].
    + assert (cm = c) by congruence. subst cm. rewrite Rc in FC. apply Forall_app in FC. destruct FC as [FC FL]. inversion FL as [|? ? FL1 _]; subst.
      apply (IH _ _ (removelast c) bl) in H; auto.
      * rewrite set_len. exact Lc.
      * rewrite set_len. exact LP.
      * apply nth_set_same. lia.
      * apply nth_set_same. lia.
      * rewrite fle_B in FL1. apply Bleb_iff in FL1; [exact FL1|apply OLO|apply OL].
    + apply (IH _ _ c p) in H; auto.
      * rewrite set_len. exact Lc.
      * rewrite set_len. exact LP.
      * rewrite nth_set_other by exact NE. exact Ec.
      * rewrite nth_set_other by exact NE. exact Ep.
Qed.

Lemma set_len_le : forall fuel cats prices cats' prices' c, f_loop fuel recipe cats prices = Ok (cats', prices') -> nth_error cats i = Some c ->
  exists c', nth_error cats' i = Some c' /\ length c' <= length c.
Proof.
  intros fuel cats prices cats' prices' c H E.
  apply (loop_prefix recipe fuel cats) in H.
  - assert (L := Forall2_length _ _ _ _ _ H). destruct (nth_error cats' i) as [c'|] eqn:E'.
    + exists c'. split; [reflexivity|]. destruct (Forall2_nth _ _ _ _ _ _ _ _ H E E') as (n & ->). rewrite firstn_length. lia.
    + apply nth_error_None in E'. assert (i < length cats) by (apply nth_error_Some; congruence). lia.
  - clear. induction cats as [|c l IH]; constructor; auto. exists (length c). rewrite firstn_all. reflexivity.
Qed.

Lemma lockstep : forall (xl xh : list double) (lo top : bf), length xh = length xl -> (B2R lo <= B2R top)%R ->
  Forall (bound B) (xh ++ [B2SF top]) -> okp (Q2R B) lo -> Forall (fun v => fle (B2SF lo) v = true) xh ->
  forall fuel q cats ps catsl pricesl catsh pricesh,
  i < length cats -> length cats = length recipe -> Forall (Forall (bound B)) cats -> Forall (bound B) q -> Forall (okp (Q2R B)) ps -> length ps = length recipe ->
  f_loop fuel recipe (set_nth i ((xl ++ [B2SF lo] : list double) ++ q) cats) (map B2SF ps) = Ok (catsl, pricesl) ->
  f_loop fuel recipe (set_nth i ((xh ++ [B2SF top] : list double) ++ q) cats) (map B2SF ps) = Ok (catsh, pricesh) ->
  (pricesl = pricesh /\ map (@length double) catsl = map (@length double) catsh /\ exists c, nth_error catsl i = Some c /\ length xl < length c) \/
  ((exists c, nth_error catsl i = Some c /\ length c <= length xl) /\
   exists bp : bf, nth_error pricesh i = Some (B2SF bp) /\ is_finite bp = true /\ (B2R lo - err <= B2R bp)%R).
Proof.
  intros xl xh lo top LX LT BX OLO FX. induction fuel as [|fuel IH]; intros q cats ps catsl pricesl catsh pricesh Hii Lc HC HQ HP LP Hl Hh; [discriminate|].
  assert (D0 : (0 <= d)%R) by apply bpow_ge_0.
  assert (EQL : map (@length double) (set_nth i ((xl ++ [B2SF lo] : list double) ++ q) cats) = map (@length double) (set_nth i ((xh ++ [B2SF top] : list double) ++ q) cats)).
  { apply map_set_len. rewrite !app_length, LX. reflexivity. }
  cbn [f_loop] in Hl, Hh. change (filter _ _) with (relevant recipe) in Hl, Hh.
  destruct (relevant recipe) as [|x l] eqn:R; [discriminate|].
  rewrite <- (argmax_ext _ _ l x (fun j => potential_len _ _ recipe j EQL)) in Hh.
  assert (Im : In (f_argmax_from (f_potential (set_nth i ((xl ++ [B2SF lo] : list double) ++ q) cats) recipe) x l) (relevant recipe)) by (rewrite R; apply argmax_in).
  set (main := f_argmax_from _ _ _) in *. clearbody main.
  destruct (relevant_in _ _ Im) as (r & Hr).
  assert (Hi : main < length recipe) by (apply nth_error_Some; congruence).
  destruct (nth_error ps main) as [pm|] eqn:Hp; [|apply nth_error_None in Hp; lia].
  assert (Hp' : nth_error (map B2SF ps) main = Some (B2SF pm)) by (rewrite nth_error_map, Hp; reflexivity).
  destruct (sizes recipe B k main r Hr HB HK) as (B1 & HB' & K1).
  unfold get in Hl, Hh.
  destruct (Nat.eq_dec main i) as [->|NE].
  - rewrite nth_set_same in Hl, Hh by exact Hii. cbn [bind] in Hl, Hh.
    destruct (rev q) as [|low q'] eqn:RQ.
    + (* the agent with the lower report is next *)
      assert (q = []) by (rewrite <- (rev_involutive q), RQ; reflexivity). subst q. rewrite !app_nil_r in *.
      rewrite rev_app_distr in Hl, Hh. cbn [rev app] in Hl, Hh. rewrite removelast_last in Hl, Hh.
      destruct (increase_ok recipe (map B2SF ps) i r (B2SF lo) (B2SF pm) Hr Hp') as (bl & npl & El & El1 & El2). rewrite El in Hl. cbn [bind fst snd] in Hl.
      destruct (increase_ok recipe (map B2SF ps) i r (B2SF top) (B2SF pm) Hr Hp') as (bh & nph & Eh & Eh1 & Eh2). rewrite Eh in Hh. cbn [bind fst snd] in Hh.
      set (w := fsub (f_dot (map B2SF ps) recipe) (fmul (fint (Z.of_nat (S r))) (B2SF pm))) in *.
      assert (CL : forall b np low, f_increase recipe (map B2SF ps) i low = Ok (b, np) -> b = fle (fint 0) (fadd w (fmul (fint (Z.of_nat (S r))) low))).
      { intros b np low E. exact (increase_flag _ _ _ _ _ _ _ _ Hr Hp' E). }
      assert (XL := CL _ _ _ El). assert (XH := CL _ _ _ Eh). rewrite set_set in Hl, Hh.
      assert (OT : okp (Q2R B) top).
      { apply Forall_app in BX. destruct BX as [_ BX]. inversion BX as [|? ? X _]; subst. destruct (bound_okp B _ X) as (b & E & O). apply B2SF_inj in E. subst b. exact O. }
      destruct bl.
      * (* it ends the auction *)
        destruct bh.
        -- left. inversion Hl; inversion Hh; subst. destruct (El2 eq_refl) as (w1 & W1 & _ & ->). destruct (Eh2 eq_refl) as (w2 & W2 & _ & ->). subst w1 w2.
           split; [reflexivity|]. split; [exact EQL|]. eexists. split; [apply nth_set_same; exact Hii|]. rewrite app_length. cbn [length]. lia.
        -- exfalso. symmetry in XL, XH.
           destruct (final_w k (Q2R B) recipe ps i r pm ltac:(lia) ltac:(lra) HP HR LP Hr Hp HB' HN) as (bw & EW & NW).
           change (w = B2SF bw) in EW. rewrite EW in XL, XH.
           assert (WA : (Rabs (B2R bw) <= bpow radix2 k)%R) by (eapply (w_abs k (Q2R B) recipe ps i r pm); first [exact NW | eassumption | exact HR | lra | lia]). destruct NW as [Fw _].
           exact (mono_sum k (Q2R B) recipe i r bw lo top ltac:(lia) ltac:(lra) HR Hr HB' Fw WA OLO OT LT XL XH).
      * right. split.
        { destruct (set_len_le _ _ _ _ _ xl Hl) as (c & C1 & C2); [apply nth_set_same; exact Hii|]. exists c. auto. }
        symmetry in XL. destruct bh.
        -- destruct (Eh2 eq_refl) as (w2 & W2 & _ & En). subst w2. injection Hh as <- <-.
           destruct (final_balance k (Q2R B) recipe ps i r pm ltac:(lia) ltac:(lra) HP HR LP Hr Hp HB' HN) as (bp & EB & FB & _). fold w in EB. rewrite EB in En. subst nph.
           exists bp. split; [apply nth_set_same; rewrite map_length; lia|]. split; [exact FB|].
           assert (X := stay_price k (Q2R B) recipe ps i r pm lo ltac:(lia) ltac:(lra) HP HR LP Hr Hp HB' HN OLO XL bp EB). fold d in X.
           unfold err. assert (0 <= INR (length recipe) * d)%R by (apply Rmult_le_pos; [apply pos_INR|exact D0]). lra.
        -- symmetry in XH. rewrite (Eh1 eq_refl) in Hh. rewrite <- map_set in Hh.
           assert (SM := stay_sum k (Q2R B) recipe ps i r pm top ltac:(lia) ltac:(lra) HP HR LP Hr Hp HB' HN OT XH). fold d in SM.
           eapply (tail_price lo OLO) with (p := top) (c := xh) in Hh; auto.
           ++ rewrite set_len. exact Lc.
           ++ apply Forall_set; [exact HC|]. apply Forall_app in BX. apply BX.
           ++ apply Forall_set; [exact HP|exact OT].
           ++ rewrite set_len. exact LP.
           ++ apply nth_set_same. exact Hii.
           ++ apply nth_set_same. lia.
    + assert (RQ' := rev_last _ _ _ _ RQ). rewrite RQ' in Hl, Hh. rewrite app_assoc in Hl, Hh. rewrite !rev_app_distr in Hl, Hh. cbn [rev app] in Hl, Hh.
      rewrite <- !app_assoc in Hl, Hh.
      rewrite RQ' in HQ. apply Forall_app in HQ. destruct HQ as [HQ HL]. inversion HL as [|? ? HL1 _]; subst.
      destruct (bound_okp B low HL1) as (bl & El & OL). subst low.
      destruct (increase_ok recipe (map B2SF ps) i r (B2SF bl) (B2SF pm) Hr Hp') as (b & np & E & E1 & _). rewrite E in Hl, Hh. cbn [bind fst snd] in Hl, Hh.
      destruct b.
      * left. inversion Hl; inversion Hh; subst. split; [reflexivity|]. split; [apply map_set_len; rewrite !app_length, LX; reflexivity|]. eexists. split; [apply nth_set_same; exact Hii|]. rewrite !app_length. cbn [length]. lia.
      * rewrite (E1 eq_refl) in Hl, Hh. rewrite <- map_set in Hl, Hh. rewrite set_set in Hl, Hh. rewrite !app_assoc, !removelast_last in Hl, Hh.
        rewrite <- !app_assoc in Hl, Hh. cbn [app] in Hl, Hh.
        apply (IH (removelast q) cats (set_nth i bl ps)); auto; rewrite <- ?app_assoc; auto.
        -- apply Forall_set; assumption.
        -- rewrite set_len. exact LP.
  - rewrite nth_set_other in Hl, Hh by auto. destruct (nth_error cats main) as [cm|] eqn:Hc; [|apply nth_error_None in Hc; lia]. cbn [bind] in Hl, Hh.
    assert (SAME : catsl = set_nth i ((xl ++ [B2SF lo] : list double) ++ q) cats -> catsh = set_nth i ((xh ++ [B2SF top] : list double) ++ q) cats ->
      map (@length double) catsl = map (@length double) catsh /\ exists c, nth_error catsl i = Some c /\ length xl < length c).
    { intros -> ->. split; [exact EQL|]. eexists. split; [apply nth_set_same; exact Hii|]. rewrite !app_length. cbn [length]. lia. }
    destruct (rev cm) as [|low rc] eqn:Rc.
    { left. inversion Hl; inversion Hh; subst. split; [reflexivity|]. apply SAME; reflexivity. }
    apply rev_last in Rc. assert (BC := Forall_nth _ _ _ _ _ HC Hc). rewrite Rc in BC. apply Forall_app in BC. destruct BC as [BC BL]. inversion BL as [|? ? BL1 _]; subst.
    destruct (bound_okp B low BL1) as (bl & El & OL). subst low.
    destruct (increase_ok recipe (map B2SF ps) main r (B2SF bl) (B2SF pm) Hr Hp') as (b & np & E & E1 & _). rewrite E in Hl, Hh. cbn [bind fst snd] in Hl, Hh.
    destruct b.
    + left. inversion Hl; inversion Hh; subst. split; [reflexivity|]. apply SAME; reflexivity.
    + rewrite (E1 eq_refl) in Hl, Hh. rewrite <- map_set in Hl, Hh. rewrite set_comm in Hl by exact NE. rewrite set_comm in Hh by exact NE.
      apply (IH q (set_nth main (removelast cm) cats) (set_nth main bl ps)); auto; rewrite ?set_len; auto; apply Forall_set; assumption.
Qed.
End Two.
