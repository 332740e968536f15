(** * Independence of MAX_VALUE: the trade reduction and McAfee's mechanism (C49) *)

From Coq Require Import String List Arith Lia QArith Qabs Lqa Permutation Bool.
From Verif Require Import Base Model_Agents Model_Trade Model_Prices Model_Market Model_TradeReduction Model_McAfee.
From Verif Require Import Spec_Units Spec_MaxValue Proof_Market Proof_Units.
Import ListNotations.
Open Scope Q_scope.

(** ** Every value in the course of a computation is a value of the market *)
Section All.
Variable P : Q -> Prop.
Definition all_values (m : market) : Prop := Forall (fun c => Forall P (cvalues c)) m.

Lemma all_clone : forall m, all_values m -> all_values (clone_market m).
Proof.
  intros m H. unfold all_values, clone_market in *. induction H as [|a m HA H IH]; cbn [map]; constructor; [|exact IH].
  cbn [clone new_category cvalues]. eapply Permutation_Forall; [symmetry; apply sort_desc_perm|exact HA].
Qed.

Lemma all_highest : forall m recipe ps, all_values m -> get_highest_agents m recipe = Ok (Some ps) -> Forall P ps.
Proof.
  intros m. induction m as [|a m IH]; intros recipe ps H E; cbn [get_highest_agents] in E; [inversion E; constructor|].
  destruct recipe as [|r recipe]; [discriminate|]. destruct (csize a <? r)%nat; [discriminate|]. inversion H as [|x y HA HM]; subst.
  destruct (get_highest_agents m recipe) as [[qs|]| |] eqn:G; cbn [bind] in E; try discriminate. inversion E; subst.
  apply Forall_app. split; [|eapply IH; eassumption]. unfold highest_agent_values. apply Forall_forall. intros v Hv. rewrite Forall_forall in HA. apply HA.
  eapply (fun A n l => proj1 (Forall_forall (fun x : A => In x l) (firstn n l))); [|exact Hv]. apply Forall_forall. intros w Hw. rewrite <- (firstn_skipn r (cvalues a)). apply in_or_app. left. exact Hw.
Qed.

Lemma all_remove_highest : forall n a b, Forall P (cvalues a) -> remove_highest_agents a n = Ok b -> Forall P (cvalues b).
Proof.
  induction n as [|n IH]; intros a b H E; cbn [remove_highest_agents] in E; [inversion E; subst; exact H|]. unfold remove_highest_agent in E.
  destruct (cvalues a) as [|v l] eqn:EV; cbn [bind] in E; [discriminate|]. eapply IH; [|exact E]. cbn [cvalues]. inversion H; assumption.
Qed.

Lemma all_remove : forall m recipe m', all_values m -> market_remove_highest m recipe = Ok m' -> all_values m'.
Proof.
  intros m. induction m as [|a m IH]; intros recipe m' H E; cbn [market_remove_highest] in E; [inversion E; constructor|].
  destruct recipe as [|r recipe]; [discriminate|]. inversion H as [|x y HA HM]; subst.
  destruct (remove_highest_agents a r) as [b| |] eqn:ER; cbn [bind] in E; try discriminate.
  destruct (market_remove_highest m recipe) as [k| |] eqn:EM; cbn [bind] in E; try discriminate. inversion E; subst.
  constructor; [eapply all_remove_highest; eassumption|eapply IH; eassumption].
Qed.

Lemma all_loop : forall it m recipe z acc r, all_values m -> Forall (Forall P) acc -> optimal_loop it m recipe z acc = Ok r ->
  Forall (Forall P) (fst r) /\ all_values (snd r).
Proof.
  induction it as [|it IH]; intros m recipe z acc r H HA E; cbn [optimal_loop] in E; [inversion E; split; assumption|].
  destruct (get_highest_agents m recipe) as [[ps|]| |] eqn:G; cbn [bind] in E; try discriminate; [|inversion E; split; assumption].
  cbn zeta in E. destruct (Qlt_bool (Qsum ps) 0 || Qeq_bool (Qsum ps) 0 && negb z); [inversion E; split; assumption|].
  destruct (market_remove_highest m recipe) as [m'| |] eqn:R; cbn [bind] in E; try discriminate. eapply IH; [| |exact E].
  - eapply all_remove; eassumption.
  - apply Forall_app. split; [exact HA|]. constructor; [eapply all_highest; eassumption|constructor].
Qed.

Lemma all_optimal : forall it m recipe z d r, all_values m -> optimal_trade it m recipe z = Ok (d, r) -> Forall (Forall P) d /\ all_values r.
Proof.
  intros it m recipe z d r H E. unfold optimal_trade in E. destruct (length recipe =? length m)%nat; [|discriminate].
  destruct (optimal_loop it (clone_market m) recipe z []) as [x| |] eqn:EL; cbn [bind] in E; try discriminate. inversion E; subst.
  destruct (all_loop _ _ _ _ _ _ (all_clone _ H) (Forall_nil _) EL) as [H1 H2]. split; [|exact H2].
  eapply Permutation_Forall; [|exact H1]. unfold sort_by. symmetry. apply isort_perm.
Qed.
End All.

Lemma highest_length : forall m recipe ps, length recipe = length m -> get_highest_agents m recipe = Ok (Some ps) -> length ps = nsum recipe.
Proof.
  intros m. induction m as [|a m IH]; intros recipe ps L E; cbn [get_highest_agents] in E.
  - destruct recipe; [|discriminate]. inversion E. reflexivity.
  - destruct recipe as [|r recipe]; [discriminate|]. destruct (Nat.ltb_spec (csize a) r) as [C|C]; [discriminate|].
    destruct (get_highest_agents m recipe) as [[qs|]| |] eqn:G; cbn [bind] in E; try discriminate. inversion E; subst. cbn [length] in L.
    rewrite app_length, (IH recipe qs) by (try lia; exact G). unfold highest_agent_values. rewrite firstn_length_le by exact C. reflexivity.
Qed.

Lemma remove_market_length : forall m recipe m', market_remove_highest m recipe = Ok m' -> length m' = length m.
Proof.
  intros m. induction m as [|a m IH]; intros recipe m' E; cbn [market_remove_highest] in E; [inversion E; reflexivity|].
  destruct recipe as [|r recipe]; [discriminate|]. destruct (remove_highest_agents a r) as [b| |]; cbn [bind] in E; try discriminate.
  destruct (market_remove_highest m recipe) as [k| |] eqn:EM; cbn [bind] in E; try discriminate. inversion E; subst. cbn [length]. f_equal. eapply IH. exact EM.
Qed.

Lemma loop_deals : forall it m recipe z acc r, length recipe = length m -> Forall (fun ps => 0 <= Qsum ps /\ length ps = nsum recipe) acc ->
  optimal_loop it m recipe z acc = Ok r -> Forall (fun ps => 0 <= Qsum ps /\ length ps = nsum recipe) (fst r).
Proof.
  induction it as [|it IH]; intros m recipe z acc r L HA E; cbn [optimal_loop] in E; [inversion E; exact HA|].
  destruct (get_highest_agents m recipe) as [[ps|]| |] eqn:G; cbn [bind] in E; try discriminate; [|inversion E; exact HA].
  cbn zeta in E. destruct (Qlt_bool (Qsum ps) 0 || Qeq_bool (Qsum ps) 0 && negb z) eqn:T; [inversion E; exact HA|].
  destruct (market_remove_highest m recipe) as [m'| |] eqn:R; cbn [bind] in E; try discriminate. eapply IH; [| |exact E].
  - rewrite (remove_market_length _ _ _ R). exact L.
  - apply Forall_app. split; [exact HA|]. constructor; [|constructor]. split; [|eapply highest_length; eassumption].
    apply orb_false_iff in T. destruct T as [T _]. unfold Qlt_bool in T. apply negb_false_iff in T. apply Qle_bool_iff in T. exact T.
Qed.

Lemma optimal_deals : forall it m recipe z d r, optimal_trade it m recipe z = Ok (d, r) -> Forall (fun ps => 0 <= Qsum ps /\ length ps = nsum recipe) d.
Proof.
  intros it m recipe z d r E. unfold optimal_trade in E. destruct (Nat.eqb_spec (length recipe) (length m)) as [L|]; [|discriminate].
  destruct (optimal_loop it (clone_market m) recipe z []) as [x| |] eqn:EL; cbn [bind] in E; try discriminate. inversion E; subst.
  eapply Permutation_Forall; [|eapply loop_deals; [|apply Forall_nil|exact EL]].
  - unfold sort_by. symmetry. apply isort_perm.
  - unfold clone_market. rewrite map_length. exact L.
Qed.

Section Two.
Variables M M' B : Q.
Variable recipe : list nat.
Hypothesis B0 : 0 <= B.
Hypothesis BM : B < M.
Hypothesis BM' : B < M'.
Hypothesis BN : B * Qn (nsum recipe) < M.
Hypothesis BN' : B * Qn (nsum recipe) < M'.

Definition real (v : Q) : Prop := - B <= v /\ v <= B.
Definition dum (v v' : Q) : Prop := (v' = v /\ real v) \/ (v = - M /\ v' = - M').
Definition dum_cat (a a' : category) : Prop := cname a' = cname a /\ Forall2 dum (cvalues a) (cvalues a').
Definition dum_market : market -> market -> Prop := Forall2 dum_cat.

Lemma dum_le : forall a b a' b', dum a a' -> dum b b' -> Qle_bool a' b' = Qle_bool a b.
Proof.
  intros a b a' b' [[-> [A1 A2]]|[-> ->]] [[-> [C1 C2]]|[-> ->]]; [reflexivity| | |].
  - transitivity false; [|symmetry]; apply Qle_bool_false; lra.
  - transitivity true; [|symmetry]; apply Qle_bool_iff; lra.
  - transitivity true; [|symmetry]; apply Qle_bool_iff; lra.
Qed.

Lemma dum_append : forall a a' v v', dum_cat a a' -> dum v v' -> dum_cat (append a v) (append a' v').
Proof.
  intros a a' v v' [HN HA] HV. split; [exact HN|]. cbn [append cvalues]. apply F2_isort; [apply Forall2_app; [exact HA|constructor; [exact HV|constructor]]|].
  intros. apply dum_le; assumption.
Qed.

Lemma dum_append_trader : forall m m' i v v', dum_market m m' -> dum v v' -> alike dum_market (append_trader m i v) (append_trader m' i v').
Proof.
  intros m m' i v v' H HV. unfold append_trader. eapply alike_bind; [apply alike_get; exact H|]. intros a a' HA. cbn [alike].
  apply F2_set; [exact H|]. apply dum_append; assumption.
Qed.

Lemma dum_best : forall m m' i k v, dum_market m m' -> real v -> alike (Forall2 dum) (best_containing_from i m k v) (best_containing_from i m' k v).
Proof.
  intros m m' i k v H HV. revert i. induction H as [|a a' m m' HA H IH]; intros i; cbn [best_containing_from]; [constructor|].
  eapply alike_bind with (R := dum).
  - destruct (i =? k)%nat; [left; split; [reflexivity|exact HV]|]. unfold highest_agent_value. destruct HA as [_ HA]. destruct HA; [reflexivity|assumption].
  - intros w w' HW. eapply alike_bind; [apply IH|]. intros l l' HL. constructor; assumption.
Qed.

Definition agree (rs : list nat) (p p' : list Q) : Prop :=
  length p' = length p /\ forall i r q q', nth_error rs i = Some r -> (0 < r)%nat -> nth_error p i = Some q -> nth_error p' i = Some q' -> q' == q.

Lemma Qn_S_le : forall r, (0 < r)%nat -> 1 <= Qn r.
Proof. intros r H. rewrite <- Qn_1. apply Qn_le. lia. Qed.

Lemma dum_dot : forall rs p p', Forall2 dum p p' ->
  (dot p rs <= B * Qn (nsum rs) - M /\ dot p' rs <= B * Qn (nsum rs) - M')
  \/ (agree rs p p' /\ dot p' rs == dot p rs /\ dot p rs <= B * Qn (nsum rs)).
Proof.
  intros rs p p' H. revert rs. induction H as [|v v' p p' HV H IH]; intros rs.
  - right. split; [split; [reflexivity|intros i r q q' _ _ X; destruct i; discriminate]|]. split; [reflexivity|]. cbn [dot]. assert (X := Qn_nonneg (nsum rs)). nra.
  - destruct rs as [|r rs].
    + right. split; [split; [cbn [length]; f_equal; eapply F2_len; exact H|intros i r q q' X; destruct i; discriminate]|]. split; [reflexivity|]. cbn [dot]. assert (X := Qn_nonneg (nsum [])). nra.
    + cbn [dot]. change (nsum (r :: rs)) with (r + nsum rs)%nat. rewrite Qn_plus. assert (R0 := Qn_nonneg r).
      assert (L : length p' = length p) by (eapply F2_len; exact H).
      destruct (IH rs) as [[D1 D2]|[[_ A] [D1 D2]]].
      * left. destruct HV as [[-> [V1 V2]]|[-> ->]]; split; nra.
      * destruct HV as [[-> [V1 V2]]|[-> ->]].
        -- right. split; [|split; [rewrite D1; reflexivity|nra]]. split; [cbn [length]; rewrite L; reflexivity|]. intros [|i] r' q q' Hr Hp Hq Hq'; cbn [nth_error] in *.
           ++ inversion Hq; inversion Hq'; subst. reflexivity.
           ++ eapply A; eassumption.
        -- destruct (Nat.eq_dec r 0) as [->|NZ].
           ++ right. rewrite Qn_0. split; [|split; [rewrite D1; ring|nra]]. split; [cbn [length]; rewrite L; reflexivity|]. intros [|i] r' q q' Hr Hp Hq Hq'; cbn [nth_error] in *.
              ** inversion Hr; subst. lia.
              ** eapply A; eassumption.
           ++ left. assert (R1 := Qn_S_le r ltac:(lia)). rewrite D1. split; nra.
Qed.

Definition dum_prices (p p' : option (list Q)) : Prop := match p, p' with Some q, Some q' => agree recipe q q' | None, None => True | _, _ => False end.
Definition dum_tr (s s' : tr_state) : Prop := dum_market (tr_remaining s) (tr_remaining s') /\ tr_traders s' = tr_traders s /\ dum_prices (tr_prices s) (tr_prices s').

Lemma dum_keep : forall s s' i v, dum_tr s s' -> alike dum_tr (tr_keep recipe s i v) (tr_keep recipe s' i v).
Proof.
  intros s s' i v (H1 & H2 & H3). unfold tr_keep. apply alike_same. intros k. rewrite H2. apply alike_same. intros t. split; [exact H1|]. split; [reflexivity|exact H3].
Qed.

Lemma agree_set : forall rs i x x' p p', agree rs p p' -> x' == x -> agree rs (set_nth i x p) (set_nth i x' p').
Proof.
  intros rs i x x' p p' [L A] HX. split; [rewrite !set_nth_length; exact L|]. intros j r q q' Hr Hp Hq Hq'. destruct (Nat.eq_dec i j) as [->|NE].
  - assert (J : (j < length p)%nat) by (apply nth_error_Some; intros N; apply nth_error_None in N; rewrite <- (set_nth_length _ j x p) in N; apply nth_error_None in N; congruence).
    rewrite set_nth_same in Hq by exact J. rewrite set_nth_same in Hq' by lia. inversion Hq; inversion Hq'; subst. exact HX.
  - rewrite set_nth_other in Hq, Hq' by exact NE. eapply A; eassumption.
Qed.

Lemma dum_pivot : forall z ps s s' i, Forall real ps -> dum_tr s s' -> alike dum_tr (tr_pivot recipe z ps s i) (tr_pivot recipe z ps s' i).
Proof.
  intros z ps s s' i HPS HS. unfold tr_pivot. destruct (get ps i) as [v|e|] eqn:EG; [|reflexivity|exact I]. cbn [bind].
  assert (HV : real v).
  { unfold get in EG. destruct (nth_error ps i) as [w|] eqn:EN; [|discriminate]. inversion EG; subst. rewrite Forall_forall in HPS. apply HPS. eapply nth_error_In. exact EN. }
  assert (HS' := HS). destruct HS' as (H1 & H2 & H3). unfold dum_prices in H3. destruct (tr_prices s) as [p|] eqn:E, (tr_prices s') as [p'|] eqn:E'; try contradiction.
  - apply dum_keep. exact HS.
  - cbn zeta. unfold best_containing_PS. eapply alike_bind; [apply dum_best; eassumption|]. intros b b' HB.
    assert (REJ : forall x : Q, x < 0 -> Qlt_bool 0 x || z && Qeq_bool x 0 = false).
    { intros x HX. apply orb_false_iff. split.
      - unfold Qlt_bool. apply negb_false_iff. apply Qle_bool_iff. lra.
      - apply andb_false_iff. right. apply not_true_is_false. intros X. apply Qeq_bool_iff in X. lra. }
    assert (NEG : alike dum_tr (rem' <- append_trader (tr_remaining s) (convert_category_index recipe i) v;; Ok (mkTR rem' (tr_traders s) None))
                               (rem' <- append_trader (tr_remaining s') (convert_category_index recipe i) v;; Ok (mkTR rem' (tr_traders s') None))).
    { eapply alike_bind; [apply dum_append_trader; [exact H1|left; split; [reflexivity|exact HV]]|]. intros r r' HR. split; [exact HR|]. split; [exact H2|exact I]. }
    destruct (dum_dot recipe b b' HB) as [[D1 D2]|(A & D1 & D2)].
    + rewrite (REJ (dot b recipe)), (REJ (dot b' recipe)) by lra. exact NEG.
    + assert (EC : Qlt_bool 0 (dot b' recipe) || z && Qeq_bool (dot b' recipe) 0 = Qlt_bool 0 (dot b recipe) || z && Qeq_bool (dot b recipe) 0).
      { unfold Qlt_bool. rewrite D1. reflexivity. }
      rewrite EC. destruct (Qlt_bool 0 (dot b recipe) || z && Qeq_bool (dot b recipe) 0); [|exact NEG].
      eapply alike_bind with (R := agree recipe).
      * unfold calculate_prices. apply alike_same. intros r. destruct (r =? 0)%nat; [reflexivity|]. cbn [alike]. apply agree_set; [exact A|]. rewrite D1. reflexivity.
      * intros q q' HQ. apply dum_keep. split; [exact H1|]. split; [exact H2|exact HQ].
Qed.

Lemma dum_dummies : forall m, all_values real m -> dum_market (add_dummies M m) (add_dummies M' m).
Proof.
  intros m H. unfold all_values, add_dummies in *. induction H as [|a m HA H IH]; cbn [map]; constructor; [|exact IH].
  assert (D : dum_cat a a). { split; [reflexivity|]. clear -HA. induction HA; constructor; [left; split; [reflexivity|assumption]|assumption]. }
  destruct (csize a =? 0)%nat; [|exact D]. apply dum_append; [exact D|right; split; reflexivity].
Qed.

Theorem tr_max_value : forall it m z, all_values real m ->
  alike (same_trade recipe) (trade_reduction_M M it m recipe z) (trade_reduction_M M' it m recipe z).
Proof.
  intros it m z H. unfold trade_reduction_M. destruct (length recipe =? length m)%nat; [|reflexivity].
  destruct (optimal_trade it m recipe true) as [[d r]|e|] eqn:EO; [|reflexivity|exact I]. cbn [bind].
  destruct (all_optimal real _ _ _ _ _ _ H EO) as [HD HR].
  assert (NT : forall cats p p', dum_prices p p' -> alike (same_trade recipe) (new_trade cats recipe p) (new_trade cats recipe p')).
  { intros cats p p' HP. unfold new_trade. destruct (min_list (potential_deals cats recipe)); [|reflexivity]. split; [reflexivity|]. split; [reflexivity|exact HP]. }
  destruct d as [|x l].
  - apply NT. split; [reflexivity|]. intros j r' q q' _ _ A1 A2. rewrite A1 in A2. inversion A2. reflexivity.
  - destruct (get_highest_agents r recipe) as [h|e|] eqn:EH; [|reflexivity|exact I]. cbn [bind].
    set (lr := match h with Some (x0 :: l0) => _ | _ => _ end).
    assert (HLR : forall ps rem, lr = Ok (ps, rem) -> Forall (Forall real) ps /\ all_values real rem).
    { intros ps rem E. unfold lr in E. destruct h as [[|y k]|]; [inversion E; subst; split; assumption| |inversion E; subst; split; assumption].
      destruct (market_remove_highest r recipe) as [b| |] eqn:EB; cbn [bind] in E; try discriminate. inversion E; subst. split; [|eapply all_remove; eassumption].
      constructor; [eapply all_highest; eassumption|exact HD]. }
    destruct lr as [[ps rem]|e|]; [|reflexivity|exact I]. cbn [bind]. destruct (HLR ps rem eq_refl) as [HP HREM].
    eapply alike_bind.
    + apply alike_fold with (R := fun q q' => q' = q /\ Forall real q) (T := dum_tr).
      * clear -HP. induction HP; constructor; [split; [reflexivity|assumption]|assumption].
      * intros s s' q q' HS [-> HQ]. unfold tr_ps. apply alike_fold with (R := eq) (T := dum_tr); [apply F2_same| |exact HS].
        intros u u' i i' HU <-. apply dum_pivot; assumption.
      * split; [apply dum_dummies; exact HREM|]. split; [reflexivity|exact I].
    + intros s s' (H1 & H2 & H3). rewrite H2. apply NT. exact H3.
Qed.

(** ** McAfee *)
Lemma dum_highest : forall m m' rs, dum_market m m' ->
  alike (fun o o' => match o, o' with Some l, Some l' => Forall2 dum l l' | None, None => True | _, _ => False end) (get_highest_agents m rs) (get_highest_agents m' rs).
Proof.
  intros m m' rs H. revert rs. induction H as [|a a' m m' HA H IH]; intros [|r rs]; cbn [get_highest_agents]; [constructor|constructor|reflexivity|].
  assert (S : csize a' = csize a) by (unfold csize; eapply F2_len; apply HA). rewrite S. destruct (csize a <? r)%nat; [exact I|].
  eapply alike_bind; [apply IH|]. intros [l|] [l'|] HL; try contradiction; [|exact I]. apply Forall2_app; [|exact HL]. apply F2_firstn. apply HA.
Qed.

Lemma dum_abs : forall p p', Forall2 dum p p' -> p' = p \/ (M <= Qsum (map Qabs p) /\ M' <= Qsum (map Qabs p')).
Proof.
  assert (NN : forall p, 0 <= Qsum (map Qabs p)).
  { intros p. unfold Qsum. induction p; cbn [map fold_right]; [lra|]. assert (X := Qabs_nonneg a). lra. }
  intros p p' H. unfold Qsum in *. induction H as [|v v' p p' HV H IH]; [left; reflexivity|]. cbn [map fold_right].
  assert (N1 := NN p). assert (N2 := NN p').
  destruct HV as [[-> HV]|[-> ->]].
  - destruct IH as [->|[I1 I2]]; [left; reflexivity|right]. assert (X := Qabs_nonneg v). split; lra.
  - right. assert (X := Qle_Qabs (- - M)). assert (X' := Qle_Qabs (- - M')). rewrite Qabs_opp in X, X'. split; lra.
Qed.

Lemma large_price_bad : forall p ps, B < p -> Forall real ps -> 0 <= Qsum ps -> ps <> [] -> is_price_good_for_ps p ps = false.
Proof.
  intros p ps HP HR HS HN. destruct (is_price_good_for_ps p ps) eqn:E; [exfalso|reflexivity]. unfold is_price_good_for_ps in E. rewrite forallb_forall in E.
  assert (N : forall x, In x ps -> x < 0).
  { intros x Hx. specialize (E x Hx). apply negb_true_iff, orb_false_iff in E. destruct E as [E _]. destruct (Qle_bool 0 x) eqn:C; [|apply Qle_bool_false in C; exact C].
    cbn [andb] in E. rewrite Forall_forall in HR. destruct (HR x Hx) as [_ R2]. assert (T : Qlt_bool x p = true); [|congruence].
    unfold Qlt_bool. apply negb_true_iff. apply Qle_bool_false. lra. }
  clear -N HS HN. destruct ps as [|x ps]; [congruence|]. clear HN.
  assert (L : forall qs, (forall y, In y qs -> y < 0) -> Qsum qs <= 0).
  { intros qs Hq. unfold Qsum. induction qs as [|y qs IH]; cbn [fold_right]; [lra|]. assert (A := Hq y (or_introl eq_refl)). assert (A' := IH (fun z Hz => Hq z (or_intror Hz))). lra. }
  assert (A := N x (or_introl eq_refl)). assert (A' := L ps (fun z Hz => N z (or_intror Hz))). change (Qsum (x :: ps)) with (x + Qsum ps) in HS. lra.
Qed.

Theorem mcafee_max_value : forall it m h, all_values real m -> mcafee_M M it m recipe h = mcafee_M M' it m recipe h.
Proof.
  intros it m h H. unfold mcafee_M. destruct (Nat.eqb_spec (length recipe) (length m)) as [L|]; [|reflexivity]. cbn [negb].
  destruct (forallb (fun r => (r =? 1)%nat) recipe) eqn:ONE; [|reflexivity]. cbn [negb].
  destruct (optimal_trade it m recipe true) as [[d r]|e|] eqn:EO; [|reflexivity|reflexivity]. cbn [bind].
  destruct (all_optimal real _ _ _ _ _ _ H EO) as [HD HR]. assert (OD := optimal_deals _ _ _ _ _ _ EO). cbn zeta.
  assert (LR : length recipe = length r).
  { destruct (Proof_Market.conservation _ _ _ _ _ _ EO) as (_ & _ & _ & X & _). congruence. }
  assert (DH := dum_highest _ _ recipe (dum_dummies _ HR)).
  destruct (get_highest_agents (add_dummies M r) recipe) as [o|e|] eqn:G, (get_highest_agents (add_dummies M' r) recipe) as [o'|e'|] eqn:G'; cbn [alike] in DH; try contradiction; [|rewrite DH; reflexivity|reflexivity].
  cbn [bind]. destruct h.
  2:{ cbn [bind]. reflexivity. }
  destruct o as [o|], o' as [o'|]; try contradiction; [|reflexivity].
  destruct (dum_abs _ _ DH) as [->|[A1 A2]]; [reflexivity|].
  assert (LL : length o' = length o) by (eapply F2_len; exact DH).
  assert (LO : length o = nsum recipe). { eapply highest_length; [|exact G]. unfold add_dummies. rewrite map_length. exact LR. }
  unfold price_candidate. rewrite LL. destruct (length o =? 0)%nat eqn:Z; [reflexivity|]. cbn [bind].
  apply Nat.eqb_neq in Z. destruct d as [|x l]; [reflexivity|]. inversion HD as [|y k HX HL]; subst. inversion OD as [|y k [OX OL] _]; subst.
  assert (NX : x <> []). { intros ->. cbn [length] in OL. lia. }
  assert (QP : 0 < Qn (length o)). { assert (X := Qn_S_le (length o) ltac:(lia)). lra. }
  assert (BIG : forall s m0, m0 <= s -> B * Qn (nsum recipe) < m0 -> B < s / Qn (length o)).
  { intros s m0 S1 S2. apply Qlt_shift_div_l; [exact QP|]. rewrite LO. lra. }
  rewrite (large_price_bad _ x (BIG _ M A1 BN) HX OX NX), (large_price_bad _ x (BIG _ M' A2 BN') HX OX NX). reflexivity.
Qed.
End Two.

Lemma below_values : forall M recipe m, well_below M recipe m -> forall M', well_below M' recipe m ->
  exists B, 0 <= B /\ B < M /\ B < M' /\ B * Qn (nsum recipe) < M /\ B * Qn (nsum recipe) < M' /\ all_values (real B) m.
Proof.
  intros M recipe m (B & B0 & B1 & B2 & HB) M' (C & C0 & C1 & C2 & HC). assert (N := Qn_nonneg (nsum recipe)).
  assert (V : forall D, (forall c v, In c m -> In v (cvalues c) -> - D <= v /\ v <= D) -> all_values (real D) m).
  { intros D HD. unfold all_values. apply Forall_forall. intros c Hc. apply Forall_forall. intros v Hv. apply (HD c v Hc Hv). }
  destruct (Qlt_le_dec B C) as [LT|LE].
  - exists B. assert (B * Qn (nsum recipe) <= C * Qn (nsum recipe)) by nra. split; [exact B0|]. split; [exact B1|]. split; [lra|]. split; [exact B2|]. split; [lra|apply V; exact HB].
  - exists C. assert (C * Qn (nsum recipe) <= B * Qn (nsum recipe)) by nra. split; [exact C0|]. split; [lra|]. split; [exact C1|]. split; [lra|]. split; [exact C2|apply V; exact HC].
Qed.

Theorem trade_reduction_max_value : forall M M' it m recipe z, well_below M recipe m -> well_below M' recipe m ->
  alike (same_trade recipe) (trade_reduction_M M it m recipe z) (trade_reduction_M M' it m recipe z).
Proof.
  intros M M' it m recipe z H H'. destruct (below_values _ _ _ H _ H') as (B & B0 & B1 & B2 & B3 & B4 & V). apply (tr_max_value M M' B); assumption.
Qed.

Theorem mcafee_max_value_independent : forall M M' it m recipe h, well_below M recipe m -> well_below M' recipe m ->
  mcafee_M M it m recipe h = mcafee_M M' it m recipe h.
Proof.
  intros M M' it m recipe z H H'. destruct (below_values _ _ _ H _ H') as (B & B0 & B1 & B2 & B3 & B4 & V). apply (mcafee_max_value M M' B); assumption.
Qed.
