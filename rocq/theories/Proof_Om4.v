(** * The old multi-recipe auction: the theorems for C73 *)

From Coq Require Import String List Arith Lia QArith Lqa Permutation Sorted Bool Qround.
From Verif Require Import Base Model_Agents Model_Trade Model_Prices Model_Market Model_RecipeTree Model_TreeAuction
  Model_Ascending Model_OldMulti Spec_Market Spec_RecipeTree Spec_TreeAuction Spec_OldMulti
  Proof_Tree Proof_Tree2 Proof_Tree3 Proof_TA1 Proof_TA2 Proof_TA3 Proof_Ascending Proof_Om1 Proof_Om2 Proof_Om3.
Import ListNotations.
Open Scope Q_scope.

Lemma clone_Forall2 : forall m cats, length cats = length m ->
  (forall i, pfx (cvalues (cat_at cats i)) (cvalues (cat_at (clone_market m) i))) ->
  (forall i, cname (cat_at cats i) = cname (cat_at (clone_market m) i)) ->
  Forall2 (fun c c' => cname c' = cname c /\ exists k, cvalues c' = firstn k (sort_desc (cvalues c))) m cats.
Proof.
  induction m as [|c m IH]; intros [|c' cats] HL HP HN; simpl in HL; try lia; constructor.
  - assert (P := HP 0%nat). assert (N := HN 0%nat). unfold cat_at in P, N. simpl in P, N. split; [exact N|].
    exists (length (cvalues c')). exact P.
  - apply IH; [lia| |]; intros i; [apply (HP (S i))|apply (HN (S i))].
Qed.

Lemma left_prefix : forall m cats, Forall2 (fun c c' => cname c' = cname c /\ exists k, cvalues c' = firstn k (sort_desc (cvalues c))) m cats ->
  (left_agents cats <= agents_number m)%nat.
Proof.
  intros m cats H. unfold left_agents, agents_number. induction H as [|c c' m cats [_ [k E]] H IH]; [simpl; lia|].
  cbn [map]. change (csize c' + nsum (map csize cats) <= csize c + nsum (map csize m))%nat.
  assert (X : (csize c' <= csize c)%nat).
  { unfold csize. rewrite E, firstn_length, sort_desc_length. lia. } lia.
Qed.

Theorem multi_result : forall depth M lp iter fuel m rs t rest, 0 < M -> set_order iter -> finds_prices (length m) (- M) lp ->
  multi_auction depth M lp iter fuel m rs = (Ok t, rest) ->
  rest <> [] /\ sublist rest rs /\ mt_recipes t = rest
  /\ Forall2 (fun c c' => cname c' = cname c /\ exists k, cvalues c' = firstn k (sort_desc (cvalues c))) m (mt_cats t)
  /\ (values_above (- M) m ->
      forall i c v, nth_error (mt_cats t) i = Some c -> In v (cvalues c) -> nth i (mt_prices t) 0 <= v)
  /\ (exists S, equal_sums rest (mt_prices t) S /\ S <= 0)
  /\ ((0 < mt_deals t)%nat -> equal_sums rest (mt_prices t) 0)
  /\ (Qn (agents_number m) <= M ->
      (exists ds, can_make (mt_cats t) rest ds /\ nsum ds = mt_deals t)
      /\ forall ds, can_make (mt_cats t) rest ds -> (nsum ds <= mt_deals t)%nat).
Proof.
  intros depth M lp iter fuel m rs t rest HM IT LP H.
  destruct (multi_final _ _ _ _ _ _ _ _ _ HM IT LP H) as (A & B & a & mins & HA & FI).
  assert (MS := fi_setup _ _ _ _ _ _ _ _ FI). assert (TM := fi_made _ _ _ _ _ _ _ _ FI).
  assert (F2 := clone_Forall2 m (mt_cats t) (fi_len _ _ _ _ _ _ _ _ FI) (fi_pfx _ _ _ _ _ _ _ _ FI) (fi_name _ _ _ _ _ _ _ _ FI)).
  destruct (fi_sums _ _ _ _ _ _ _ _ FI) as (S & ES & LS & ZS).
  split; [apply (ms_nonempty _ _ _ _ MS)|]. split; [assumption|]. split; [assumption|]. split; [assumption|]. split.
  { intros HV i c v Hc Hv. apply cat_at_error in Hc. destruct Hc as [Hc _]. subst c. eapply (fi_ir _ _ _ _ _ _ _ _ FI); eassumption. }
  split; [exists S; auto|]. split.
  { intros HD r Hr. rewrite (ES r Hr). destruct ZS as [ZS|[ZS _]]; [assumption|]. exfalso.
    destruct (fst a) as [|c0 cl] eqn:EC.
    - assert (E := tm_none _ _ _ _ _ _ _ _ TM eq_refl). rewrite ZS in E. rewrite E in HD.
      destruct (Qlt_bool M (Qn 0)) eqn:EB; [|lia]. apply Qlt_bool_iff in EB. change (Qn 0) with 0 in EB. lra.
    - destruct (tm_some _ _ _ _ _ _ _ _ TM) as (x & E & _); [discriminate|]. rewrite ZS in E. rewrite E in HD. simpl in HD. lia. }
  intros HQ. eapply deals_exact; [apply (fi_len _ _ _ _ _ _ _ _ FI)|exact MS|exact TM|].
  assert (X := left_prefix _ _ F2). apply Qn_le in X. lra.
Qed.

(** ** Recipes that share a category *)

Lemma dot_bound : forall p r n v c x, binary_recipe n r -> length p = n -> (forall i, nth i p 0 <= v) -> 0 <= v ->
  nth c r 0%nat = 1%nat -> nth c p 0 <= x -> dot p r <= x + Qn n * v.
Proof.
  assert (W : forall p r n v, binary_recipe n r -> length p = n -> (forall i, nth i p 0 <= v) -> 0 <= v -> dot p r <= Qn n * v).
  { induction p as [|a p IH]; intros [|b r] n v [HL HB] HP HV V0; simpl in HL, HP; subst n; try lia; cbn [dot length].
    - change (Qn 0) with 0. lra.
    - inversion HB as [|? ? B1 B2]; subst. assert (X : dot p r <= Qn (length r) * v).
      { apply IH; auto; [split; [lia|assumption]|]. intros i. apply (HV (S i)). }
      assert (Y := HV 0%nat). simpl in Y. assert (QS := Qn_S (length r)). rewrite QS.
      destruct B1 as [->| ->]; [change (Qn 0) with 0|change (Qn 1) with 1]; lra. }
  induction p as [|a p IH]; intros [|b r] n v c x [HL HB] HP HV V0 H1 HX; simpl in HL, HP; subst n; try lia.
  - simpl in H1. destruct c; discriminate.
  - inversion HB as [|? ? B1 B2]; subst. cbn [dot]. cbn [length]. assert (QS := Qn_S (length r)). rewrite QS.
    assert (HV' : forall i, nth i p 0 <= v) by (intros i; apply (HV (S i))).
    destruct c as [|c]; simpl in H1, HX.
    + subst b. change (Qn 1) with 1. assert (X := W p r (length r) v (conj eq_refl B2) ltac:(lia) HV' V0). lra.
    + assert (X := IH r (length r) v c x (conj eq_refl B2) ltac:(lia) HV' V0 H1 HX).
      assert (Y := HV 0%nat). simpl in Y. destruct B1 as [->| ->]; [change (Qn 0) with 0|change (Qn 1) with 1]; lra.
Qed.

Lemma last_call : forall depth M lp iter fuel m rs t rest, finds_prices (length m) (- M) lp ->
  multi_auction depth M lp iter fuel m rs = (Ok t, rest) ->
  sublist rest rs /\ exists a p0 sp s, call_ends M lp iter fuel m rest a p0 sp (Finish s)
     /\ new_multi_trade M (fst s) rest (map_category_index_to_price (snd s)) = Ok t.
Proof.
  induction depth as [|depth IH]; intros M lp iter fuel m rs t rest LP H; [discriminate|].
  destruct (multi_auction_cases depth M lp iter fuel m rs)
    as [(a & p0 & sp & s & C & E)|[(a & p0 & sp & k & C & E)|[(e & E & C)|[(a & p0 & sp & HC & HA & HL & HSP & C)|C]]]].
  - rewrite E in H. injection H; intros <- HT. split; [apply sublist_refl|]. exists a, p0, sp, s. auto.
  - rewrite E in H. destruct (del_nth k rs) as [|r0 rest0] eqn:ER; [discriminate|]. rewrite <- ER in H.
    destruct (IH _ _ _ _ _ _ _ _ LP H) as [A B]. split; [|assumption]. eapply sublist_trans; [exact A|apply del_nth_sublist].
  - congruence.
  - exfalso. cbn [multi_auction] in H. rewrite HC, HA in H. cbn [bind] in H. rewrite HL in H. cbn [bind] in H.
    rewrite HSP in H. cbn [bind] in H. destruct C as [C|[s C]]; rewrite C in H; discriminate.
  - exfalso. assert (F := LP rs). rewrite C in F. assumption.
Qed.

Record capped (M v : Q) (common : list nat) (s : tree_state) : Prop := mkCapped {
  cp_all : forall i, pr s i <= v;
  cp_common : forall i, In i common -> pr s i <= - M;
  cp_values : forall i x, In x (cvalues (cat_at (cats_of s) i)) -> x <= v
}.

Lemma capped_step : forall M v n rs common uniques iter s s' mains S d, msetup n rs common uniques -> set_order iter ->
  mains_of iter (cats_of s) uniques mains -> (forall i, In i mains -> (0 < csize (cat_at (cats_of s) i))%nat) ->
  capped M v common s -> mstep n rs s s' mains S d ->
  (forall i, pr s' i <= v) /\ (forall i, In i common -> pr s' i <= - M).
Proof.
  intros M v n rs common uniques iter s s' mains S d MS IT MO NE [C1 C2 C3] MV. split.
  - intros i. destruct (in_dec Nat.eq_dec i mains) as [I|I].
    + rewrite (st_chosen _ _ _ _ _ _ _ MV i I). assert (X := st_target _ _ _ _ _ _ _ MV i I).
      assert (Y : low (cat_at (cats_of s) i) <= v).
      { apply (C3 i). unfold low. assert (Z := NE i I). unfold csize in Z. apply last_In. intros E. rewrite E in Z. simpl in Z. lia. }
      lra.
    + rewrite (st_other _ _ _ _ _ _ _ MV i I). apply C1.
  - intros i Hi. rewrite (st_other _ _ _ _ _ _ _ MV i); [apply C2; assumption|]. intros I.
    destruct (In_nth _ _ 0%nat I) as [k [Hk E]]. rewrite (mains_length _ _ _ _ _ _ _ MS MO) in Hk.
    assert (U := main_unique _ _ _ _ _ _ _ MS IT MO k Hk). rewrite E in U. apply (ms_unique _ _ _ _ MS) in U.
    apply (ms_common _ _ _ _ MS) in Hi. destruct U as (_ & _ & _ & U). destruct Hi as (_ & H2 & H).
    assert (0%nat = k) by (apply U; [lia|apply H; lia]). assert (1%nat = k) by (apply U; [lia|apply H; lia]). lia.
Qed.

Lemma shared_call : forall M v lp iter fuel m rs a p0 sp s, 0 < M -> set_order iter -> finds_prices (length m) (- M) lp ->
  0 <= v -> values_below v m -> Qn (length m) * v < M -> fst a <> [] ->
  call_ends M lp iter fuel m rs a p0 sp (Finish s) ->
  forall i u, In u (snd a) -> In i u -> csize (cat_at (cats_of s) i) = 0%nat.
Proof.
  intros M v lp iter fuel m rs a p0 sp s HM IT LP V0 HV HQ HA0 CE. inversion CE as [st' HC HA HL HSP HR]; subst st'. clear CE.
  assert (MS := analyze_setup _ _ _ HC HA). assert (F := LP rs). rewrite HL in F.
  destruct (start_msetup M (length m) m rs _ _ p0 HM eq_refl MS F) as (sp1 & E1 & E2 & G0).
  rewrite HSP in E1. injection E1; intros <-. clear E1.
  destruct (multi_loop_last fuel iter (fst a) (snd a)
     (fun s => invW (length m) rs (clone_market m) s /\ capped M v (fst a) s)
     (clone_market m, sp) (Ok (Finish s))) with (3 := HR) as (s1 & [IW CP] & HR1 & NC).
  - split; [apply invW_start; assumption|]. destruct F as [[F1 [F2 _]] _]. rewrite Forall_forall in F2.
    assert (P : forall i, (i < length m)%nat -> pr (clone_market m, sp) i <= - M).
    { intros i Hi. unfold Proof_TA2.pr, Proof_TA2.prices_of. cbn [snd]. rewrite E2. apply F2. apply nth_In. lia. }
    split.
    + intros i. destruct (lt_dec i (length m)) as [L|L]; [specialize (P i L); lra|].
      unfold Proof_TA2.pr, Proof_TA2.prices_of. cbn [snd]. rewrite E2. rewrite nth_overflow by lia. assumption.
    + intros i Hi. apply P. apply (ms_common _ _ _ _ MS). assumption.
    + intros i x Hx. unfold cats_of in Hx. cbn [fst] in Hx. rewrite clone_at, clone_In in Hx.
      destruct (cat_at_In _ _ _ Hx) as [HIn Hi]. eapply HV; eassumption.
  - intros x y [IW CP] Hxy. destruct (iw_good _ _ _ _ IW) as [S [G NS]].
    assert (K := multi_round_cases _ _ _ _ iter x S MS IT G). rewrite Hxy in K.
    inversion K as [| | | | |mains s' d M1 M2 M3 M4 M5 M6 E3]; subst. split; [eapply invW_continue; eassumption|].
    destruct (capped_step _ _ _ _ _ _ _ _ _ _ _ _ MS IT M1 M2 CP M3) as [A B]. split; [assumption|assumption|].
    intros i z Hz. rewrite M5 in Hz. apply beat_In in Hz. apply (cp_values _ _ _ _ CP i). assumption.
  - discriminate.
  - destruct (iw_good _ _ _ _ IW) as [S [G NS]]. assert (K := multi_round_cases _ _ _ _ iter s1 S MS IT G). rewrite HR1 in K.
    inversion K as [| |mains M1 M2 E3| |mains s' d M1 M2 M3 M4 M5 M6 E3|]; subst.
    + eapply mains_empty; eassumption.
    + exfalso. destruct (capped_step _ _ _ _ _ _ _ _ _ _ _ _ MS IT M1 M2 CP M3) as [A B].
      assert (G' := st_good _ _ _ _ _ _ _ M3). destruct (fst a) as [|c cl] eqn:EC; [congruence|].
      assert (Hc := proj1 (ms_common _ _ _ _ MS c) (or_introl eq_refl)). destruct Hc as (Hcn & H2 & Hall).
      assert (SB := ms_binary _ _ _ _ MS). rewrite Forall_forall in SB.
      assert (R0 : In (nth 0 rs []) rs) by (apply nth_In; lia).
      assert (X := g_sums _ _ _ _ G' _ R0).
      assert (Y := dot_bound (prices_of s) (nth 0 rs []) (length m) v c (- M) (SB _ R0) (g_prices _ _ _ _ G') A V0
         (binary_pos_one _ _ _ (SB _ R0) (Hall 0%nat ltac:(lia))) (B c (or_introl eq_refl))).
      lra.
Qed.

Lemma sublist_shares : forall rs rest, sublist rest rs -> share_a_category rs -> share_a_category rest.
Proof.
  intros rs rest H [c Hc]. exists c. intros k Hk. split; [assumption|].
  assert (X : In (nth k rest []) rs) by (eapply sublist_In; [exact H|apply nth_In; assumption]).
  destruct (In_nth _ _ [] X) as [j [Hj E]]. rewrite <- E. apply (Hc j Hj).
Qed.

Lemma shared_range : forall n rs c, Forall (binary_recipe n) rs -> rs <> [] ->
  (forall k, (k < length rs)%nat -> contains rs k c) -> (c < n)%nat.
Proof.
  intros n rs c SB HN H. destruct rs as [|r rs]; [congruence|]. inversion SB as [|? ? [L _] _]; subst.
  destruct (H 0%nat ltac:(simpl; lia)) as [_ P]. simpl in P.
  destruct (lt_dec c (length r)) as [X|X]; [assumption|]. rewrite nth_overflow in P by lia. lia.
Qed.

(** With recipes that share a category, deals are made with one recipe only. *)
Theorem multi_shared : forall depth M v lp iter fuel m rs t rest, 0 < M -> set_order iter -> finds_prices (length m) (- M) lp ->
  0 <= v -> values_below v m -> Qn (length m) * v < M -> share_a_category rs ->
  multi_auction depth M lp iter fuel m rs = (Ok t, rest) -> (0 < mt_deals t)%nat -> length rest = 1%nat.
Proof.
  intros depth M v lp iter fuel m rs t rest HM IT LP V0 HV HQ SH H HD.
  destruct (last_call _ _ _ _ _ _ _ _ _ LP H) as (SL & a & p0 & sp & s & CE & HT).
  assert (SH' := sublist_shares _ _ SL SH). destruct (call_last _ _ _ _ _ _ _ _ _ _ HM IT LP CE) as (MS & _).
  destruct (le_lt_dec 2 (length rest)) as [L|L].
  - exfalso. destruct SH' as [c Hc].
    assert (CN : In c (fst a)).
    { apply (ms_common _ _ _ _ MS). split; [apply (shared_range _ rest); [apply (ms_binary _ _ _ _ MS)|apply (ms_nonempty _ _ _ _ MS)|assumption]|].
      split; [assumption|]. intros k Hk. apply (Hc k Hk). }
    assert (Z := shared_call _ _ _ _ _ _ _ _ _ _ _ HM IT LP V0 HV HQ ltac:(intros E; rewrite E in CN; destruct CN) CE).
    destruct (multi_final _ _ _ _ _ _ _ _ _ HM IT LP H) as (_ & _ & a' & mins & HA' & FI).
    inversion CE as [st' HC HA HL HSP HR]; subst st'. rewrite HA in HA'. injection HA'; intros <-.
    assert (TM := fi_made _ _ _ _ _ _ _ _ FI).
    assert (EC : mt_cats t = cats_of s).
    { unfold new_multi_trade in HT. apply bind_Ok in HT. destruct HT as [x [_ HT]]. apply bind_Ok in HT. destruct HT as [y [_ HT]].
      destruct (fst x); [injection HT; intros <-; reflexivity|]. apply bind_Ok in HT. destruct HT as [z [_ HT]]. injection HT; intros <-. reflexivity. }
    assert (E0 : nsum mins = 0%nat).
    { eapply sums_mins; [apply (tm_mins _ _ _ _ _ _ _ _ TM)|]. rewrite EC. exact Z. }
    destruct (tm_some _ _ _ _ _ _ _ _ TM) as (x & E & _); [intros E; rewrite E in CN; destruct CN|]. rewrite E0 in E. simpl in E. lia.
  - assert (N := ms_nonempty _ _ _ _ MS). destruct rest as [|r [|r' l]]; [congruence|reflexivity|simpl in L; lia].
Qed.

(** ** Many agents in a shared category *)

Theorem multi_shared_large : forall depth M lp iter fuel m rs c bigs, 0 < M -> set_order iter -> finds_prices (length m) (- M) lp ->
  (1 < length rs)%nat -> (0 < depth)%nat -> (0 < fuel)%nat ->
  (forall k, (k < length rs)%nat -> contains rs k c) ->
  length bigs = length rs ->
  (forall k, (k < length rs)%nat -> unshared rs k (nth k bigs 0%nat)
     /\ forall i, unshared rs k i -> (nth i (map csize m) 0 <= nth (nth k bigs 0) (map csize m) 0)%nat) ->
  (0 < nsum (map (fun i => nth i (map csize m) 0%nat) bigs) <= nth c (map csize m) 0)%nat ->
  multi_auction depth M lp iter fuel m rs = (Raise ValueError, rs).
Proof.
  intros depth M lp iter fuel m rs c bigs HM IT LP H2 HD HF HC HL HB HS.
  destruct depth as [|depth]; [lia|]. destruct fuel as [|fuel]; [lia|]. cbn [multi_auction].
  destruct (recipes_checked (length m) rs) eqn:CK; [|reflexivity].
  destruct (analyze_raise (length m) rs) as [[a HA]|HA]; rewrite HA; cbn [bind]; [|reflexivity].
  assert (MS := analyze_setup _ _ _ CK HA). assert (F := LP rs).
  destruct (lp rs) as [p0|e|] eqn:EL; cbn [bind]; [|subst e; reflexivity|destruct F].
  destruct (start_msetup M (length m) m rs _ _ p0 HM eq_refl MS F) as (sp & E1 & E2 & S & G & NS).
  rewrite E1. cbn [bind multi_loop].
  assert (K := multi_round_cases _ _ _ _ iter (clone_market m, sp) S MS IT G).
  remember (multi_round iter (fst a) (snd a) (clone_market m, sp)) as res eqn:ER. clear ER.
  assert (SZ : forall i, csize (cat_at (cats_of (clone_market m, sp)) i) = nth i (map csize m) 0%nat).
  { intros i. unfold cats_of. cbn [fst]. rewrite clone_at. rewrite size_nth. unfold csize, clone, new_category. simpl. apply sort_desc_length. }
  assert (Hcm : In c (fst a)).
  { apply (ms_common _ _ _ _ MS). split; [apply (shared_range _ rs); [apply (ms_binary _ _ _ _ MS)|apply (ms_nonempty _ _ _ _ MS)|assumption]|].
    split; [lia|]. intros k Hk. apply (HC k Hk). }
  assert (UN : forall k i, (k < length rs)%nat -> (In i (nth k (snd a) []) <-> unshared rs k i)).
  { intros k i Hk. rewrite (ms_unique _ _ _ _ MS). unfold unshared, contains. split.
    - intros (A & B & C & D). split; [auto|]. intros j [J1 J2]. auto.
    - intros [[A B] C]. split.
      + assert (SB := ms_binary _ _ _ _ MS). rewrite Forall_forall in SB. destruct (SB (nth k rs []) (nth_In rs [] Hk)) as [L _]. rewrite <- L.
        destruct (lt_dec i (length (nth k rs []))) as [X|X]; [assumption|]. rewrite nth_overflow in B by lia. lia.
      + split; [assumption|]. split; [assumption|]. intros j J1 J2. apply C. auto. }
  assert (MSUM : forall mains, mains_of iter (cats_of (clone_market m, sp)) (snd a) mains ->
     map (fun i => csize (cat_at (cats_of (clone_market m, sp)) i)) mains = map (fun i => nth i (map csize m) 0%nat) bigs).
  { intros mains MO. assert (ML := mains_length _ _ _ _ _ _ _ MS MO). apply (nth_ext _ _ 0%nat 0%nat); [rewrite !map_length; congruence|].
    rewrite map_length, ML. intros k Hk.
    rewrite (nth_indep (map _ mains) 0%nat ((fun i => csize (cat_at (cats_of (clone_market m, sp)) i)) 0%nat)) by (rewrite map_length; lia).
    rewrite (nth_indep (map _ bigs) 0%nat ((fun i => nth i (map csize m) 0%nat) 0%nat)) by (rewrite map_length; lia).
    rewrite (map_nth (fun i => csize (cat_at (cats_of (clone_market m, sp)) i))), (map_nth (fun i => nth i (map csize m) 0%nat)).
    destruct (HB k Hk) as [B1 B2].
    assert (M1 := main_unique _ _ _ _ _ _ _ MS IT MO k Hk). apply (UN k _ Hk) in M1. specialize (B2 _ M1).
    assert (M2 := main_largest _ _ _ _ _ _ _ MS IT MO k (nth k bigs 0%nat) Hk). rewrite !SZ in M2. rewrite SZ.
    assert (nth (nth k bigs 0) (map csize m) 0 <= nth (nth k mains 0) (map csize m) 0)%nat by (apply M2; apply UN; assumption). lia. }
  inversion K as [u U1 U2 E|mains i M1 M2 M3 E|mains M1 M2 E|mains k M1 M2 M3 M4 M5 E|mains s' d M1 M2 M3 M4 M5 M6 E|mains s' d M1 M2 M3 M4 M5 M6 E];
    subst res; try reflexivity; exfalso.
  - rewrite <- (MSUM mains M1) in HS. rewrite nsum_zeros in HS by assumption. lia.
  - specialize (M5 c Hcm). rewrite (MSUM mains M1), SZ in M5. lia.
  - specialize (M6 c Hcm). rewrite (MSUM mains M1), SZ in M6. lia.
  - specialize (M6 c Hcm). rewrite (MSUM mains M1), SZ in M6. lia.
Qed.
