(** * The old multi-recipe auction: invariants, termination, exceptions *)

From Coq Require Import String List Arith Lia QArith Lqa Permutation Sorted Bool Qround.
From Verif Require Import Base Model_Agents Model_Trade Model_Prices Model_Market Model_RecipeTree Model_TreeAuction
  Model_Ascending Model_OldMulti Spec_Market Spec_RecipeTree Spec_TreeAuction Spec_OldMulti
  Proof_Tree Proof_Tree2 Proof_Tree3 Proof_TA1 Proof_TA2 Proof_TA3 Proof_Ascending Proof_Om1.
Import ListNotations.
Open Scope Q_scope.

Lemma mstep_ir : forall n rs s s' mains S d, mstep n rs s s' mains S d ->
  (forall i, desc (cvalues (cat_at (cats_of s) i))) ->
  (forall i v, In v (cvalues (cat_at (cats_of s) i)) -> pr s i <= v) ->
  forall i v, In v (cvalues (cat_at (cats_of s) i)) -> pr s' i <= v.
Proof.
  intros n rs s s' mains S d MV HD HI i v Hv. destruct (in_dec Nat.eq_dec i mains) as [C|C].
  - rewrite (st_chosen _ _ _ _ _ _ _ MV i C). assert (X := st_target _ _ _ _ _ _ _ MV i C).
    assert (Y := last_le _ _ (HD i) Hv). unfold low in X. lra.
  - rewrite (st_other _ _ _ _ _ _ _ MV i C). auto.
Qed.

Lemma invA_continue : forall n rs m s s' mains S d, sorted_cats m -> invA n rs m s ->
  good n rs s S -> mstep n rs s s' mains S d -> d < - S ->
  (forall i, cat_at (cats_of s') i = beat (cat_at (cats_of s) i) (pr s' i)) -> invA n rs m s'.
Proof.
  intros n rs m s s' mains S d HS [[S0 [G0 NS]] HP HN HI] G MV Hd HC.
  assert (HD : forall i, desc (cvalues (cat_at (cats_of s) i))).
  { intros i. eapply pfx_desc; [apply HP|]. apply sorted_cats_at. assumption. }
  split.
  - exists (S + d). split; [apply MV|lra].
  - intros i. rewrite HC. destruct (beat_cases (cat_at (cats_of s) i) (pr s' i)) as [[_ E]|(_ & _ & _ & E)]; rewrite E; [apply HP|].
    simpl. apply pfx_removelast. apply HP.
  - intros i. rewrite HC. destruct (beat_cases (cat_at (cats_of s) i) (pr s' i)) as [[_ E]|(_ & _ & _ & E)]; rewrite E; apply HN.
  - intros i v Hv. rewrite HC in Hv. apply beat_In in Hv. eapply mstep_ir; eassumption.
Qed.

(** The invariant without a hypothesis on the values. *)
Record invW (n : nat) (rs : list (list nat)) (m : market) (s : tree_state) : Prop := mkInvW {
  iw_good : exists S, good n rs s S /\ S < 0;
  iw_pfx : forall i, pfx (cvalues (cat_at (cats_of s) i)) (cvalues (cat_at m i));
  iw_name : forall i, cname (cat_at (cats_of s) i) = cname (cat_at m i)
}.

Lemma invW_continue : forall n rs m s s' mains S d, invW n rs m s ->
  mstep n rs s s' mains S d -> d < - S ->
  (forall i, cat_at (cats_of s') i = beat (cat_at (cats_of s) i) (pr s' i)) -> invW n rs m s'.
Proof.
  intros n rs m s s' mains S d [[S0 [G0 NS]] HP HN] MV Hd HC. split.
  - exists (S + d). split; [apply MV|lra].
  - intros i. rewrite HC. destruct (beat_cases (cat_at (cats_of s) i) (pr s' i)) as [[_ E]|(_ & _ & _ & E)]; rewrite E; [apply HP|].
    simpl. apply pfx_removelast. apply HP.
  - intros i. rewrite HC. destruct (beat_cases (cat_at (cats_of s) i) (pr s' i)) as [[_ E]|(_ & _ & _ & E)]; rewrite E; apply HN.
Qed.

(** ** Every round that does not end the loop removes an agent *)

Definition left_agents (cats : list category) : nat := nsum (map csize cats).

Lemma nsum_le_lt : forall (l l' : list nat), length l = length l' ->
  (forall i, (nth i l 0 <= nth i l' 0)%nat) -> (nsum l <= nsum l')%nat
  /\ ((exists i, (nth i l 0 < nth i l' 0)%nat) -> (nsum l < nsum l')%nat).
Proof.
  induction l as [|a l IH]; intros [|b l'] HL H; simpl in HL; try lia.
  - split; [lia|]. intros [[|i] Hi]; simpl in Hi; lia.
  - assert (H0 := H 0%nat). simpl in H0. destruct (IH l') as [A B]; [lia|intros i; apply (H (S i))|].
    simpl. split; [lia|]. intros [[|i] Hi]; simpl in Hi; [lia|]. assert (nsum l < nsum l')%nat by (apply B; eauto). lia.
Qed.

Lemma size_nth : forall cats i, nth i (map csize cats) 0%nat = csize (cat_at cats i).
Proof. intros. unfold cat_at. rewrite <- (map_nth csize). reflexivity. Qed.

Lemma beat_size : forall c p, (csize (beat c p) <= csize c)%nat.
Proof.
  intros c p. destruct (beat_cases c p) as [[_ E]|(_ & H & _ & E)]; rewrite E; [lia|]. unfold csize. simpl.
  rewrite removelast_firstn_len, firstn_length. lia.
Qed.

Lemma beat_shrinks : forall c p, (0 < csize c)%nat -> last (cvalues c) 0 <= p -> (csize (beat c p) < csize c)%nat.
Proof.
  intros c p H L. destruct (beat_cases c p) as [[B _]|(_ & Hn & _ & E)].
  - exfalso. unfold beaten in B. unfold csize in H. destruct (cvalues c) eqn:E; [simpl in H; lia|].
    apply Qle_bool_false in B. lra.
  - rewrite E. unfold csize in *. simpl. rewrite removelast_firstn_len, firstn_length.
    destruct (cvalues c); [congruence|simpl; lia].
Qed.

Lemma continue_shrinks : forall n rs s s' mains S d, good n rs s S -> mstep n rs s s' mains S d -> d < - S ->
  (forall i, In i mains -> (0 < csize (cat_at (cats_of s) i))%nat) ->
  (forall i, cat_at (cats_of s') i = beat (cat_at (cats_of s) i) (pr s' i)) ->
  (left_agents (cats_of s') < left_agents (cats_of s))%nat.
Proof.
  intros n rs s s' mains S d G MV Hd HP HC. unfold left_agents.
  destruct (nsum_le_lt (map csize (cats_of s')) (map csize (cats_of s))) as [_ X].
  - rewrite !map_length. rewrite (g_cats _ _ _ _ G). apply (g_cats _ _ _ _ (st_good _ _ _ _ _ _ _ MV)).
  - intros i. rewrite !size_nth, HC. apply beat_size.
  - apply X. destruct (st_min _ _ _ _ _ _ _ MV) as [E|[i [Hi E]]]; [lra|]. exists i. rewrite !size_nth, HC.
    apply beat_shrinks; [auto|]. rewrite (st_chosen _ _ _ _ _ _ _ MV i Hi). unfold low in E. lra.
Qed.

(** ** The loop *)

Lemma multi_loop_last : forall fuel iter common uniques (P : tree_state -> Prop) s r, P s ->
  (forall a b, P a -> multi_round iter common uniques a = Ok (Continue b) -> P b) ->
  multi_loop fuel iter common uniques s = r -> r <> Timeout ->
  exists s1, P s1 /\ multi_round iter common uniques s1 = r /\ forall s2, r <> Ok (Continue s2).
Proof.
  induction fuel as [|fuel IH]; intros iter common uniques P s r HP HS H NT; [simpl in H; congruence|].
  cbn [multi_loop] in H. destruct (multi_round iter common uniques s) as [[s'|k|s']|e|] eqn:E; cbn [bind] in H.
  - exact (IH iter common uniques P s' r (HS _ _ HP E) HS H NT).
  - exists s. rewrite E. split; [assumption|]. split; [assumption|]. subst r. congruence.
  - exists s. rewrite E. split; [assumption|]. split; [assumption|]. subst r. congruence.
  - exists s. rewrite E. split; [assumption|]. split; [assumption|]. subst r. congruence.
  - congruence.
Qed.

Lemma multi_loop_terminates : forall n rs common uniques iter fuel s, msetup n rs common uniques -> set_order iter ->
  (exists S, good n rs s S) -> (left_agents (cats_of s) < fuel)%nat -> multi_loop fuel iter common uniques s <> Timeout.
Proof.
  intros n rs common uniques iter. induction fuel as [|fuel IH]; intros s MS IT [S G] HF; [lia|].
  cbn [multi_loop]. assert (K := multi_round_cases n rs common uniques iter s S MS IT G).
  inversion K as [u U1 U2 E|mains i M1 M2 M3 E|mains M1 M2 E|mains k M1 M2 M3 M4 M5 E|mains s' d M1 M2 M3 M4 M5 M6 E|mains s' d M1 M2 M3 M4 M5 M6 E];
    rewrite <- ?E; cbn [bind]; try congruence.
  apply IH; auto.
  - exists (S + d). apply M3.
  - assert (X := continue_shrinks _ _ _ _ _ _ _ G M3 M4 M2 M5). lia.
Qed.

Lemma left_clone : forall m, left_agents (clone_market m) = agents_number m.
Proof.
  intros. unfold left_agents, agents_number, clone_market. rewrite map_map. f_equal. apply map_ext.
  intros c. unfold csize, clone, new_category. simpl. apply sort_desc_length.
Qed.

(** ** The start *)

Lemma start_msetup : forall M n m rs common uniques p0, 0 < M -> length m = n -> msetup n rs common uniques ->
  feasible_prices n rs (- M) p0 ->
  exists sp, new_sim_prices rs p0 = Ok sp /\ map_category_index_to_price sp = p0
    /\ exists S, good n rs (clone_market m, sp) S /\ S < 0.
Proof.
  intros M n m rs common uniques p0 HM HL MS [[HP [HF [S HS]]] HB].
  assert (SN := ms_nonempty _ _ _ _ MS). assert (SB := ms_binary _ _ _ _ MS).
  unfold new_sim_prices. destruct rs as [|r0 rs]; [congruence|].
  assert (X : forallb (fun r => (length r =? length r0)%nat) (r0 :: rs) = true).
  { apply forallb_forall. intros r Hr. rewrite Forall_forall in SB. apply Nat.eqb_eq.
    rewrite (proj1 (SB r Hr)). symmetry. apply (proj1 (SB r0 (or_introl eq_refl))). }
  rewrite X. eexists. split; [reflexivity|]. split; [reflexivity|]. exists S. split.
  - split; unfold cats_of, Proof_TA2.prices_of; simpl; auto. unfold clone_market. rewrite map_length. assumption.
  - assert (Y := HB r0 (or_introl eq_refl)). rewrite (HS r0 (or_introl eq_refl)) in Y. lra.
Qed.

Lemma invW_start : forall n rs m sp, (exists S, good n rs (clone_market m, sp) S /\ S < 0) ->
  invW n rs (clone_market m) (clone_market m, sp).
Proof.
  intros n rs m sp H. split; [assumption| |reflexivity]. intros i. unfold pfx. rewrite firstn_all. reflexivity.
Qed.

Lemma invA_mstart : forall M n rs m sp p0, (exists S, good n rs (clone_market m, sp) S /\ S < 0) ->
  map_category_index_to_price sp = p0 -> length m = n -> length p0 = n ->
  Forall (fun p => p <= - M) p0 -> values_above (- M) m -> invA n rs (clone_market m) (clone_market m, sp).
Proof.
  intros M n rs m sp p0 H HE HL HP HF HV. split; [assumption| |reflexivity|].
  - intros i. unfold pfx. rewrite firstn_all. reflexivity.
  - intros i v Hv. enough (X0 : nth i p0 0 <= v) by (rewrite <- HE in X0; exact X0).
    unfold cats_of in Hv. cbn [fst] in Hv. rewrite clone_at, clone_In in Hv.
    destruct (cat_at_In _ _ _ Hv) as [HIn Hi].
    assert (X := HV _ _ HIn Hv). rewrite Forall_forall in HF.
    assert (Y : nth i p0 0 <= - M) by (apply HF; apply nth_In; lia). lra.
Qed.

(** ** The trade object *)

Lemma min_list_some : forall l, l <> [] -> exists x, min_list l = Some x.
Proof. intros [|a l] H; [congruence|]. simpl. destruct (min_list l); eauto. Qed.

Lemma min_list_spec : forall l x, min_list l = Some x -> In x l /\ forall y, In y l -> (x <= y)%nat.
Proof.
  induction l as [|a l IH]; intros x H; [discriminate|]. cbn [min_list] in H. destruct (min_list l) as [y|] eqn:E.
  - injection H; intros <-. destruct (IH y eq_refl) as [A B]. split.
    + destruct (Nat.min_spec a y) as [[_ ->]|[_ ->]]; [left; reflexivity|right; assumption].
    + intros z [<-|Hz]; [lia|]. specialize (B z Hz). lia.
  - injection H; intros <-. split; [left; reflexivity|]. intros z [<-|Hz]; [lia|].
    destruct l as [|b l]; [destruct Hz|]. simpl in E. destruct (min_list l); discriminate.
Qed.

Lemma min_size_ok : forall cats l, l <> [] -> (forall i, In i l -> (i < length cats)%nat) ->
  exists x, min_size cats l = Ok x /\ (exists i, In i l /\ x = csize (cat_at cats i))
    /\ forall i, In i l -> (x <= csize (cat_at cats i))%nat.
Proof.
  intros cats l HN HR. unfold min_size.
  assert (E : map_result (fun i => c <- get cats i ;; Ok (csize c)) l = Ok (map (fun i => csize (cat_at cats i)) l)).
  { apply map_result_ok_all. intros i Hi. rewrite (get_lt _ _ _ (mkCat "" [])) by auto. reflexivity. }
  rewrite E. cbn [bind].
  destruct (min_list_some (map (fun i => csize (cat_at cats i)) l)) as [x Hx]; [destruct l; [congruence|discriminate]|].
  rewrite Hx. exists x. split; [reflexivity|]. apply min_list_spec in Hx. destruct Hx as [A B]. split.
  - apply in_map_iff in A. destruct A as [i [Ei Hi]]. exists i. auto.
  - intros i Hi. apply B. apply (in_map (fun i => csize (cat_at cats i))). exact Hi.
Qed.

Record trade_made (M : Q) (cats : list category) (rs : list (list nat)) (prices : list Q) (common : list nat)
    (uniques : list (list nat)) (t : multi_trade) (mins : list nat) : Prop := mkTM {
  tm_cats : mt_cats t = cats;
  tm_recipes : mt_recipes t = rs;
  tm_prices : mt_prices t = prices;
  tm_mins : Forall2 (fun u x => (exists i, In i u /\ x = csize (cat_at cats i))
                                /\ forall i, In i u -> (x <= csize (cat_at cats i))%nat) uniques mins;
  tm_none : common = [] -> mt_deals t = if Qlt_bool M (Qn (nsum mins)) then Z.to_nat (Qfloor M) else nsum mins;
  tm_some : common <> [] -> exists x, mt_deals t = Nat.min (nsum mins) x
     /\ (exists i, In i common /\ x = csize (cat_at cats i)) /\ forall i, In i common -> (x <= csize (cat_at cats i))%nat
}.

Lemma new_multi_trade_ok : forall M n cats rs prices a, length cats = n -> recipes_checked n rs = true ->
  analyze_recipes n rs = Ok a -> (forall u, In u (snd a) -> u <> []) ->
  exists t mins, new_multi_trade M cats rs prices = Ok t /\ trade_made M cats rs prices (fst a) (snd a) t mins.
Proof.
  intros M n cats rs prices a HL HC HA HU. assert (MS := analyze_setup _ _ _ HC HA).
  unfold new_multi_trade. rewrite HL, HA. cbn [bind].
  assert (X : exists mins, map_result (min_size cats) (snd a) = Ok mins
     /\ Forall2 (fun u x => (exists i, In i u /\ x = csize (cat_at cats i))
                                /\ forall i, In i u -> (x <= csize (cat_at cats i))%nat) (snd a) mins).
  { assert (R : forall u, In u (snd a) -> u <> [] /\ forall i, In i u -> (i < length cats)%nat).
    { intros u Hu. split; [auto|]. intros i Hi. destruct (In_nth _ _ [] Hu) as [k [Hk <-]]. rewrite HL.
      apply (ms_unique _ _ _ _ MS k). assumption. }
    clear -R. induction (snd a) as [|u us IH]; [exists []; split; [reflexivity|constructor]|].
    destruct (R u (or_introl eq_refl)) as [R1 R2]. destruct (min_size_ok cats u R1 R2) as (x & E & A).
    destruct IH as [mins [E' F]]; [intros; apply R; right; assumption|]. exists (x :: mins). split.
    - cbn [map_result]. rewrite E. cbn [bind]. rewrite E'. reflexivity.
    - constructor; assumption. }
  destruct X as [mins [E F]]. rewrite E. cbn [bind]. destruct (fst a) as [|c l] eqn:EC.
  - eexists. exists mins. split; [reflexivity|]. split; auto. congruence.
  - destruct (min_size_ok cats (c :: l)) as (x & E' & A & B); [discriminate| |].
    { intros i Hi. rewrite HL. apply (ms_common _ _ _ _ MS i). assumption. }
    rewrite E'. cbn [bind]. eexists. exists mins. split; [reflexivity|]. split; auto; [discriminate|].
    intros _. exists x. auto.
Qed.

Lemma mains_uniques : forall iter cats uniques mains, set_order iter -> mains_of iter cats uniques mains ->
  forall u, In u uniques -> u <> [].
Proof.
  intros iter cats uniques mains IT H u Hu ->. induction H as [|u' i us is A H IH]; [destruct Hu|].
  destruct Hu as [->|Hu]; [|auto]. assert (P := IT []). apply Permutation_sym, Permutation_nil in P. rewrite P in A. discriminate.
Qed.

(** ** The whole auction *)

(** How a call ends when it does not raise. *)
Inductive call_ends (M : Q) (lp : list (list nat) -> result (list Q)) (iter : list nat -> list nat) (fuel : nat) (m : market)
    (rs : list (list nat)) (a : list nat * list (list nat)) (p0 : list Q) (sp : sim_prices) : multi_step -> Prop :=
| call_ends_intro : forall st, recipes_checked (length m) rs = true -> analyze_recipes (length m) rs = Ok a -> lp rs = Ok p0 ->
    new_sim_prices rs p0 = Ok sp -> multi_loop fuel iter (fst a) (snd a) (clone_market m, sp) = Ok st ->
    call_ends M lp iter fuel m rs a p0 sp st.

Lemma multi_auction_cases : forall depth M lp iter fuel m rs,
  (exists a p0 sp s, call_ends M lp iter fuel m rs a p0 sp (Finish s)
     /\ multi_auction (S depth) M lp iter fuel m rs = (new_multi_trade M (fst s) rs (map_category_index_to_price (snd s)), rs))
  \/ (exists a p0 sp k, call_ends M lp iter fuel m rs a p0 sp (Drop k)
     /\ multi_auction (S depth) M lp iter fuel m rs
        = match del_nth k rs with [] => (Raise TypeError, []) | rest => multi_auction depth M lp iter fuel m rest end)
  \/ (exists e, multi_auction (S depth) M lp iter fuel m rs = (Raise e, rs)
     /\ (recipes_checked (length m) rs = false /\ e = ValueError
         \/ analyze_recipes (length m) rs = Raise e
         \/ exists a, recipes_checked (length m) rs = true /\ analyze_recipes (length m) rs = Ok a
            /\ (lp rs = Raise e
                \/ exists p0, lp rs = Ok p0
                   /\ (new_sim_prices rs p0 = Raise e
                       \/ exists sp, new_sim_prices rs p0 = Ok sp
                          /\ multi_loop fuel iter (fst a) (snd a) (clone_market m, sp) = Raise e))))
  \/ (exists a p0 sp, recipes_checked (length m) rs = true /\ analyze_recipes (length m) rs = Ok a /\ lp rs = Ok p0 /\
     new_sim_prices rs p0 = Ok sp /\ (multi_loop fuel iter (fst a) (snd a) (clone_market m, sp) = Timeout
         \/ exists s, multi_loop fuel iter (fst a) (snd a) (clone_market m, sp) = Ok (Continue s)))
  \/ lp rs = Timeout.
Proof.
  intros depth M lp iter fuel m rs. cbn [multi_auction].
  destruct (recipes_checked (length m) rs) eqn:HC; [|right; right; left; exists ValueError; auto].
  destruct (analyze_recipes (length m) rs) as [a|e|] eqn:HA; cbn [bind].
  2: { right; right; left. exists e. auto. }
  2: { unfold analyze_recipes in HA. destruct (forallb _ _); discriminate. }
  destruct (lp rs) as [p0|e|] eqn:HLP; cbn [bind].
  2: { right; right; left. exists e. split; [reflexivity|]. right. right. exists a. auto. }
  2: { auto. }
  destruct (new_sim_prices rs p0) as [sp|e|] eqn:HSP; cbn [bind].
  2: { right; right; left. exists e. split; [reflexivity|]. right. right. exists a. split; [reflexivity|]. split; [reflexivity|]. right. exists p0. auto. }
  2: { unfold new_sim_prices in HSP. destruct rs; [discriminate|]. destruct (forallb _ _); discriminate. }
  destruct (multi_loop fuel iter (fst a) (snd a) (clone_market m, sp)) as [[s|k|s]|e|] eqn:HR.
  - right. right. right. left. exists a, p0, sp. repeat (split; [assumption || reflexivity|]). right. exists s. assumption.
  - right. left. exists a, p0, sp, k. split; [constructor; assumption|]. destruct (del_nth k rs); reflexivity.
  - left. exists a, p0, sp, s. split; [constructor; assumption|reflexivity].
  - right. right. left. exists e. split; [reflexivity|]. right. right. exists a. split; [reflexivity|]. split; [reflexivity|].
    right. exists p0. split; [reflexivity|]. right. exists sp. auto.
  - right. right. right. left. exists a, p0, sp. repeat (split; [assumption || reflexivity|]). left. assumption.
Qed.

Lemma del_nth_length : forall A k (l : list A), (k < length l)%nat -> length (del_nth k l) = (length l - 1)%nat.
Proof.
  induction k as [|k IH]; intros [|a l] H; simpl in *; try lia. rewrite IH by lia. lia.
Qed.

Lemma del_nth_sublist : forall A k (l : list A), sublist (del_nth k l) l.
Proof.
  assert (R : forall A (l : list A), sublist l l) by (induction l; constructor; assumption).
  induction k as [|k IH]; intros [|a l]; simpl; try constructor; auto.
Qed.

Lemma sublist_refl : forall A (l : list A), sublist l l.
Proof. induction l; constructor; assumption. Qed.

Lemma sublist_trans : forall A (l1 l2 l3 : list A), sublist l1 l2 -> sublist l2 l3 -> sublist l1 l3.
Proof.
  intros A l1 l2 l3 H1 H2. revert l1 H1. induction H2; intros l1 H1.
  - assumption.
  - inversion H1; subst; constructor; auto.
  - constructor. auto.
Qed.

Lemma sublist_In : forall A (l1 l2 : list A) x, sublist l1 l2 -> In x l1 -> In x l2.
Proof. intros A l1 l2 x H. induction H; intros HI; [assumption| |right; auto]. destruct HI; [left; assumption|right; auto]. Qed.

(** The states in which the loop can end. *)
Lemma call_last : forall M lp iter fuel m rs a p0 sp st, 0 < M -> set_order iter -> finds_prices (length m) (- M) lp ->
  call_ends M lp iter fuel m rs a p0 sp st ->
  msetup (length m) rs (fst a) (snd a)
  /\ exists s1 S, invW (length m) rs (clone_market m) s1 /\ (values_above (- M) m -> invA (length m) rs (clone_market m) s1)
    /\ good (length m) rs s1 S /\ S < 0
    /\ round_kind (length m) rs (fst a) (snd a) iter s1 S (Ok st) /\ forall s2, st <> Continue s2.
Proof.
  intros M lp iter fuel m rs a p0 sp st HM IT LP CE. inversion CE as [st' HC HA HL HSP HR]; subst st'. clear CE.
  assert (MS := analyze_setup _ _ _ HC HA). split; [assumption|].
  assert (F := LP rs). rewrite HL in F.
  destruct (start_msetup M (length m) m rs _ _ p0 HM eq_refl MS F) as (sp1 & E1 & E2 & G0).
  rewrite HSP in E1. injection E1; intros <-. clear E1.
  destruct (multi_loop_last fuel iter (fst a) (snd a)
     (fun s => invW (length m) rs (clone_market m) s /\ (values_above (- M) m -> invA (length m) rs (clone_market m) s))
     (clone_market m, sp) (Ok st)) with (3 := HR) as (s1 & [IW IA] & HR1 & NC).
  - split; [apply invW_start; assumption|]. intros HV. destruct F as [[F1 [F2 _]] _]. eapply invA_mstart; eauto.
  - intros x y [IW IA] Hxy. destruct (iw_good _ _ _ _ IW) as [S [G NS]].
    assert (K := multi_round_cases _ _ _ _ iter x S MS IT G). rewrite Hxy in K.
    inversion K; subst. split; [eapply invW_continue; eassumption|]. intros HV.
    eapply invA_continue; eauto. apply clone_sorted.
  - discriminate.
  - destruct (iw_good _ _ _ _ IW) as [S [G NS]]. exists s1, S. split; [assumption|]. split; [assumption|]. split; [assumption|].
    split; [assumption|]. split; [rewrite <- HR1; apply multi_round_cases; assumption|]. intros s2 ->. eapply NC. reflexivity.
Qed.

Lemma loop_raise : forall M n rs a iter fuel m sp e, 0 < M -> set_order iter -> msetup n rs (fst a) (snd a) ->
  (exists S, good n rs (clone_market m, sp) S /\ S < 0) ->
  multi_loop fuel iter (fst a) (snd a) (clone_market m, sp) = Raise e -> e = ValueError.
Proof.
  intros M n rs a iter fuel m sp e HM IT MS G0 HR.
  destruct (multi_loop_last fuel iter (fst a) (snd a) (fun s => invW n rs (clone_market m) s) (clone_market m, sp) (Raise e))
    with (3 := HR) as (s1 & IW & HR1 & NC).
  - apply invW_start; assumption.
  - intros x y IW Hxy. destruct (iw_good _ _ _ _ IW) as [S [G NS]].
    assert (K := multi_round_cases _ _ _ _ iter x S MS IT G). rewrite Hxy in K.
    inversion K; subst. eapply invW_continue; eassumption.
  - discriminate.
  - destruct (iw_good _ _ _ _ IW) as [S [G NS]]. assert (K := multi_round_cases _ _ _ _ iter s1 S MS IT G). rewrite HR1 in K.
    inversion K; reflexivity.
Qed.

(** The auction returns or raises ValueError. *)
Theorem multi_returns : forall depth M lp iter fuel m rs, 0 < M -> set_order iter -> finds_prices (length m) (- M) lp ->
  (agents_number m < fuel)%nat -> (length rs < depth)%nat ->
  (exists t, fst (multi_auction depth M lp iter fuel m rs) = Ok t)
  \/ fst (multi_auction depth M lp iter fuel m rs) = Raise ValueError.
Proof.
  induction depth as [|depth IH]; intros M lp iter fuel m rs HM IT LP HF HD; [lia|].
  destruct (multi_auction_cases depth M lp iter fuel m rs)
    as [(a & p0 & sp & s & C & E)|[(a & p0 & sp & k & C & E)|[(e & E & C)|[(a & p0 & sp & HC & HA & HL & HSP & C)|C]]]].
  - rewrite E. cbn [fst]. left. destruct (call_last _ _ _ _ _ _ _ _ _ _ HM IT LP C) as (MS & s1 & S & IW & _ & G & NS & K & _).
    inversion C as [st HC HA HL HSP HR]; subst.
    assert (X : length (cats_of s) = length m /\ forall u, In u (snd a) -> u <> []).
    { inversion K as [| |mains M1 M2 E3| |mains s' d M1 M2 M3 M4 M5 M6 E3|]; subst.
      - split; [apply (g_cats _ _ _ _ G)|eapply mains_uniques; eassumption].
      - split; [apply (g_cats _ _ _ _ (st_good _ _ _ _ _ _ _ M3))|eapply mains_uniques; eassumption]. }
    destruct X as [X1 X2].
    destruct (new_multi_trade_ok M _ (fst s) rs (map_category_index_to_price (snd s)) a X1 HC HA X2) as (t & mins & T & _). eauto.
  - rewrite E. destruct (call_last _ _ _ _ _ _ _ _ _ _ HM IT LP C) as (MS & s1 & S & IW & _ & G & NS & K & _).
    inversion K as [| | |mains k' M1 M2 M3 M4 M5 E3| |]; subst.
    assert (L := del_nth_length _ k rs M2). destruct (del_nth k rs) as [|r rest] eqn:ER; [simpl in L; lia|]. rewrite <- ER in *.
    apply IH; auto. lia.
  - rewrite E. cbn [fst]. right. f_equal. destruct C as [[_ ->]|[C|(a & HC & HA & C)]]; [reflexivity| |].
    + destruct (analyze_raise (length m) rs) as [[a Ha]|Ha]; congruence.
    + assert (MS := analyze_setup _ _ _ HC HA). destruct C as [C|(p0 & HL & C)].
      * assert (F := LP rs). rewrite C in F. exact F.
      * assert (F := LP rs). rewrite HL in F.
        destruct (start_msetup M (length m) m rs _ _ p0 HM eq_refl MS F) as (sp1 & E1 & E2 & G0).
        destruct C as [C|(sp & HSP & C)]; [congruence|]. rewrite HSP in E1. injection E1; intros <-.
        eapply loop_raise; eauto.
  - exfalso. assert (MS := analyze_setup _ _ _ HC HA). assert (F := LP rs). rewrite HL in F.
    destruct (start_msetup M (length m) m rs _ _ p0 HM eq_refl MS F) as (sp1 & E1 & E2 & S & G & NS).
    rewrite HSP in E1. injection E1; intros <-. destruct C as [C|[s C]].
    + eapply multi_loop_terminates; [exact MS|exact IT|exists S; exact G| |exact C]. unfold cats_of. cbn [fst]. rewrite left_clone. assumption.
    + destruct (multi_loop_last fuel iter (fst a) (snd a) (fun _ => True) (clone_market m, sp) (Ok (Continue s))) with (3 := C) as (_ & _ & _ & NC); auto; [discriminate|].
      eapply NC. reflexivity.
  - exfalso. assert (F := LP rs). rewrite C in F. assumption.
Qed.
