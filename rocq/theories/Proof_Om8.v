(** * The old multi-recipe auction with disjoint recipes: the comparison with the auctions of the single recipes *)

From Coq Require Import String List Arith Lia QArith Lqa Permutation Sorted Bool Qround.
From Verif Require Import Base Model_Agents Model_Trade Model_Prices Model_Market Model_RecipeTree Model_TreeAuction
  Model_Ascending Model_OldMulti Spec_Market Spec_RecipeTree Spec_TreeAuction Spec_Trade Spec_Path Spec_OldMulti
  Proof_Market Proof_Trade Proof_Tree Proof_Tree2 Proof_Tree3 Proof_TA1 Proof_TA2 Proof_TA3 Proof_TA7 Proof_Ascending Proof_Ascending2
  Proof_Path2 Proof_Path3 Proof_Path4 Proof_Om1 Proof_Om2 Proof_Om3 Proof_Om4 Proof_Om5 Proof_Om6 Proof_Om7.
Import ListNotations.
Open Scope Q_scope.

Lemma shrink_at : forall m ns c, (c < length m)%nat ->
  cat_at (shrink m ns) c = mkCat (cname (cat_at m c)) (firstn (nth c ns 0%nat) (vals m c)).
Proof.
  intros m ns c H. unfold cat_at, shrink.
  rewrite (nth_indep _ _ (mkCat (cname (nth 0 m dcat)) (firstn (nth 0 ns 0%nat) (vals m 0)))) by (rewrite map_length, seq_length; exact H).
  rewrite (map_nth (fun j => mkCat (cname (nth j m dcat)) (firstn (nth j ns 0%nat) (vals m j)))), seq_nth by exact H. reflexivity.
Qed.

Lemma shrink_length' : forall m ns, length (shrink m ns) = length m.
Proof. intros. unfold shrink. rewrite map_length, seq_length. reflexivity. Qed.

Definition deals_alone (M : Q) (fuel : nat) (m : market) (r : list nat) : nat :=
  match ascending_auction_M M fuel m r with Ok tr => num_of_deals tr | _ => 0%nat end.

Section Whole.
  Variables (M v : Q) (lp : list (list nat) -> result (list Q)) (iter : list nat -> list nat) (fuel : nat) (m : market).
  Let n := length m.
  Let m' := clone_market m.
  Hypothesis HM : 0 < M.
  Hypothesis V0 : 0 <= v.
  Hypothesis VB : values_below v m.
  Hypothesis VQ : Qn n * v < M.
  Hypothesis NT : no_ties m.
  Hypothesis VO : values_over (- M) m.
  Hypothesis IT : set_order iter.
  Hypothesis KO : keeps_order iter.
  Hypothesis HF : (agents_number m < fuel)%nat.
  Hypothesis HA : Qn (agents_number m) <= M.

  Lemma shrunk_length : forall ns, length (shrink m' ns) = n.
  Proof. intros. rewrite shrink_length'. unfold m'. apply clone_length'. Qed.

  (** The auction of [r] alone stopped where the walk did. *)
  Lemma alone_stops : forall r ns stop, usable n r -> walks M m' r (sizes0 m') ns -> stopped M m' r ns stop ->
    exists tr, ascending_auction_M M fuel m r = Ok tr /\ new_trade (shrink m' ns) r (Some (final_prices M m' r ns stop)) = Ok tr
      /\ tcats tr = shrink m' ns /\ tprices tr = Some (final_prices M m' r ns stop).
  Proof.
    intros r ns stop HU W S. destruct (single_out M fuel m r HF HU) as (ns0 & stop0 & tr & A1 & A2 & A3 & A4 & A5). fold m' in A1, A3, A4, A5.
    assert (X := walks_end _ _ _ _ _ _ _ _ W S A1). injection X; intros -> ->. exists tr. auto.
  Qed.

  Lemma empty_stop : forall r ns, usable n r -> walks M m' r (sizes0 m') ns -> stopped M m' r ns None -> 
    exists tr, ascending_auction_M M fuel m r = Ok tr /\ num_of_deals tr = 0%nat.
  Proof.
    intros r ns HU W S. destruct (alone_stops r ns None HU W S) as (tr & A & B & C & D). exists tr. split; [assumption|].
    destruct S as (main & CH & [[_ Z]|[X _]]); [|discriminate]. apply choice_spec in CH. destruct CH as (CH1 & CH2 & _).
    assert (L : (main < length m')%nat).
    { destruct HU as [[L _] _]. unfold m'. rewrite clone_length'. fold n. rewrite <- L. exact CH1. }
    destruct (single_deals _ _ _ _ n (shrunk_length _) HU B) as [X _].
    specialize (X main CH2). rewrite shrink_at in X by assumption. rewrite Z in X. unfold csize in X. simpl in X. lia.
  Qed.

  Lemma finish_outcome : forall rs s, good_recipes m rs -> finished M m rs s ->
    exists t, new_multi_trade M (fst s) rs (map_category_index_to_price (snd s)) = Ok t
      /\ mt_deals t = nsum (map (deals_alone M fuel m) rs)
      /\ forall r, In r rs -> exists tr, ascending_auction_M M fuel m r = Ok tr /\ recipe_outcome t rs r tr.
  Proof.
    intros rs s GR FD. assert (B := good_binary m rs GR). assert (D : disjoint rs) by apply GR.
    assert (FU : Forall (usable n) rs) by apply GR. rewrite Forall_forall in FU.
    assert (AN := analyze_disjoint n rs B D). assert (MS := analyze_setup _ _ _ (good_checked m rs GR) AN).
    assert (LC := fd_len _ _ _ _ FD). change (cats_of s) with (fst s) in LC.
    assert (NU : forall u, In u (snd (@nil nat, map relevant_indices rs)) -> u <> []).
    { cbn [snd]. intros u Hu ->. apply in_map_iff in Hu. destruct Hu as [r [Hu Hr]]. destruct (FU r Hr) as [[L _] [c Hc]].
      assert (X : In c (relevant_indices r)).
      { apply relevant_In. split; [|assumption]. destruct (lt_dec c (length r)) as [Y|Y]; [assumption|]. rewrite nth_overflow in Hc by lia. lia. }
      rewrite Hu in X. destruct X. }
    destruct (new_multi_trade_ok M n (fst s) rs (map_category_index_to_price (snd s)) _ LC (good_checked m rs GR) AN NU)
      as (t & mins & HT & TM). exists t. split; [assumption|]. cbn [fst snd] in TM, MS.
    assert (MS' : msetup (length m') rs [] (map relevant_indices rs)) by (unfold m'; rewrite clone_length'; exact MS).
    (* each recipe *)
    assert (EACH : forall r, In r rs -> exists tr stop, ascending_auction_M M fuel m r = Ok tr
      /\ new_trade (shrink m' (proj m' r s)) r (Some (final_prices M m' r (proj m' r s) stop)) = Ok tr
      /\ tcats tr = shrink m' (proj m' r s) /\ tprices tr = Some (final_prices M m' r (proj m' r s) stop)
      /\ stopped M m' r (proj m' r s) stop).
    { intros r Hr. destruct (fd_rec _ _ _ _ FD r Hr) as (stop & W & S).
      destruct (alone_stops r _ stop (FU r Hr) W S) as (tr & A1 & A2 & A3 & A4). exists tr, stop. auto. }
    assert (CAT : forall r c, In r rs -> (0 < nth c r 0)%nat -> cat_at (shrink m' (proj m' r s)) c = cat_at (fst s) c).
    { intros r c Hr Hc. assert (LT : (c < length m')%nat) by exact (used_lt m' rs MS' r c Hr Hc).
      rewrite shrink_at by assumption. rewrite (proj_used m' rs MS' r s c Hr Hc).
      assert (P := fd_pfx _ _ _ _ FD c). assert (N := fd_name _ _ _ _ FD c). change (cats_of s) with (fst s) in P, N. fold m' in P, N.
      unfold pfx in P. rewrite <- N. unfold size. change (cats_of s) with (fst s). unfold csize. rewrite <- P.
      destruct (cat_at (fst s) c); reflexivity. }
    split.
    - assert (SD : mt_deals t = nsum mins).
      { assert (LA : Qn (left_agents (fst s)) <= M).
        { assert (X : (left_agents (fst s) <= agents_number m)%nat).
          { apply left_prefix. apply clone_Forall2; [exact LC|apply (fd_pfx _ _ _ _ FD)|apply (fd_name _ _ _ _ FD)]. }
          apply Qn_le in X. lra. }
        destruct (deals_exact M n (fst s) rs _ _ _ t mins LC MS TM LA) as [[ds [D1 D2]] D3].
        assert (X := proj1 (deals_upper M n (fst s) rs _ _ _ t mins LC MS TM ds D1)).
        assert (Y : can_make (fst s) rs mins).
        { apply (deals_make M n (fst s) rs (map_category_index_to_price (snd s)) [] (map relevant_indices rs) t mins LC MS TM);
            [eapply mins_length; eassumption|intros; lia|intros i []]. }
        specialize (D3 mins Y). lia. }
      rewrite SD. f_equal. apply (nth_ext _ _ 0%nat (deals_alone M fuel m [])).
      + rewrite map_length. eapply mins_length; eassumption.
      + assert (ML : length mins = length rs) by (eapply mins_length; eassumption). rewrite ML. intros k Hk. rewrite map_nth.
        set (r := nth k rs []) in *. assert (Hr : In r rs) by (apply nth_In; assumption).
        destruct (EACH r Hr) as (tr & stop & A1 & A2 & A3 & A4 & A5). unfold deals_alone. rewrite A1.
        destruct (single_deals _ _ _ _ n (shrunk_length _) (FU r Hr) A2) as [U1 U2].
        assert (F := Forall2_nth _ _ _ _ _ k (relevant_indices []) 0%nat (tm_mins _ _ _ _ _ _ _ _ TM)).
        rewrite map_length in F. specialize (F Hk). rewrite map_nth in F. fold r in F. destruct F as [[i [Hi E]] F].
        apply Nat.le_antisymm.
        * apply U2. intros c Hc. rewrite (CAT r c Hr Hc). apply F. apply relevant_In. split; [|assumption].
          destruct (FU r Hr) as [[L _] _]. destruct (lt_dec c (length r)) as [Y|Y]; [assumption|]. rewrite nth_overflow in Hc by lia. lia.
        * rewrite E. apply relevant_In in Hi. rewrite <- (CAT r i Hr) by apply Hi. apply U1. apply Hi.
    - intros r Hr. destruct (EACH r Hr) as (tr & stop & A1 & A2 & A3 & A4 & A5). exists tr. split; [assumption|]. split; [|intros X; contradiction].
      intros _ c Hc. assert (LT : (c < length m')%nat) by exact (used_lt m' rs MS' r c Hr Hc).
      assert (LM : length m' = n) by (unfold m'; apply clone_length'). split.
      + rewrite (tm_cats _ _ _ _ _ _ _ _ TM), A3, !error_cat_at by (rewrite ?shrink_length'; congruence || lia).
        rewrite CAT by assumption. reflexivity.
      + intros HD. exists (final_prices M m' r (proj m' r s) stop). split; [assumption|].
        rewrite (tm_prices _ _ _ _ _ _ _ _ TM). destruct (fd_prices _ _ _ _ FD) as [Z|P].
        * exfalso. destruct (single_deals _ _ _ _ n (shrunk_length _) (FU r Hr) A2) as [U1 _].
          specialize (U1 c Hc). rewrite (CAT r c Hr Hc) in U1. specialize (Z r c Hr Hc). unfold size in Z. change (cats_of s) with (fst s) in Z. lia.
        * destruct A5 as (main & CH & A5). destruct (P r main Hr CH) as [(main' & CH' & S1) P2].
          fold m' in CH', S1, P2. rewrite CH in CH'. injection CH'; intros <-.
          assert (stop = Some main).
          { destruct A5 as [[_ Z]|[E _]]; [|assumption]. exfalso. destruct S1 as [[X _]|[_ [X _]]]; [discriminate|lia]. }
          subst stop. symmetry. apply P2. assumption.
  Qed.

  (** The whole auction. *)
  Lemma multi_alone : forall depth rs, (length rs < depth)%nat -> good_recipes m rs -> solves_prices n (- M) lp rs ->
    exists t rest, multi_auction depth M lp iter fuel m rs = (Ok t, rest) /\ sublist rest rs
      /\ mt_deals t = nsum (map (deals_alone M fuel m) rs)
      /\ forall r, In r rs -> exists tr, ascending_auction_M M fuel m r = Ok tr /\ recipe_outcome t rest r tr.
  Proof.
    induction depth as [|depth IH]; intros rs HD GR [LP SP]; [lia|].
    assert (B := good_binary m rs GR). destruct GR as (RN & FU & D).
    assert (GR : good_recipes m rs) by (split; auto).
    assert (AN := analyze_disjoint n rs B D).
    assert (HP : exists p0, lp rs = Ok p0 /\ feasible_prices n rs (- M) p0).
    { destruct (SP rs) as [p0 Hp0]; [assumption|apply sublist_refl| |].
      - exists (spread_prices M n rs). apply spread_feasible; auto. eapply Forall_impl; [|exact FU]. intros r H. apply H.
      - exists p0. split; [assumption|]. assert (X := LP rs). rewrite Hp0 in X. exact X. }
    destruct HP as (p0 & HL & HP).
    assert (MS := analyze_setup _ _ _ (good_checked m rs GR) AN). cbn [fst snd] in MS.
    destruct (start_msetup M n m rs _ _ p0 HM eq_refl MS HP) as (sp & E1 & _ & _).
    cbn [multi_auction]. rewrite (good_checked m rs GR). change (length m) with n. rewrite AN, HL. cbn [bind fst snd]. rewrite E1. cbn [bind].
    fold m'.
    destruct (call_disjoint M v iter fuel m HM V0 VB VQ NT VO IT KO HF rs p0 sp GR HP E1)
      as [(s & EL & FD)|(k & ns & EL & K1 & K2 & W & S)]; fold m' in EL; rewrite EL.
    - destruct (finish_outcome rs s GR FD) as (t & T1 & T2 & T3). exists t, rs. rewrite T1. split; [reflexivity|]. split; [apply sublist_refl|]. auto.
    - assert (L := del_nth_length _ k rs K1). destruct (del_nth k rs) as [|r0 rest0] eqn:ER; [simpl in L; lia|]. rewrite <- ER in *. clear ER r0 rest0.
      assert (SL := del_nth_sublist _ k rs : sublist (del_nth k rs) rs).
      destruct (IH (del_nth k rs)) as (t & rest & T1 & T2 & T3 & T4).
      + lia.
      + split; [intros X; rewrite X in L; simpl in L; lia|]. split; [|apply del_disjoint; assumption].
        rewrite Forall_forall in FU |- *. intros r Hr. apply FU. eapply sublist_In; eassumption.
      + split; [assumption|]. intros recipes R1 R2 R3. apply SP; [assumption| |assumption]. eapply sublist_trans; eassumption.
      + rewrite Forall_forall in FU. assert (HIn : In (nth k rs []) rs) by (apply nth_In; assumption).
        destruct (empty_stop _ _ (FU _ HIn) W S) as (tr & X1 & X2).
        exists t, rest. split; [assumption|]. split; [eapply sublist_trans; eassumption|]. split.
        * rewrite T3, (del_sum (deals_alone M fuel m) k rs K1). unfold deals_alone at 2. rewrite X1, X2. reflexivity.
        * intros r Hr. destruct (In_del k rs r K1 Hr) as [->|Hr']; [|apply T4; assumption].
          exists tr. split; [assumption|]. split; [|auto]. intros HR. exfalso.
          assert (HR' : In (nth k rs []) (del_nth k rs)) by (eapply sublist_In; eassumption).
          destruct (del_In k rs _ K1 HR') as (j & J1 & J2 & J3). destruct (FU _ HIn) as [_ [c Hc]]. apply J2. apply (D c); split; auto.
          rewrite <- J3. exact Hc.
  Qed.
End Whole.

Theorem multi_disjoint : forall depth M v lp iter fuel m rs, 0 < M -> set_order iter -> keeps_order iter ->
  no_ties m -> values_over (- M) m -> 0 <= v -> values_below v m -> Qn (length m) * v < M -> Qn (agents_number m) <= M ->
  rs <> [] -> Forall (usable (length m)) rs -> disjoint rs -> solves_prices (length m) (- M) lp rs ->
  (agents_number m < fuel)%nat -> (length rs < depth)%nat ->
  exists t rest trs, multi_auction depth M lp iter fuel m rs = (Ok t, rest) /\ sublist rest rs
    /\ Forall2 (fun r tr => ascending_auction_M M fuel m r = Ok tr /\ recipe_outcome t rest r tr) rs trs
    /\ mt_deals t = nsum (map num_of_deals trs).
Proof.
  intros depth M v lp iter fuel m rs HM IT KO NT VO V0 VB VQ HA RN FU D SP HF HD.
  destruct (multi_alone M v lp iter fuel m HM V0 VB VQ NT VO IT KO HF HA depth rs HD) as (t & rest & T1 & T2 & T3 & T4); [split; auto|assumption|].
  assert (X : exists trs, Forall2 (fun r tr => ascending_auction_M M fuel m r = Ok tr /\ recipe_outcome t rest r tr) rs trs
    /\ map (deals_alone M fuel m) rs = map num_of_deals trs).
  { clear -T4. induction rs as [|r rs IH]; [exists []; split; [constructor|reflexivity]|].
    destruct IH as (trs & A & B); [intros; apply T4; right; assumption|]. destruct (T4 r (or_introl eq_refl)) as (tr & C1 & C2).
    exists (tr :: trs). split; [constructor; auto|]. cbn [map]. rewrite B. unfold deals_alone. rewrite C1. reflexivity. }
  destruct X as (trs & A & B). exists t, rest, trs. rewrite T3, B. auto.
Qed.
