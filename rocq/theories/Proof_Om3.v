(** * The old multi-recipe auction: what a returned trade is *)

From Coq Require Import String List Arith Lia QArith Lqa Permutation Sorted Bool Qround.
From Verif Require Import Base Model_Agents Model_Trade Model_Prices Model_Market Model_RecipeTree Model_TreeAuction
  Model_Ascending Model_OldMulti Spec_Market Spec_RecipeTree Spec_TreeAuction Spec_OldMulti
  Proof_Tree Proof_Tree2 Proof_Tree3 Proof_TA1 Proof_TA2 Proof_TA3 Proof_Ascending Proof_Om1 Proof_Om2.
Import ListNotations.
Open Scope Q_scope.

(** ** The number of deals *)

Lemma nsum_pointwise : forall (l l' : list nat), length l = length l' ->
  (forall k, (k < length l)%nat -> (nth k l 0 <= nth k l' 0)%nat) -> (nsum l <= nsum l')%nat.
Proof.
  induction l as [|a l IH]; intros [|b l'] HL H; simpl in HL; try lia.
  assert (H0 := H 0%nat). simpl in H0. assert (X : (nsum l <= nsum l')%nat).
  { apply IH; [lia|]. intros k Hk. apply (H (S k)). simpl. lia. } simpl. lia.
Qed.

Lemma greedy : forall (l : list nat) x, exists l', length l' = length l /\ nsum l' = Nat.min (nsum l) x
  /\ forall k, (nth k l' 0 <= nth k l 0)%nat.
Proof.
  induction l as [|a l IH]; intros x.
  - exists []. split; [reflexivity|]. split; [reflexivity|]. intros [|k]; simpl; lia.
  - destruct (IH (x - a)%nat) as (l' & A & B & C). exists (Nat.min a x :: l'). split; [simpl; lia|]. split.
    + cbn [nsum fold_right]. unfold nsum in B. rewrite B. fold (nsum l). lia.
    + intros [|k]; [simpl nth; lia|apply C].
Qed.

Lemma nsum_only : forall (f : nat -> nat) k n a, (a <= k < a + n)%nat -> (forall j, j <> k -> f j = 0%nat) ->
  nsum (map f (seq a n)) = f k.
Proof.
  intros f k. induction n as [|n IH]; intros a H Z; [lia|]. cbn [seq map]. change (nsum (f a :: map f (seq (S a) n))) with (f a + nsum (map f (seq (S a) n)))%nat.
  destruct (Nat.eq_dec a k) as [->|N].
  - assert (E : nsum (map f (seq (S k) n)) = 0%nat).
    { clear IH H. assert (G : forall m b, (k < b)%nat -> nsum (map f (seq b m)) = 0%nat).
      { induction m as [|m IHm]; intros b Hb; [reflexivity|]. cbn [seq map]. change (nsum (f b :: map f (seq (S b) m))) with (f b + nsum (map f (seq (S b) m)))%nat.
        rewrite Z by lia. rewrite IHm by lia. reflexivity. }
      apply G. lia. }
    lia.
  - rewrite Z by assumption. rewrite IH by (lia || assumption). reflexivity.
Qed.

Lemma nsum_nth : forall l : list nat, nsum (map (fun k => nth k l 0%nat) (seq 0 (length l))) = nsum l.
Proof.
  intros l. f_equal. induction l as [|a l IH]; [reflexivity|]. cbn [length seq map nth]. f_equal. rewrite <- seq_shift, map_map. exact IH.
Qed.

Lemma nsum_zeros : forall (f : nat -> nat) l, (forall k, In k l -> f k = 0%nat) -> nsum (map f l) = 0%nat.
Proof.
  intros f. induction l as [|a l IH]; intros H; [reflexivity|]. cbn [map]. change (f a + nsum (map f l) = 0)%nat.
  rewrite IH by (intros; apply H; right; assumption). rewrite (H a) by (left; reflexivity). reflexivity.
Qed.

Lemma cat_at_error : forall cats c cat, nth_error cats c = Some cat -> cat_at cats c = cat /\ (c < length cats)%nat.
Proof.
  intros cats c cat H. split; [unfold cat_at; apply nth_error_nth; exact H|]. apply nth_error_Some. congruence.
Qed.

Lemma error_cat_at : forall cats c, (c < length cats)%nat -> nth_error cats c = Some (cat_at cats c).
Proof. intros. apply nth_error_nth'. assumption. Qed.

Section Deals.
  Variables (M : Q) (n : nat) (cats : list category) (rs : list (list nat)) (prices : list Q) (common : list nat)
    (uniques : list (list nat)) (t : multi_trade) (mins : list nat).
  Hypothesis HL : length cats = n.
  Hypothesis MS : msetup n rs common uniques.
  Hypothesis TM : trade_made M cats rs prices common uniques t mins.

  Lemma mins_length : length mins = length rs.
  Proof. rewrite <- (ms_len _ _ _ _ MS). symmetry. eapply Forall2_length. apply (tm_mins _ _ _ _ _ _ _ _ TM). Qed.

  Lemma one_at : forall k c, (k < length rs)%nat -> (0 < nth c (nth k rs []) 0)%nat -> nth c (nth k rs []) 0%nat = 1%nat.
  Proof.
    intros k c Hk Hc. assert (B := ms_binary _ _ _ _ MS). rewrite Forall_forall in B.
    eapply binary_pos_one; [apply B; apply nth_In; exact Hk|exact Hc].
  Qed.

  Lemma deals_upper : forall ds, can_make cats rs ds -> (nsum ds <= nsum mins)%nat
    /\ forall i, In i common -> (nsum ds <= csize (cat_at cats i))%nat.
  Proof.
    intros ds [DL DC]. split.
    - apply nsum_pointwise; [rewrite DL; symmetry; apply mins_length|]. intros k Hk. rewrite DL in Hk.
      assert (X := Forall2_nth _ _ _ _ _ k [] 0%nat (tm_mins _ _ _ _ _ _ _ _ TM)). rewrite (ms_len _ _ _ _ MS) in X.
      destruct (X Hk) as [[i [Hi E]] _]. clear X. apply (ms_unique _ _ _ _ MS) in Hi. destruct Hi as (Hin & _ & Hp & Ho).
      assert (D := DC i (cat_at cats i) (error_cat_at cats i ltac:(lia))). rewrite (nsum_only _ k) in D.
      + rewrite (one_at k i Hk Hp) in D. lia.
      + lia.
      + intros j Nj. destruct (lt_dec j (length rs)) as [Lj|Lj].
        * destruct (Nat.eq_dec (nth i (nth j rs []) 0%nat) 0) as [Z|Z]; [rewrite Z; lia|]. exfalso. apply Nj. apply Ho; [assumption|lia].
        * rewrite (nth_overflow ds) by lia. lia.
    - intros i Hi. apply (ms_common _ _ _ _ MS) in Hi. destruct Hi as (Hin & _ & Ha).
      assert (D := DC i (cat_at cats i) (error_cat_at cats i ltac:(lia))).
      rewrite (map_ext_in _ (fun k => nth k ds 0%nat)) in D.
      + rewrite <- DL, nsum_nth in D. exact D.
      + intros k Hk. apply in_seq in Hk. rewrite one_at; [lia|lia|apply Ha; lia].
  Qed.

  Lemma deals_make : forall ds, length ds = length rs -> (forall k, (nth k ds 0 <= nth k mins 0)%nat) ->
    (forall i, In i common -> (nsum ds <= csize (cat_at cats i))%nat) -> can_make cats rs ds.
  Proof.
    intros ds DL DM DC. split; [assumption|]. intros c cat Hc. apply cat_at_error in Hc. destruct Hc as [E Hc]. rewrite <- E. clear cat E.
    destruct (in_dec Nat.eq_dec c common) as [I|I].
    - rewrite (map_ext_in _ (fun k => nth k ds 0%nat)).
      + rewrite <- DL, nsum_nth. apply DC. exact I.
      + intros k Hk. apply in_seq in Hk. apply (ms_common _ _ _ _ MS) in I. rewrite one_at; [lia|lia|apply I; lia].
    - destruct (existsb (fun k => 0 <? nth c (nth k rs []) 0)%nat (seq 0 (length rs))) eqn:Ex.
      + apply existsb_exists in Ex. destruct Ex as [k [Hk Hp]]. apply in_seq in Hk. apply Nat.ltb_lt in Hp.
        destruct (ms_kind _ _ _ _ MS c k ltac:(lia) ltac:(lia) Hp) as [Hx|Hx]; [contradiction|].
        assert (X := Forall2_nth _ _ _ _ _ k [] 0%nat (tm_mins _ _ _ _ _ _ _ _ TM)). rewrite (ms_len _ _ _ _ MS) in X.
        destruct (X ltac:(lia)) as [_ X2]. specialize (X2 c Hx). apply (ms_unique _ _ _ _ MS) in Hx. destruct Hx as (_ & _ & _ & Ho).
        rewrite (nsum_only _ k).
        * rewrite one_at by (lia || assumption). specialize (DM k). lia.
        * lia.
        * intros j Nj. destruct (lt_dec j (length rs)) as [Lj|Lj].
          -- destruct (Nat.eq_dec (nth c (nth j rs []) 0%nat) 0) as [Z|Z]; [rewrite Z; lia|]. exfalso. apply Nj. apply Ho; [assumption|lia].
          -- rewrite (nth_overflow ds) by lia. lia.
      + rewrite nsum_zeros; [lia|]. intros k Hk. destruct (Nat.eq_dec (nth c (nth k rs []) 0%nat) 0) as [Z|Z]; [rewrite Z; reflexivity|].
        exfalso. assert (Y : existsb (fun k => 0 <? nth c (nth k rs []) 0)%nat (seq 0 (length rs)) = true).
        { apply existsb_exists. exists k. split; [assumption|]. apply Nat.ltb_lt. lia. }
        congruence.
  Qed.

  (** The number of deals is what the remaining agents can make, if the cap MAX_VALUE plays no role. *)
  Lemma deals_exact : Qn (left_agents cats) <= M ->
    (exists ds, can_make cats rs ds /\ nsum ds = mt_deals t) /\ forall ds, can_make cats rs ds -> (nsum ds <= mt_deals t)%nat.
  Proof.
    intros HM. assert (EC : common = [] \/ common <> []) by (destruct common; [left; reflexivity|right; discriminate]). destruct EC as [EC|EC].
    - assert (E := tm_none _ _ _ _ _ _ _ _ TM EC).
      assert (CM : can_make cats rs mins).
      { apply deals_make; [apply mins_length|intros; lia|]. rewrite EC. intros i []. }
      assert (T : (nsum mins <= left_agents cats)%nat).
      { assert (X := deals_upper). unfold left_agents.
        (* each category serves at most its size, and each recipe has a unique one *)
        assert (Y : exists is, length is = length mins /\ NoDup is /\ (forall i, In i is -> (i < n)%nat)
                    /\ nsum mins = nsum (map (fun i => csize (cat_at cats i)) is)).
        { clear X CM E. assert (F := tm_mins _ _ _ _ _ _ _ _ TM).
          assert (G : exists is, Forall2 (fun u i => In i u) uniques is /\ mins = map (fun i => csize (cat_at cats i)) is).
          { clear -F. induction F as [|u x us xs [[i [Hi E]] _] F IH]; [exists []; split; [constructor|reflexivity]|].
            destruct IH as [is [A B]]. exists (i :: is). split; [constructor; assumption|]. simpl. congruence. }
          destruct G as [is [A B]]. exists is. assert (LI : length is = length rs) by (rewrite <- (Forall2_length _ _ _ _ _ A); apply (ms_len _ _ _ _ MS)).
          split; [rewrite B, map_length; reflexivity|].
          assert (U : forall k, (k < length rs)%nat -> In (nth k is 0%nat) (nth k uniques [])).
          { intros k Hk. apply (Forall2_nth _ _ _ _ _ k [] 0%nat A). rewrite (ms_len _ _ _ _ MS). assumption. }
          split; [|split; [|congruence]].
          - apply (NoDup_nth is 0%nat). intros j k Hj Hk Ejk. rewrite LI in Hj, Hk. assert (Uj := U j Hj). assert (Uk := U k Hk). rewrite Ejk in Uj.
            apply (ms_unique _ _ _ _ MS) in Uj. apply (ms_unique _ _ _ _ MS) in Uk. apply Uk; [assumption|]. apply Uj.
          - intros i Hi. destruct (In_nth _ _ 0%nat Hi) as [k [Hk <-]]. rewrite LI in Hk. apply (ms_unique _ _ _ _ MS k). auto. }
        destruct Y as (is & _ & ND & RG & ->). clear -ND RG HL.
        assert (Z : forall l, NoDup l -> (forall i, In i l -> (i < length cats)%nat) ->
                 (nsum (map (fun i => csize (cat_at cats i)) l) <= nsum (map csize cats))%nat).
        { clear. induction cats as [|c cs IH] using rev_ind; intros l ND RG.
          - destruct l as [|i l]; [simpl; lia|]. specialize (RG i (or_introl eq_refl)). simpl in RG. lia.
          - rewrite app_length in RG. cbn [length] in RG. rewrite map_app. unfold nsum at 2. rewrite fold_right_app.
            assert (FA : forall l x, fold_right Nat.add x l = (nsum l + x)%nat).
            { clear. induction l as [|a l IH]; intros x; [reflexivity|]. cbn [fold_right]. rewrite IH. unfold nsum. cbn [fold_right]. lia. }
            rewrite FA. cbn [map fold_right]. rewrite Nat.add_0_r.
            assert (SA : forall i, (i < length cs)%nat -> cat_at (cs ++ [c]) i = cat_at cs i).
            { intros i Hi. unfold cat_at. apply app_nth1. assumption. }
            assert (LA : cat_at (cs ++ [c]) (length cs) = c).
            { unfold cat_at. rewrite app_nth2, Nat.sub_diag by lia. reflexivity. }
            destruct (in_dec Nat.eq_dec (length cs) l) as [I|I].
            + apply in_split in I. destruct I as (l1 & l2 & ->). rewrite map_app. cbn [map]. rewrite LA.
              assert (N1 := NoDup_remove_1 _ _ _ ND). assert (N2 := NoDup_remove_2 _ _ _ ND).
              specialize (IH (l1 ++ l2) N1).
              assert (R : forall i, In i (l1 ++ l2) -> (i < length cs)%nat).
              { intros i Hi. assert (i < length cs + 1)%nat by (apply RG; apply in_app_iff in Hi; apply in_app_iff; simpl; tauto).
                assert (i <> length cs) by (intros ->; contradiction). lia. }
              specialize (IH R). rewrite map_app in IH. unfold nsum in IH |- *. rewrite fold_right_app in IH |- *. rewrite FA in IH |- *. cbn [fold_right].
              rewrite (map_ext_in _ (fun i => csize (cat_at cs i)) l1) by (intros i Hi; rewrite SA; [reflexivity|apply R; apply in_app_iff; tauto]).
              rewrite (map_ext_in _ (fun i => csize (cat_at cs i)) l2) by (intros i Hi; rewrite SA; [reflexivity|apply R; apply in_app_iff; tauto]).
              unfold nsum in *. lia.
            + assert (R : forall i, In i l -> (i < length cs)%nat).
              { intros i Hi. specialize (RG i Hi). assert (i <> length cs) by (intros ->; contradiction). lia. }
              specialize (IH l ND R).
              rewrite (map_ext_in _ (fun i => csize (cat_at cs i)) l) by (intros i Hi; rewrite SA; [reflexivity|auto]). lia. }
        apply Z; [assumption|]. rewrite HL. assumption. }
      assert (EQ : mt_deals t = nsum mins).
      { rewrite E. destruct (Qlt_bool M (Qn (nsum mins))) eqn:B; [|reflexivity]. exfalso. apply Qlt_bool_iff in B.
        assert (Qn (nsum mins) <= Qn (left_agents cats)) by (apply Qn_le; assumption). lra. }
      rewrite EQ. split; [exists mins; auto|]. intros ds Hds. apply deals_upper. assumption.
    - destruct (tm_some _ _ _ _ _ _ _ _ TM) as (x & E & [i [Hi Ex]] & Hx); [exact EC|]. rewrite E. split.
      + destruct (greedy mins x) as (ds & A & B & C). exists ds. split; [|assumption].
        apply deals_make; [rewrite A; apply mins_length|assumption|]. intros j Hj. specialize (Hx j Hj). lia.
      + intros ds Hds. destruct (deals_upper ds Hds) as [U1 U2]. specialize (U2 i Hi). lia.
  Qed.
End Deals.

(** ** The last call *)

Record final (M : Q) (lp : list (list nat) -> result (list Q)) (m : market) (rest : list (list nat)) (t : multi_trade)
    (common : list nat) (uniques : list (list nat)) (mins : list nat) : Prop := mkFinal {
  fi_setup : msetup (length m) rest common uniques;
  fi_len : length (mt_cats t) = length m;
  fi_uniques : forall u, In u uniques -> u <> [];
  fi_made : trade_made M (mt_cats t) rest (mt_prices t) common uniques t mins;
  fi_pfx : forall i, pfx (cvalues (cat_at (mt_cats t) i)) (cvalues (cat_at (clone_market m) i));
  fi_name : forall i, cname (cat_at (mt_cats t) i) = cname (cat_at (clone_market m) i);
  fi_ir : values_above (- M) m -> forall i v, In v (cvalues (cat_at (mt_cats t) i)) -> nth i (mt_prices t) 0 <= v;
  fi_prices : length (mt_prices t) = length m;
  fi_sums : exists S, equal_sums rest (mt_prices t) S /\ S <= 0
      /\ (S == 0 \/ nsum mins = 0%nat /\ forall i u, In u uniques -> In i u -> csize (cat_at (mt_cats t) i) = 0%nat)
}.

Lemma sums_mins : forall cats uniques mins,
  Forall2 (fun u x => (exists i, In i u /\ x = csize (cat_at cats i))
                                /\ forall i, In i u -> (x <= csize (cat_at cats i))%nat) uniques mins ->
  (forall i u, In u uniques -> In i u -> csize (cat_at cats i) = 0%nat) -> nsum mins = 0%nat.
Proof.
  intros cats uniques mins F Z. induction F as [|u x us xs [[i [Hi E]] _] F IH]; [reflexivity|].
  change (x + nsum xs = 0)%nat. rewrite IH by (intros; eapply Z; [right|]; eassumption). rewrite E.
  rewrite (Z i u); auto. left. reflexivity.
Qed.

Lemma mains_empty : forall n rs common uniques iter cats mains, msetup n rs common uniques -> set_order iter ->
  mains_of iter cats uniques mains -> (forall i, In i mains -> csize (cat_at cats i) = 0%nat) ->
  forall i u, In u uniques -> In i u -> csize (cat_at cats i) = 0%nat.
Proof.
  intros n rs common uniques iter cats mains MS IT MO Z i u Hu Hi. destruct (In_nth _ _ [] Hu) as [k [Hk E]].
  rewrite (ms_len _ _ _ _ MS) in Hk. rewrite <- E in Hi. assert (X := main_largest _ _ _ _ _ _ _ MS IT MO k i Hk Hi).
  rewrite (Z (nth k mains 0%nat)) in X; [lia|]. apply nth_In. rewrite (mains_length _ _ _ _ _ _ _ MS MO). assumption.
Qed.

Theorem multi_final : forall depth M lp iter fuel m rs t rest, 0 < M -> set_order iter -> finds_prices (length m) (- M) lp ->
  multi_auction depth M lp iter fuel m rs = (Ok t, rest) ->
  sublist rest rs /\ mt_recipes t = rest /\ exists a mins, analyze_recipes (length m) rest = Ok a
    /\ final M lp m rest t (fst a) (snd a) mins.
Proof.
  induction depth as [|depth IH]; intros M lp iter fuel m rs t rest HM IT LP H; [discriminate|].
  destruct (multi_auction_cases depth M lp iter fuel m rs)
    as [(a & p0 & sp & s & C & E)|[(a & p0 & sp & k & C & E)|[(e & E & C)|[(a & p0 & sp & HC & HA & HL & HSP & C)|C]]]].
  - rewrite E in H. injection H; intros <- HT. clear H E. split; [apply sublist_refl|].
    destruct (call_last _ _ _ _ _ _ _ _ _ _ HM IT LP C) as (MS & s1 & S & IW & IA & G & NS & K & _).
    inversion C as [st HC HA HL HSP HR]; subst. clear C.
    assert (X : length (cats_of s) = length m /\ length (prices_of s) = length m /\ (forall u, In u (snd a) -> u <> [])
      /\ (forall i, pfx (cvalues (cat_at (cats_of s) i)) (cvalues (cat_at (clone_market m) i)))
      /\ (forall i, cname (cat_at (cats_of s) i) = cname (cat_at (clone_market m) i))
      /\ (values_above (- M) m -> forall i v, In v (cvalues (cat_at (cats_of s) i)) -> pr s i <= v)
      /\ exists S, equal_sums rs (prices_of s) S /\ S <= 0
         /\ (S == 0 \/ forall i u, In u (snd a) -> In i u -> csize (cat_at (cats_of s) i) = 0%nat)).
    { inversion K as [| |mains M1 M2 E3| |mains s' d M1 M2 M3 M4 M5 M6 E3|]; subst.
      - split; [apply (g_cats _ _ _ _ G)|]. split; [apply (g_prices _ _ _ _ G)|]. split; [eapply mains_uniques; eassumption|].
        split; [apply (iw_pfx _ _ _ _ IW)|]. split; [apply (iw_name _ _ _ _ IW)|].
        split; [intros HV; apply (ia_ir _ _ _ _ (IA HV))|].
        exists S. split; [apply (g_sums _ _ _ _ G)|]. split; [lra|]. right. eapply mains_empty; eassumption.
      - assert (G' := st_good _ _ _ _ _ _ _ M3). split; [apply (g_cats _ _ _ _ G')|]. split; [apply (g_prices _ _ _ _ G')|].
        split; [eapply mains_uniques; eassumption|]. rewrite M5.
        split; [apply (iw_pfx _ _ _ _ IW)|]. split; [apply (iw_name _ _ _ _ IW)|].
        split.
        + intros HV. assert (I := IA HV). eapply mstep_ir; [exact M3| |apply (ia_ir _ _ _ _ I)].
          intros i. eapply pfx_desc; [apply (ia_pfx _ _ _ _ I)|]. apply sorted_cats_at, clone_sorted.
        + exists (S + d). split; [apply (g_sums _ _ _ _ G')|]. split; [lra|]. left. lra. }
    destruct X as (X1 & X2 & X3 & X4 & X5 & X6 & S1 & X7 & X8 & X9).
    destruct (new_multi_trade_ok M _ (fst s) rs (map_category_index_to_price (snd s)) a X1 HC HA X3) as (t' & mins & T & TM).
    rewrite T in HT. injection HT; intros ->. clear HT. split; [apply (tm_recipes _ _ _ _ _ _ _ _ TM)|].
    exists a, mins. split; [assumption|].
    assert (EC : mt_cats t = cats_of s) by apply (tm_cats _ _ _ _ _ _ _ _ TM).
    assert (EP : mt_prices t = prices_of s) by apply (tm_prices _ _ _ _ _ _ _ _ TM).
    split; rewrite ?EC, ?EP; auto.
    exists S1. split; [assumption|]. split; [assumption|]. destruct X9 as [X9|X9]; [left; assumption|right].
      split; [|assumption]. eapply sums_mins; [apply (tm_mins _ _ _ _ _ _ _ _ TM)|assumption].
  - rewrite E in H. clear E. destruct (del_nth k rs) as [|r0 rest0] eqn:ER; [discriminate|]. rewrite <- ER in H.
    destruct (IH _ _ _ _ _ _ _ _ HM IT LP H) as [A B]. split; [|assumption].
    eapply sublist_trans; [exact A|apply del_nth_sublist].
  - congruence.
  - exfalso. assert (MS := analyze_setup _ _ _ HC HA). destruct C as [C|[s C]].
    + cbn [multi_auction] in H. rewrite HC, HA in H. cbn [bind] in H. rewrite HL in H. cbn [bind] in H. rewrite HSP in H. cbn [bind] in H.
      rewrite C in H. discriminate.
    + cbn [multi_auction] in H. rewrite HC, HA in H. cbn [bind] in H. rewrite HL in H. cbn [bind] in H. rewrite HSP in H. cbn [bind] in H.
      rewrite C in H. discriminate.
  - exfalso. assert (F := LP rs). rewrite C in F. assumption.
Qed.
