(** * The integer auction, trade reduction and McAfee on the heap (C52) *)

From Coq Require Import String List Arith Lia QArith Bool.
From Verif Require Import Base Model_Agents Model_Trade Model_Prices Model_Market Model_Ascending Model_TradeReduction Model_McAfee
  Model_RecipeTree Model_TreeAuction Model_IntPrices Model_IntTree Model_IntAuction Model_Heap Spec_RecipeTree Spec_Heap Proof_Tree Proof_Market Proof_TA1 Proof_TA3
  Proof_Int3 Proof_Int5 Proof_Heap Proof_Heap2.
Import ListNotations.
Open Scope nat_scope.

(** ** The integer tree auction *)

Lemma sim_int_round : forall M counts t m sp,
  sim m (fun h => deref h m) (h_int_round M counts t m sp) (fun s => x <- int_round M counts t (s, sp) ;; Ok ((fst x, snd (snd x)), fst (snd x))).
Proof.
  intros M counts t m sp. unfold h_int_round, int_round. eapply sim_ext; [eapply sim_bind; [apply sim_read_all, incl_refl|]; intros cats|].
  - instantiate (1 := fun cats s => l <- int_largest_categories cats counts t ;;
          if Qeq_bool (snd (fst l)) 0 then Ok ((true, sp), s)
          else
            increases <- planned_increases M cats (snd l) ;;
            sp' <- int_increase_prices sp increases 0 ;;
            match isp_status sp' with
            | Some STOPPED_AT_ZERO_SUM => Ok ((true, sp'), s)
            | _ => s' <- remove_beaten s (iv_prices (isp_vector sp')) ;; Ok ((false, sp'), s')
            end). cbn beta.
    apply sim_bind_lift. intros [[a b] l]. cbv zeta. cbn [fst snd]. destruct (Qeq_bool b 0); [apply sim_ret|].
    apply sim_bind_lift. intros incs. apply sim_bind_lift. intros sp'.
    assert (X : sim m (fun h => deref h m) (hbind (h_remove_beaten m (iv_prices (isp_vector sp'))) (fun _ => hret (false, sp')))
       (fun s => s' <- remove_beaten s (iv_prices (isp_vector sp')) ;; Ok ((false, sp'), s'))).
    { eapply sim_ext; [eapply sim_bind; [apply sim_remove_beaten|intros u; apply sim_ret]|]. intros h V. cbn beta.
      destruct (remove_beaten _ _); reflexivity. }
    destruct (isp_status sp') as [[]|]; first [apply sim_ret|exact X].
  - intros h V. cbn beta. cbn [bind fst snd]. destruct (int_largest_categories (deref h m) counts t) as [[[a b] l]|e|]; cbn [bind fst snd]; [|reflexivity|reflexivity].
    destruct (Qeq_bool b 0); [reflexivity|].
    destruct (planned_increases M (deref h m) l) as [incs|e|]; cbn [bind]; [|reflexivity|reflexivity].
    destruct (int_increase_prices sp incs 0) as [sp'|e|]; cbn [bind]; [|reflexivity|reflexivity].
    destruct (isp_status sp') as [[]|]; try reflexivity; destruct (remove_beaten (deref h m) _); reflexivity.
Qed.

Lemma sim_int_loop : forall M counts fuel t m sp,
  sim m (fun h => deref h m) (h_int_loop M counts fuel t m sp) (fun s => x <- int_loop M counts fuel t (s, sp) ;; Ok (snd x, fst x)).
Proof.
  intros M counts. induction fuel as [|fuel IH]; intros t m sp; cbn [h_int_loop int_loop].
  - eapply sim_ext; [apply sim_lift|]. reflexivity.
  - eapply sim_ext.
    + eapply sim_bind; [apply sim_int_round|]. intros r.
      instantiate (1 := fun r s => if fst r then Ok (snd r, s) else x <- int_loop M counts fuel t (s, snd r) ;; Ok (snd x, fst x)).
      cbn beta. destruct (fst r); [apply sim_ret|apply IH].
    + intros h V. cbn beta. destruct (int_round M counts t (deref h m, sp)) as [[b [cats sp']]|e|]; cbn [bind fst snd]; try reflexivity.
      destruct b; reflexivity.
Qed.

Definition sort_cat (c : category) : category := mkCat (cname c) (sort_desc (cvalues c)).

Fixpoint sort_at (l : list nat) (s : list category) : result (list category) :=
  match l with
  | [] => Ok s
  | i :: l' => c <- get s i ;; sort_at l' (set_nth i (sort_cat c) s)
  end.

Lemma sim_sort_list : forall m l,
  sim m (fun h => deref h m) (hfor (fun i => hbind (hlift (get m i)) (fun r => h_sort_values r)) l) (fun s => s' <- sort_at l s ;; Ok (tt, s')).
Proof.
  intros m. induction l as [|i l IH]; cbn [hfor sort_at].
  - eapply sim_ext; [apply sim_ret|]. reflexivity.
  - assert (S1 : sim m (fun h => deref h m) (hbind (hlift (get m i)) (fun r => h_sort_values r))
       (fun s => c <- get s i ;; Ok (tt, set_nth i (sort_cat c) s))).
    { destruct (Nat.lt_ge_cases i (length m)) as [H|H].
      - rewrite (get_lt' _ _ _ 0) by assumption. apply sim_ok. unfold h_sort_values.
        eapply sim_ext; [eapply sim_bind; [apply sim_read; assumption|]; intros c; apply sim_write; assumption|].
        intros h V. cbn beta. destruct (get (deref h m) i); reflexivity.
      - rewrite (get_ge _ m) by assumption. eapply sim_ext; [apply sim_raise|]. intros h V. cbn beta.
        rewrite get_ge by (rewrite deref_length; assumption). reflexivity. }
    eapply sim_ext; [eapply sim_bind; [exact S1|intros u; exact IH]|].
    intros h V. cbn beta. destruct (get (deref h m) i); reflexivity.
Qed.

Lemma set_nth_get : forall A (l : list A) i x, get l i = Ok x -> set_nth i x l = l.
Proof.
  intros A. induction l as [|y l IH]; intros [|i] x H; cbn [set_nth]; try reflexivity.
  - injection H; intros ->. reflexivity.
  - f_equal. apply IH. exact H.
Qed.

Lemma sort_at_id : forall l s, sorted_cats s -> Forall (fun i => i < length s) l -> sort_at l s = Ok s.
Proof.
  intros l s HS. induction l as [|i l IH]; intros F; [reflexivity|]. inversion F; subst. cbn [sort_at].
  rewrite (get_lt' _ _ _ (mkCat EmptyString [])) by assumption. cbn [bind].
  set (c := nth i s (mkCat EmptyString [])). assert (E : sort_cat c = c).
  { unfold sort_cat. rewrite sort_desc_id; [destruct c; reflexivity|]. unfold sorted_cats in HS. rewrite Forall_forall in HS. apply HS.
    apply nth_In. assumption. }
  rewrite E, set_nth_get; [apply IH; assumption|]. apply get_lt'. assumption.
Qed.

Lemma beaten_sorted : forall cats prices cats', remove_beaten cats prices = Ok cats' -> sorted_cats cats ->
  sorted_cats cats' /\ length cats' = length cats.
Proof.
  induction cats as [|c cats IH]; intros prices cats' H HS; cbn [remove_beaten] in H; [injection H; intros <-; split; [constructor|reflexivity]|].
  destruct prices as [|p prices]; [discriminate|]. apply bind_Ok in H. destruct H as [c' [Hc H]].
  apply bind_Ok in H. destruct H as [cats2 [H2 H]]. injection H; intros <-. inversion HS; subst. destruct (IH _ _ H2) as [A B]; [assumption|].
  split; [|cbn [length]; congruence]. constructor; [|assumption].
  unfold csize, lowest_agent_value, remove_lowest_agent in Hc. destruct (cvalues c) as [|v l] eqn:Ec.
  - simpl in Hc. injection Hc; intros <-. rewrite Ec. constructor.
  - cbn [length Nat.ltb Nat.leb bind] in Hc. destruct (Qle_bool _ p); injection Hc; intros <-.
    + cbn [cvalues]. change (desc (removelast (v :: l))). rewrite removelast_firstn_len. apply desc_firstn. assumption.
    + rewrite Ec. assumption.
Qed.

Lemma int_loop_sorted : forall M counts t fuel s s', int_loop M counts fuel t s = Ok s' -> sorted_cats (fst s) ->
  sorted_cats (fst s') /\ length (fst s') = length (fst s).
Proof.
  intros M counts t. induction fuel as [|fuel IH]; intros s s' H HS; [discriminate|]. cbn [int_loop] in H.
  apply bind_Ok in H. destruct H as [[b s1] [H1 H]]. cbn [fst snd] in H.
  assert (HS1 : sorted_cats (fst s1) /\ length (fst s1) = length (fst s)).
  { destruct s as [cats sp]. unfold int_round in H1. apply bind_Ok in H1. destruct H1 as [l [_ H1]].
    destruct (Qeq_bool _ 0); [injection H1; intros <- _; auto|].
    apply bind_Ok in H1. destruct H1 as [incs [_ H1]]. apply bind_Ok in H1. destruct H1 as [sp' [_ H1]].
    destruct (isp_status sp') as [[|]|].
    - apply bind_Ok in H1. destruct H1 as [cats' [Hc H1]]. injection H1; intros <- _. eapply beaten_sorted; eassumption.
    - injection H1; intros <- _. auto.
    - apply bind_Ok in H1. destruct H1 as [cats' [Hc H1]]. injection H1; intros <- _. eapply beaten_sorted; eassumption. }
  destruct HS1 as [A B]. destruct b; [injection H; intros <-; auto|]. destruct (IH _ _ H A) as [C D]. split; [assumption|congruence].
Qed.

Lemma int_trade_cats : forall cats counts t prices r, new_int_trade cats counts t prices = Ok r -> tt_cats r = cats.
Proof. intros cats counts t prices r H. unfold new_int_trade in H. apply bind_Ok in H. destruct H as (x & _ & H). injection H; intros <-. reflexivity. Qed.

Theorem int_behaves : forall M fuel m struct counts h, valid h m ->
  behaves h (h_int_auction M fuel m struct counts) (with_cats tt_cats (int_auction M fuel (deref h m) struct counts)).
Proof.
  intros M fuel m struct counts h V. unfold h_int_auction, int_auction.
  set (f := fun cats => t <- new_int_tree cats counts struct ;; rs <- int_recipes (length cats) counts t ;; cats1 <- sort_at (preorder t) cats ;;
    sp <- new_int_sim_prices rs (- M) [] ;; x <- int_loop M counts fuel t (cats1, sp) ;; cats2 <- sort_at (preorder t) (fst x) ;;
    r <- new_int_trade cats2 counts t (iv_prices (isp_vector (snd x))) ;; Ok (r, cats2)).
  replace (with_cats tt_cats _) with (f (clone_market (deref h m))).
  - apply attach_behaves; [assumption|]. set (rf := seq _ _). eapply sim_ext.
    + eapply sim_bind; [apply sim_read_all, incl_refl|]. intros cats. apply sim_bind_lift. intros t. apply sim_bind_lift. intros rs.
      eapply sim_bind; [apply sim_sort_list|]. intros u. apply sim_bind_lift. intros sp. eapply sim_bind; [apply sim_int_loop|]. intros sp'.
      eapply sim_bind; [apply sim_sort_list|]. intros u'. apply sim_finish.
    + intros h0 V0. unfold f. cbn beta. cbn [bind fst snd].
      destruct (new_int_tree (deref h0 rf) counts struct) as [t|e|]; cbn [bind]; [|reflexivity|reflexivity].
      destruct (int_recipes (length (deref h0 rf)) counts t) as [rs|e|]; cbn [bind]; [|reflexivity|reflexivity].
      destruct (sort_at (preorder t) (deref h0 rf)) as [c1|e|]; cbn [bind fst snd]; [|reflexivity|reflexivity].
      destruct (new_int_sim_prices rs (- M) []) as [sp|e|]; cbn [bind]; [|reflexivity|reflexivity].
      destruct (int_loop M counts fuel t (c1, sp)) as [x|e|]; cbn [bind fst snd]; [|reflexivity|reflexivity].
      destruct (sort_at (preorder t) (fst x)) as [c2|e|]; cbn [bind fst snd]; [|reflexivity|reflexivity].
      destruct (new_int_trade _ _ _ _); reflexivity.
  - unfold f, with_cats. set (cl := clone_market (deref h m)).
      destruct (new_int_tree cl counts struct) as [t|e|] eqn:HT; cbn [bind]; [|reflexivity|reflexivity].
      assert (R := new_tree_indices _ _ _ (int_tree_binary _ _ _ _ HT)).
      assert (R' : Forall (fun i => i < length cl) (preorder t)) by exact R.
      destruct (int_recipes _ _ t) as [rs|e|]; cbn [bind]; [|reflexivity|reflexivity].
      rewrite sort_at_id; [|apply clone_sorted|exact R']. cbn [bind].
      destruct (new_int_sim_prices rs (- M) []) as [sp|e|]; cbn [bind]; [|reflexivity|reflexivity].
      destruct (int_loop M counts fuel t _) as [x|e|] eqn:EL; cbn [bind fst snd]; [|reflexivity|reflexivity].
      destruct (int_loop_sorted _ _ _ _ _ _ EL (clone_sorted _)) as [S1 L1]. cbn [fst] in L1.
      rewrite sort_at_id; [|exact S1|rewrite L1; exact R']. cbn [bind].
      destruct (new_int_trade _ _ _ _) as [r|e|] eqn:T; cbn [bind]; [|reflexivity|reflexivity].
      rewrite (int_trade_cats _ _ _ _ _ T). reflexivity.
Qed.

(** ** Programs with two groups of new objects *)

Definition beh {A} (h0 h1 : heap) (p : prog (A * list ref)) (res : result (A * list category)) : Prop :=
  exists h' r, p h1 = (h', r) /\ preserved h0 h'
    /\ match r with
       | Ok (a, refs) => res = Ok (a, deref h' refs) /\ fresh h0 h' refs
       | Raise e => res = Raise e
       | Timeout => res = Timeout
       end.

Lemma beh_bind : forall A B h0 h1 h2 (p : prog A) (q : A -> prog (B * list ref)) a res, p h1 = (h2, Ok a) -> beh h0 h2 (q a) res ->
  beh h0 h1 (hbind p q) res.
Proof.
  intros A B h0 h1 h2 p q a res E (h' & r & E' & P & F). exists h', r. split; [rewrite (hbind_eq _ _ _ _ _ _ _ E); assumption|auto].
Qed.

Lemma beh_raise : forall A B h0 h1 h2 (p : prog A) (q : A -> prog (B * list ref)) e, p h1 = (h2, Raise e) -> preserved h0 h2 ->
  beh h0 h1 (hbind p q) (Raise e).
Proof. intros A B h0 h1 h2 p q e E P. exists h2, (Raise e). split; [unfold hbind; rewrite E; reflexivity|auto]. Qed.

Lemma beh_timeout : forall A B h0 h1 h2 (p : prog A) (q : A -> prog (B * list ref)), p h1 = (h2, Timeout) -> preserved h0 h2 ->
  beh h0 h1 (hbind p q) Timeout.
Proof. intros A B h0 h1 h2 p q E P. exists h2, Timeout. split; [unfold hbind; rewrite E; reflexivity|auto]. Qed.

(** A value computed without the heap. *)
Lemma beh_lift : forall A B h0 h1 (x : result A) (q : A -> prog (B * list ref)) (k : A -> result (B * list category)), preserved h0 h1 ->
  (forall a, x = Ok a -> beh h0 h1 (q a) (k a)) -> beh h0 h1 (hbind (hlift x) q) (a <- x ;; k a).
Proof.
  intros A B h0 h1 [a|e|] q k P H; cbn [bind].
  - eapply beh_bind; [reflexivity|apply H; reflexivity].
  - eapply beh_raise; [reflexivity|assumption].
  - eapply beh_timeout; [reflexivity|assumption].
Qed.

(** New objects on top of [h0]. *)
Definition above (h0 h1 : heap) (rem : list ref) : Prop := NoDup rem /\ Forall (fun r => length h0 <= r < length h1) rem.

Lemma above_valid : forall h0 h1 rem, above h0 h1 rem -> valid h1 rem.
Proof. intros h0 h1 rem [_ F]. unfold valid. eapply Forall_impl; [|exact F]. cbn beta. intros. lia. Qed.

Lemma above_step : forall h0 h1 h2 rem, above h0 h1 rem -> preserved h0 h1 -> untouched rem h1 h2 -> preserved h0 h2 /\ above h0 h2 rem.
Proof.
  intros h0 h1 h2 rem [N F] P U. split.
  - eapply preserved_untouched; [exact P|exact U|]. eapply Forall_impl; [|exact F]. cbn beta. intros. lia.
  - split; [assumption|]. rewrite (proj1 U). assumption.
Qed.

(** A program on the group [rem]. *)
Lemma beh_sim : forall A B h0 h1 rem (p : prog A) (q : A -> prog (B * list ref)) f (k : A -> list category -> result (B * list category)),
  preserved h0 h1 -> above h0 h1 rem -> sim rem (fun h => deref h rem) p f ->
  (forall h2 a, preserved h0 h2 -> above h0 h2 rem -> f (deref h1 rem) = Ok (a, deref h2 rem) -> beh h0 h2 (q a) (k a (deref h2 rem))) ->
  beh h0 h1 (hbind p q) (x <- f (deref h1 rem) ;; k (fst x) (snd x)).
Proof.
  intros A B h0 h1 rem p q f k P AB S H. destruct (p h1) as [h2 r] eqn:E.
  destruct (S h1 h2 r (proj1 AB) (above_valid _ _ _ AB) E) as [U F]. destruct (above_step _ _ _ _ AB P U) as [P2 AB2].
  rewrite F. destruct r as [a|e|]; cbn [attach bind fst snd].
  - eapply beh_bind; [exact E|]. apply H; assumption.
  - eapply beh_raise; eassumption.
  - eapply beh_timeout; eassumption.
Qed.

(** The objects for the traders are allocated, and the rest is a program on both groups. *)
Lemma beh_empty : forall A h0 h1 m rem (q : list ref -> prog (A * list ref))
    (F : list category * list category -> result (A * (list category * list category))),
  preserved h0 h1 -> above h0 h1 rem -> valid h1 m -> let tra := seq (length h1) (length m) in
  sim (rem ++ tra) (two rem tra) (q tra) (fun s => x <- F s ;; Ok ((fst x, tra), snd x)) ->
  beh h0 h1 (hbind (h_empty_agent_categories m) q)
    (x <- F (deref h1 rem, empty_agent_categories (deref h1 m)) ;; Ok (fst x, snd (snd x))).
Proof.
  intros A h0 h1 m rem q F P AB V tra S. set (E := empty_agent_categories (deref h1 m)).
  assert (LE : length m = length E) by (unfold E, empty_agent_categories; rewrite map_length, deref_length; reflexivity).
  assert (P2 := preserved_app h1 E). destruct AB as [ND AB].
  assert (L01 := preserved_length _ _ P).
  assert (V2 : valid (h1 ++ E) (rem ++ tra)).
  { unfold valid. apply Forall_app. split.
    - eapply Forall_impl; [|exact AB]. cbn beta. intros. rewrite app_length. lia.
    - apply valid_seq. exact LE. }
  assert (N2 : NoDup (rem ++ tra)).
  { rewrite Forall_forall in AB. unfold tra. clear - ND AB. assert (T := seq_NoDup (length m) (length h1)).
    assert (D : forall x, In x rem -> ~ In x (seq (length h1) (length m))).
    { intros x Hx Hy. apply in_seq in Hy. specialize (AB x Hx). lia. }
    clear AB. induction rem as [|x rem IH]; [assumption|]. inversion ND; subst. cbn [app]. constructor.
    - rewrite in_app_iff. intros [X|X]; [auto|]. eapply D; [left; reflexivity|exact X].
    - apply IH; [assumption|]. intros y Hy. apply D. right. assumption. }
  assert (D2 : deref (h1 ++ E) rem = deref h1 rem).
  { apply preserved_deref; [assumption|]. unfold valid. eapply Forall_impl; [|exact AB]. cbn beta. intros. lia. }
  destruct (q tra (h1 ++ E)%list) as [h' r] eqn:Eq. destruct (S _ _ _ N2 V2 Eq) as [U FF].
  unfold two in FF at 1. rewrite D2 in FF. unfold tra in FF at 1. rewrite deref_seq in FF by exact LE.
  exists h', r. split; [rewrite (hbind_eq _ _ _ _ _ _ _ (h_empty_eq m h1 V)); exact Eq|].
  split.
  { eapply preserved_untouched; [eapply preserved_trans; [exact P|exact P2]|exact U|]. apply Forall_app. split.
    - eapply Forall_impl; [|exact AB]. cbn beta. intros. lia.
    - eapply Forall_impl; [|apply seq_above]. cbn beta. intros. lia. }
  destruct (F (deref h1 rem, E)) as [x|e|]; cbn [bind fst snd] in *; destruct r as [[a refs]|e'|]; cbn [attach] in FF; try discriminate.
  - injection FF; intros F1 F2 F3. subst a refs. rewrite F1. unfold two. cbn [snd]. split; [reflexivity|]. split; [apply seq_NoDup|].
    rewrite Forall_forall. intros y Hy. apply in_seq in Hy. rewrite (proj1 U), app_length. lia.
  - injection FF; intros ->. reflexivity.
  - reflexivity.
Qed.

Lemma sim_add_dummies : forall M m, sim m (fun h => deref h m) (h_add_dummies M m) (fun s => Ok (tt, add_dummies M s)).
Proof.
  intros M. unfold h_add_dummies. induction m as [|r m IH]; cbn [hfor].
  - eapply sim_ext; [apply sim_ret|]. reflexivity.
  - eapply sim_ext; [apply sim_step; [|intros u; exact IH]|].
    + eapply sim1_ext; [eapply sim1_bind; [apply sim1_read|]; intros c|].
      * instantiate (1 := fun c c0 => Ok (tt, if csize c =? 0 then append c0 (- M) else c0)). cbn beta.
        destruct (csize c =? 0); [apply sim1_append|apply sim1_ret].
      * intros c. cbn [bind fst snd]. instantiate (1 := fun c => Ok (tt, if csize c =? 0 then append c (- M) else c)). reflexivity.
    + intros h V. reflexivity.
Qed.

Lemma sim_fold : forall A S S0 rs (view : heap -> S0) (f : S -> A -> prog S) (g : S -> A -> S0 -> result (S * S0)),
  (forall s x, sim rs view (f s x) (g s x)) -> forall l s,
  sim rs view (hfold f l s) (fun s0 => fold_result (fun st x => g (fst st) x (snd st)) l (s, s0)).
Proof.
  intros A S S0 rs view f g H. induction l as [|x l IH]; intros s; cbn [hfold fold_result]; [apply sim_ret|].
  eapply sim_ext; [eapply sim_bind; [apply H|]; intros s'; apply IH|].
  intros h V. cbn beta. cbn [fst snd]. destruct (g s x (view h)) as [[a b]|e|]; reflexivity.
Qed.

(** ** Trade reduction *)

Definition pair_of (s : tr_state) : option (list Q) * (list category * list category) := (tr_prices s, (tr_remaining s, tr_traders s)).
Definition state_of (lp : option (list Q)) (s : list category * list category) : tr_state := mkTR (fst s) (snd s) lp.

Lemma sim_right_append : forall rem tra i v,
  sim (rem ++ tra) (two rem tra) (h_append_trader tra i v) (fun s => t' <- append_trader (snd s) i v ;; Ok (tt, (fst s, t'))).
Proof.
  intros. eapply sim_ext; [apply sim_right; apply sim_append_trader|]. intros h V. cbn beta. destruct (append_trader _ _ _); reflexivity.
Qed.

Lemma sim_left_append : forall rem tra i v,
  sim (rem ++ tra) (two rem tra) (h_append_trader rem i v) (fun s => t' <- append_trader (fst s) i v ;; Ok (tt, (t', snd s))).
Proof.
  intros. eapply sim_ext; [apply sim_left; apply sim_append_trader|]. intros h V. cbn beta. destruct (append_trader _ _ _); reflexivity.
Qed.

Lemma sim_keep : forall recipe rem tra pi v,
  sim (rem ++ tra) (two rem tra) (h_tr_keep recipe tra pi v)
    (fun s => s' <- tr_keep recipe (state_of None s) pi v ;; Ok (tt, snd (pair_of s'))).
Proof.
  intros recipe rem tra pi v. unfold h_tr_keep, tr_keep. eapply sim_ext; [apply sim_bind_lift; intros ci; apply sim_right_append|].
  intros h V. cbn beta. destruct (get (pivot_categories recipe) pi) as [ci|e|]; cbn [bind]; [|reflexivity|reflexivity].
  cbn [state_of tr_traders]. destruct (append_trader _ ci v); reflexivity.
Qed.

Lemma keep_prices : forall recipe s pi v lp, tr_keep recipe (mkTR (tr_remaining s) (tr_traders s) lp) pi v =
  s' <- tr_keep recipe s pi v ;; Ok (mkTR (tr_remaining s') (tr_traders s') lp).
Proof.
  intros. unfold tr_keep. destruct (get _ pi) as [ci|e|]; cbn [bind]; [|reflexivity|reflexivity]. cbn [tr_traders tr_remaining].
  destruct (append_trader _ ci v); reflexivity.
Qed.

Lemma sim_pivot : forall recipe z rem tra ps lp pi,
  sim (rem ++ tra) (two rem tra) (h_tr_pivot recipe z rem tra ps lp pi)
    (fun s => s' <- tr_pivot recipe z ps (state_of lp s) pi ;; Ok (pair_of s')).
Proof.
  intros recipe z rem tra ps lp pi. unfold h_tr_pivot, tr_pivot. cbn [state_of tr_prices].
  assert (K : forall v lp', sim (rem ++ tra) (two rem tra) (hbind (h_tr_keep recipe tra pi v) (fun _ => hret lp'))
     (fun s => s' <- tr_keep recipe (state_of lp' s) pi v ;; Ok (pair_of s'))).
  { intros v lp'. eapply sim_ext; [eapply sim_bind; [apply sim_keep|intros u; apply sim_ret]|]. intros h V. cbn beta.
    change (state_of lp' (two rem tra h)) with (mkTR (tr_remaining (state_of None (two rem tra h))) (tr_traders (state_of None (two rem tra h))) lp').
    rewrite keep_prices. destruct (tr_keep recipe _ pi v) as [s'|e|]; reflexivity. }
  eapply sim_ext; [apply sim_bind_lift; intros v|].
  - instantiate (1 := fun v s => match lp with
      | Some _ => s' <- tr_keep recipe (state_of lp s) pi v ;; Ok (pair_of s')
      | None =>
        let ci := convert_category_index recipe pi in
        best <- best_containing_PS (fst s) ci v ;;
        let g := dot best recipe in
        if (Qlt_bool 0 g || (z && Qeq_bool g 0))%bool then
          prices <- calculate_prices ci v best recipe ;;
          s' <- tr_keep recipe (state_of (Some prices) s) pi v ;; Ok (pair_of s')
        else
          rem' <- append_trader (fst s) ci v ;;
          Ok (lp, (rem', snd s))
      end). cbn beta. destruct lp as [pr|]; [apply K|]. cbv zeta.
    eapply sim_ext; [eapply sim_bind; [apply sim_left; apply sim_read_all, incl_refl|]; intros cats|].
    + instantiate (1 := fun cats s => best <- best_containing_PS cats (convert_category_index recipe pi) v ;;
        if (Qlt_bool 0 (dot best recipe) || (z && Qeq_bool (dot best recipe) 0))%bool then
          prices <- calculate_prices (convert_category_index recipe pi) v best recipe ;;
          s' <- tr_keep recipe (state_of (Some prices) s) pi v ;; Ok (pair_of s')
        else
          rem' <- append_trader (fst s) (convert_category_index recipe pi) v ;;
          Ok (None, (rem', snd s))). cbn beta.
      apply sim_bind_lift. intros best. destruct (Qlt_bool 0 (dot best recipe) || (z && Qeq_bool (dot best recipe) 0))%bool.
      * apply sim_bind_lift. intros prices. apply K.
      * eapply sim_ext; [eapply sim_bind; [apply sim_left_append|intros u; apply sim_ret]|]. intros h V. cbn beta.
        destruct (append_trader _ _ _); reflexivity.
    + intros h V. cbn beta. cbn [bind fst snd]. reflexivity.
  - intros h V. cbn beta. destruct (get ps pi) as [v|e|]; cbn [bind]; [|reflexivity|reflexivity]. destruct lp as [pr|]; [reflexivity|].
    cbv zeta. cbn [state_of tr_remaining tr_traders]. destruct (best_containing_PS _ _ v) as [best|e|]; cbn [bind]; [|reflexivity|reflexivity].
    destruct (Qlt_bool 0 (dot best recipe) || (z && Qeq_bool (dot best recipe) 0))%bool.
    + destruct (calculate_prices _ v best recipe); reflexivity.
    + destruct (append_trader _ _ v); reflexivity.
Qed.

Lemma fold_pair : forall A (f : tr_state -> A -> result tr_state) l lp s,
  fold_result (fun st x => s' <- f (state_of (fst st) (snd st)) x ;; Ok (pair_of s')) l (lp, s) =
  s' <- fold_result f l (state_of lp s) ;; Ok (pair_of s').
Proof.
  intros A f. induction l as [|x l IH]; intros lp s; cbn [fold_result].
  - destruct s; reflexivity.
  - cbn [fst snd]. destruct (f (state_of lp s) x) as [[a b c]|e|]; cbn [bind]; [|reflexivity|reflexivity]. etransitivity; [apply IH|]. reflexivity.
Qed.

Lemma sim_ps : forall recipe z rem tra lp ps,
  sim (rem ++ tra) (two rem tra) (h_tr_ps recipe z rem tra lp ps)
    (fun s => s' <- tr_ps recipe z (state_of lp s) ps ;; Ok (pair_of s')).
Proof.
  intros. unfold h_tr_ps, tr_ps. eapply sim_ext; [apply sim_fold; intros; apply sim_pivot|]. intros h V. cbn beta.
  rewrite (fold_pair _ (tr_pivot recipe z ps)). reflexivity.
Qed.

Lemma sim_list_ps : forall recipe z rem tra lp l,
  sim (rem ++ tra) (two rem tra) (hfold (h_tr_ps recipe z rem tra) l lp)
    (fun s => s' <- fold_result (tr_ps recipe z) l (state_of lp s) ;; Ok (pair_of s')).
Proof.
  intros. eapply sim_ext; [apply sim_fold; intros; apply sim_ps|]. intros h V. cbn beta.
  rewrite (fold_pair _ (tr_ps recipe z)). reflexivity.
Qed.

Lemma sim_finish_right : forall A rem tra (g : list category -> result A),
  sim (rem ++ tra) (two rem tra) (hbind (hread_all tra) (fun cats => hbind (hlift (g cats)) (fun t => hret (t, tra))))
    (fun s => t <- g (snd s) ;; Ok ((t, tra), s)).
Proof.
  intros A rem tra g. eapply sim_ext; [apply sim_right; apply (sim_finish A tra g)|]. intros h V. cbn beta. cbn [two fst snd].
  destruct (g (deref h tra)); reflexivity.
Qed.

Lemma optimal_above : forall (h h1 : heap) (m : h_market), length h1 = length h + length m -> above h h1 (seq (length h) (length m)).
Proof. intros h h1 m L. apply fresh_seq. assumption. Qed.

Lemma beh_eq : forall A h0 h1 (p : prog (A * list ref)) res res', res = res' -> beh h0 h1 p res -> beh h0 h1 p res'.
Proof. intros A h0 h1 p res res' <- H. exact H. Qed.

Theorem trade_reduction_behaves : forall M it m recipe z h, valid h m ->
  behaves h (h_trade_reduction M it m recipe z) (with_cats tcats (trade_reduction_M M it (deref h m) recipe z)).
Proof.
  intros M it m recipe z h V. change (beh h h (h_trade_reduction M it m recipe z) (with_cats tcats (trade_reduction_M M it (deref h m) recipe z))).
  unfold h_trade_reduction, trade_reduction_M. rewrite deref_length.
  destruct (length recipe =? length m) eqn:E.
  2: { exists h, (Raise ValueError). split; [reflexivity|]. split; [apply preserved_refl|reflexivity]. }
  destruct (optimal_eq it m recipe true h V) as (h1 & r1 & E1 & P1 & L1 & F1).
  destruct r1 as [[deals rem]|e|].
  2: { rewrite F1. eapply beh_raise; eassumption. }
  2: { rewrite F1. eapply beh_timeout; eassumption. }
  destruct F1 as (F1 & Erem & L1'). assert (AB := optimal_above h h1 m L1'). rewrite <- Erem in AB. clear Erem L1 L1'.
  rewrite F1. cbn [bind]. eapply beh_bind; [exact E1|]. cbv beta iota.
  destruct (preserved_deref _ _ _ P1 V) as [V1 D1]. rewrite <- D1. clear D1 F1.
  destruct deals as [|d deals].
  - eapply beh_eq; [|eapply (beh_empty _ h h1 m rem _ (fun s => t <- new_trade (snd s) recipe (Some (repeat 0%Q (length recipe))) ;; Ok (t, s)));
      [assumption|assumption|assumption|]].
    + cbn [snd]. unfold with_cats. destruct (new_trade _ _ _) as [t|e|] eqn:T; cbn [bind fst snd]; [|reflexivity|reflexivity].
      rewrite (new_trade_cats _ _ _ _ T). reflexivity.
    + eapply sim_ext; [apply sim_finish_right|]. intros h0 V0. cbn beta. destruct (new_trade _ _ _); reflexivity.
  - set (K := fun list_ps rem' => s <- fold_result (tr_ps recipe z) list_ps (mkTR (add_dummies M rem') (empty_agent_categories (deref h m)) None) ;;
        t <- new_trade (tr_traders s) recipe (tr_prices s) ;; Ok (t, tcats t)).
    set (f := fun s => h0 <- get_highest_agents s recipe ;;
       match h0 with
       | Some (x :: l) => s' <- market_remove_highest s recipe ;; Ok ((x :: l) :: d :: deals, s')
       | _ => Ok (d :: deals, s)
       end).
    eapply beh_eq; [|].
    2: { eapply beh_bind; [unfold hread_all; rewrite (read_all_valid h1 rem (above_valid _ _ _ AB)); reflexivity|]. cbv beta.
      apply (beh_lift _ _ h h1 _ _ (fun o => x <- (match o with
       | Some (x :: l) => s' <- market_remove_highest (deref h1 rem) recipe ;; Ok ((x :: l) :: d :: deals, s')
       | _ => Ok (d :: deals, deref h1 rem)
       end) ;; K (fst x) (snd x))); [assumption|]. intros o Ho. cbv beta.
      apply (beh_sim _ _ h h1 rem (match o with
        | Some (x :: l) => hbind (h_market_remove_highest rem recipe) (fun _ => hret ((x :: l) :: d :: deals))
        | _ => hret (d :: deals)
        end) _ (fun s => match o with
          | Some (x :: l) => s' <- market_remove_highest s recipe ;; Ok ((x :: l) :: d :: deals, s')
          | _ => Ok (d :: deals, s)
          end) K); [assumption|assumption| |].
      - destruct o as [[|x l]|]; [apply sim_ret| |apply sim_ret].
        eapply sim_ext; [eapply sim_bind; [apply sim_market_remove_highest|intros u; apply sim_ret]|].
        intros h0 V0. cbn beta. destruct (market_remove_highest _ _); reflexivity.
      - intros h2 list_ps P2 AB2 _. clear f. eapply beh_eq; [|eapply (beh_sim _ _ h h2 rem _ _ _ (fun _ s =>
            s <- fold_result (tr_ps recipe z) list_ps (mkTR s (empty_agent_categories (deref h m)) None) ;;
            t <- new_trade (tr_traders s) recipe (tr_prices s) ;; Ok (t, tcats t)));
          [assumption|assumption|apply sim_add_dummies|]].
        + reflexivity.
        + intros h3 u P3 AB3 _. destruct (preserved_deref _ _ _ P3 V) as [V3 D3]. cbv beta.
          eapply beh_eq; [|eapply (beh_empty _ h h3 m rem _ (fun s =>
             s' <- fold_result (tr_ps recipe z) list_ps (state_of None s) ;; t <- new_trade (tr_traders s') recipe (tr_prices s') ;; Ok (t, snd (pair_of s'))));
            [assumption|assumption|assumption|]].
          * rewrite D3. unfold state_of. cbn [fst snd]. destruct (fold_result _ _ _) as [s'|e|]; cbn [bind]; [|reflexivity|reflexivity].
            destruct (new_trade _ _ _) as [t|e|] eqn:T; cbn [bind fst snd pair_of]; [|reflexivity|reflexivity].
            rewrite (new_trade_cats _ _ _ _ T). reflexivity.
          * eapply sim_ext; [eapply sim_bind; [apply sim_list_ps|]; intros lp; apply sim_finish_right|].
            intros h0 V0. cbn beta. destruct (fold_result _ _ _) as [s'|e|]; cbn [bind fst snd pair_of]; [|reflexivity|reflexivity].
            destruct (new_trade _ _ _); reflexivity. }
    unfold with_cats. destruct (get_highest_agents (deref h1 rem) recipe) as [o|e|]; cbn [bind]; [|reflexivity|reflexivity].
    destruct (preserved_deref _ _ _ P1 V) as [_ D1].
    destruct o as [[|x l]|]; [| |].
    + cbn [bind fst snd]. unfold K. rewrite D1. destruct (fold_result _ _ _); reflexivity.
    + destruct (market_remove_highest _ recipe); cbn [bind fst snd]; [|reflexivity|reflexivity]. unfold K. rewrite D1. destruct (fold_result _ _ _); reflexivity.
    + cbn [bind fst snd]. unfold K. rewrite D1. destruct (fold_result _ _ _); reflexivity.
Qed.

(** ** McAfee *)

Lemma sim_mcafee_ps : forall m n i ps,
  sim m (fun h => deref h m) (h_mcafee_add_ps i n ps m) (fun s => s' <- mcafee_add_ps i n ps s ;; Ok (tt, s')).
Proof.
  intros m. induction n as [|n IH]; intros i ps; cbn [h_mcafee_add_ps mcafee_add_ps].
  - eapply sim_ext; [apply sim_ret|]. reflexivity.
  - eapply sim_ext; [apply sim_bind_lift; intros v; eapply sim_bind; [apply sim_append_trader|intros u; apply IH]|].
    intros h V. cbn beta. destruct (get ps i) as [v|e|]; cbn [bind]; [|reflexivity|reflexivity].
    destruct (append_trader _ i v); reflexivity.
Qed.

Lemma sim_mcafee_all : forall m n l,
  sim m (fun h => deref h m) (hfor (fun ps => h_mcafee_add_ps 0 n ps m) l)
    (fun s => s' <- fold_result (fun t ps => mcafee_add_ps 0 n ps t) l s ;; Ok (tt, s')).
Proof.
  intros m n. induction l as [|ps l IH]; cbn [hfor fold_result].
  - eapply sim_ext; [apply sim_ret|]. reflexivity.
  - eapply sim_ext; [eapply sim_bind; [apply sim_mcafee_ps|intros u; exact IH]|].
    intros h V. cbn beta. destruct (mcafee_add_ps _ _ _ _); reflexivity.
Qed.

Theorem mcafee_behaves : forall M it m recipe heuristic h, valid h m ->
  behaves h (h_mcafee M it m recipe heuristic) (with_cats tcats (mcafee_M M it (deref h m) recipe heuristic)).
Proof.
  intros M it m recipe heu h V. change (beh h h (h_mcafee M it m recipe heu) (with_cats tcats (mcafee_M M it (deref h m) recipe heu))).
  unfold h_mcafee, mcafee_M. rewrite deref_length.
  destruct (negb (length recipe =? length m)).
  { exists h, (Raise ValueError). split; [reflexivity|]. split; [apply preserved_refl|reflexivity]. }
  destruct (negb (forallb _ recipe)).
  { exists h, (Raise ValueError). split; [reflexivity|]. split; [apply preserved_refl|reflexivity]. }
  destruct (optimal_eq it m recipe true h V) as (h1 & r1 & E1 & P1 & L1 & F1).
  destruct r1 as [[deals rem]|e|].
  2: { rewrite F1. eapply beh_raise; eassumption. }
  2: { rewrite F1. eapply beh_timeout; eassumption. }
  destruct F1 as (F1 & Erem & L1'). assert (AB := optimal_above h h1 m L1'). rewrite <- Erem in AB. clear Erem L1 L1'.
  rewrite F1. cbn [bind]. eapply beh_bind; [exact E1|]. cbv beta iota zeta. clear F1.
  set (candf := fun o : option (list Q) => if heu then match o with None => Raise TypeError | Some ps => c <- price_candidate ps ;; Ok (Some c) end else Ok None).
  set (K := fun cand : option Q => match deals with
    | [] => with_cats tcats (new_trade (empty_agent_categories (deref h m)) recipe (Some (repeat 0%Q (length m))))
    | last_positive :: others =>
        let accepted := match cand with Some c => is_price_good_for_ps c last_positive | None => false end in
        with_cats tcats (prices <- (if accepted then
                     match cand with
                     | Some c => Ok (map (fun x => if Qlt_bool x 0 then (c * (-1))%Q else (c * 1)%Q) (firstn (length m) last_positive))
                     | None => Raise TypeError
                     end
                   else Ok last_positive) ;;
        traders <- fold_result (fun t ps => mcafee_add_ps 0 (length m) ps t)
                     (if accepted then deals else others) (empty_agent_categories (deref h m)) ;;
        new_trade traders recipe (Some prices))
    end).
  eapply beh_eq; [|eapply (beh_sim _ _ h h1 rem _ _ _ (fun _ s => o <- get_highest_agents s recipe ;; cand <- candf o ;; K cand));
     [assumption|assumption|apply sim_add_dummies|]].
  - cbn [bind fst snd]. unfold with_cats. destruct (get_highest_agents _ recipe) as [o|e|]; cbn [bind]; [|reflexivity|reflexivity].
    unfold candf. destruct (if heu then _ else _) as [cand|e|]; cbn [bind]; [|reflexivity|reflexivity].
    unfold K. destruct deals; reflexivity.
  - intros h2 u P2 AB2 _. cbv beta.
    eapply beh_bind; [unfold hread_all; rewrite (read_all_valid h2 rem (above_valid _ _ _ AB2)); reflexivity|]. cbv beta.
    apply beh_lift; [assumption|]. intros o _. apply beh_lift; [assumption|]. intros cand _.
    destruct (preserved_deref _ _ _ P2 V) as [V2 D2]. unfold K. clear K candf. destruct deals as [|lp others].
    + eapply beh_eq; [|eapply (beh_empty _ h h2 m rem _ (fun s => t <- new_trade (snd s) recipe (Some (repeat 0%Q (length m))) ;; Ok (t, s)));
        [assumption|assumption|assumption|]].
      * cbn [snd]. rewrite D2. unfold with_cats. destruct (new_trade _ _ _) as [t|e|] eqn:T; cbn [bind fst snd]; [|reflexivity|reflexivity].
        rewrite (new_trade_cats _ _ _ _ T). reflexivity.
      * eapply sim_ext; [apply sim_finish_right|]. intros h0 V0. cbn beta. destruct (new_trade _ _ _); reflexivity.
    + cbv zeta. set (acc := match cand with Some c => is_price_good_for_ps c lp | None => false end).
      set (pr := if acc then match cand with Some c => Ok _ | None => _ end else _).
      set (l := if acc then lp :: others else others).
      eapply beh_eq; [|eapply (beh_empty _ h h2 m rem _ (fun s => prices <- pr ;;
          tr <- fold_result (fun t ps => mcafee_add_ps 0 (length m) ps t) l (snd s) ;;
          t <- new_trade tr recipe (Some prices) ;; Ok (t, (fst s, tr))));
        [assumption|assumption|assumption|]].
      * cbn [fst snd]. rewrite D2. unfold with_cats. destruct pr as [prices|e|]; cbn [bind]; [|reflexivity|reflexivity].
        destruct (fold_result _ _ _) as [tr|e|]; cbn [bind]; [|reflexivity|reflexivity].
        destruct (new_trade _ _ _) as [t|e|] eqn:T; cbn [bind fst snd]; [|reflexivity|reflexivity].
        rewrite (new_trade_cats _ _ _ _ T). reflexivity.
      * eapply sim_ext; [apply sim_bind_lift; intros prices; eapply sim_bind; [apply sim_right; apply sim_mcafee_all|]; intros u'; apply sim_finish_right|].
        intros h0 V0. cbn beta. destruct pr as [prices|e|]; cbn [bind]; [|reflexivity|reflexivity]. cbn [two fst snd].
        destruct (fold_result _ _ _) as [tr|e|]; cbn [bind fst snd]; [|reflexivity|reflexivity].
        destruct (new_trade _ _ _); reflexivity.
Qed.
