(** * The protocols on the heap (C52) *)

From Coq Require Import String List Arith Lia QArith Bool.
From Verif Require Import Base Model_Agents Model_Trade Model_Prices Model_Market Model_Ascending Model_TradeReduction Model_McAfee
  Model_RecipeTree Model_TreeAuction Model_IntPrices Model_IntTree Model_IntAuction Model_Heap Spec_Heap Proof_Market Proof_TA1 Proof_Heap.
Import ListNotations.
Open Scope nat_scope.

Lemma seq_above : forall n k, Forall (fun r => n <= r) (seq n k).
Proof. intros n k. rewrite Forall_forall. intros r Hr. apply in_seq in Hr. lia. Qed.

(** What is left after cloning: the new objects are consecutive. *)
Lemma after_clone : forall A m (p : h_market -> prog A) (f : list category -> result (A * list category)) h,
  valid h m -> let refs := seq (length h) (length m) in
  sim refs (fun h => deref h refs) (p refs) f ->
  exists h' r, hbind (h_clone_market m) p h = (h', r) /\ preserved h h' /\ length h' = length h + length m
    /\ f (clone_market (deref h m)) = attach r (deref h' refs).
Proof.
  intros A m p f h V refs H. rewrite (hbind_eq _ _ _ _ _ _ _ (h_clone_eq m h V)). fold refs.
  destruct (p refs (h ++ clone_market (deref h m))%list) as [h' r] eqn:E. exists h', r. split; [reflexivity|].
  assert (L : length (clone_market (deref h m)) = length m) by (unfold clone_market; rewrite map_length, deref_length; reflexivity).
  destruct (H (h ++ clone_market (deref h m))%list h' r (seq_NoDup _ _)) as [U F]; [apply valid_seq; symmetry; assumption|assumption|].
  split; [eapply preserved_untouched; [apply preserved_app|exact U|apply seq_above]|].
  split; [rewrite (proj1 U), app_length, L; reflexivity|].
  unfold refs in F at 1. rewrite deref_seq in F by (symmetry; assumption). exact F.
Qed.

Lemma fresh_seq : forall h h' k, length h' = length h + k -> fresh h h' (seq (length h) k).
Proof. intros h h' k L. split; [apply seq_NoDup|]. rewrite Forall_forall. intros r Hr. apply in_seq in Hr. lia. Qed.

Lemma optimal_eq : forall it m recipe z h, valid h m -> exists h' r, h_optimal_trade it m recipe z h = (h', r) /\ preserved h h'
  /\ length h <= length h'
  /\ match r with
     | Ok (deals, refs) => optimal_trade it (deref h m) recipe z = Ok (deals, deref h' refs) /\ refs = seq (length h) (length m)
         /\ length h' = length h + length m
     | Raise e => optimal_trade it (deref h m) recipe z = Raise e
     | Timeout => optimal_trade it (deref h m) recipe z = Timeout
     end.
Proof.
  intros it m recipe z h V. unfold h_optimal_trade, optimal_trade. rewrite deref_length.
  destruct (length recipe =? length m) eqn:E.
  - set (refs := seq (length h) (length m)).
    destruct (after_clone _ m (fun remaining => hbind (h_optimal_loop it remaining recipe z []) (fun deals => hret (sort_by Qsum deals, remaining)))
      (fun s => x <- optimal_loop it s recipe z [] ;; Ok ((sort_by Qsum (fst x), refs), snd x)) h V) as (h' & r & E1 & P & L & F).
    { eapply sim_ext; [eapply sim_bind; [apply sim_optimal_loop|intros deals; apply sim_ret]|]. intros h0 V0. reflexivity. }
    exists h', r. split; [exact E1|]. split; [assumption|]. split; [lia|].
    destruct (optimal_loop it (clone_market (deref h m)) recipe z []) as [x|e|]; cbn [bind fst snd] in *; destruct r as [[d rf]|e'|]; cbn [attach] in F; try discriminate.
    + injection F; intros F1 F2 F3. subst rf d. rewrite F1. auto.
    + injection F; intros ->. reflexivity.
    + reflexivity.
  - exists h, (Raise ValueError). split; [reflexivity|]. split; [apply preserved_refl|]. split; [lia|reflexivity].
Qed.

Theorem optimal_behaves : forall it m recipe z h, valid h m -> behaves h (h_optimal_trade it m recipe z) (optimal_trade it (deref h m) recipe z).
Proof.
  intros it m recipe z h V. destruct (optimal_eq it m recipe z h V) as (h' & r & E & P & L & F). exists h', r.
  split; [assumption|]. split; [assumption|]. destruct r as [[d refs]|e|]; [|assumption|assumption].
  destruct F as (F & -> & L'). split; [assumption|apply fresh_seq; assumption].
Qed.

(** ** The ascending auction *)

Lemma sim_timeout : forall S A B rs view (q : A -> prog B), sim rs view (hbind (hlift Timeout) q) (fun s : S => Timeout).
Proof. intros S A B rs view q h h' r ND V E. unfold hbind, hlift in E. injection E; intros <- <-. split; [apply untouched_refl|reflexivity]. Qed.

Lemma sim_bind_lift : forall S A B rs view (x : result A) (q : A -> prog B) (g : A -> S -> result (B * S)),
  (forall a, sim rs view (q a) (g a)) -> sim rs view (hbind (hlift x) q) (fun s => a <- x ;; g a s).
Proof. intros S A B rs view [a|e|] q g H; [apply sim_ok; apply H|apply sim_raise|apply sim_timeout]. Qed.

(** Removing the lowest agent of category [i] of a market. *)
Lemma sim_remove_lowest : forall m i, i < length m ->
  sim m (fun h => deref h m) (h_remove_lowest_agent (nth i m 0)) (fun s => c <- get s i ;; c' <- remove_lowest_agent c ;; Ok (tt, set_nth i c' s)).
Proof. intros m i H. apply (sim_modify m i remove_lowest_agent H). Qed.

Lemma sim_round_end : forall m i pv c, i < length m ->
  sim m (fun h => deref h m)
    (if csize c =? 0 then hret (true, pv)
     else
       hbind (hlift (lowest_agent_value c)) (fun low =>
       hbind (hlift (increase_price_up_to_balance pv i low 0)) (fun pv' =>
       match pv_status pv' with
       | Some STOPPED_AT_ZERO_SUM => hret (true, pv')
       | _ => hbind (h_remove_lowest_agent (nth i m 0)) (fun _ => hret (false, pv'))
       end)))
    (fun s =>
     if csize c =? 0 then Ok ((true, pv), s)
     else
       low <- lowest_agent_value c ;;
       pv' <- increase_price_up_to_balance pv i low 0 ;;
       match pv_status pv' with
       | Some STOPPED_AT_ZERO_SUM => Ok ((true, pv'), s)
       | _ => c2 <- get s i ;; c' <- remove_lowest_agent c2 ;; Ok ((false, pv'), set_nth i c' s)
       end).
Proof.
  intros m i pv c H. destruct (csize c =? 0); [apply sim_ret|]. apply sim_bind_lift. intros low. apply sim_bind_lift. intros pv'.
  assert (X : sim m (fun h => deref h m) (hbind (h_remove_lowest_agent (nth i m 0)) (fun _ => hret (false, pv')))
    (fun s => c2 <- get s i ;; c' <- remove_lowest_agent c2 ;; Ok ((false, pv'), set_nth i c' s))).
  { eapply sim_ext; [eapply sim_bind; [apply sim_remove_lowest; assumption|intros u; apply sim_ret]|]. intros h V. cbn beta.
    destruct (get (deref h m) i) as [c2|e|]; cbn [bind]; [|reflexivity|reflexivity]. destruct (remove_lowest_agent c2); reflexivity. }
  destruct (pv_status pv') as [[]|]; first [apply sim_ret|exact X].
Qed.

Lemma sim_round : forall m recipe pv,
  sim m (fun h => deref h m) (h_ascending_round recipe m pv)
    (fun s => x <- ascending_round recipe (s, pv) ;; Ok ((fst x, snd (snd x)), fst (snd x))).
Proof.
  intros m recipe pv. unfold h_ascending_round, ascending_round. eapply sim_ext.
  - eapply sim_bind; [apply sim_read_all, incl_refl|]. intros cats. apply sim_bind_lift. intros main.
    instantiate (1 := fun main s =>
       c <- get s main ;;
       if csize c =? 0 then Ok ((true, pv), s)
       else
         low <- lowest_agent_value c ;;
         pv' <- increase_price_up_to_balance pv main low 0 ;;
         match pv_status pv' with
         | Some STOPPED_AT_ZERO_SUM => Ok ((true, pv'), s)
         | _ => c2 <- get s main ;; c' <- remove_lowest_agent c2 ;; Ok ((false, pv'), set_nth main c' s)
         end).
    destruct (Nat.lt_ge_cases main (length m)) as [H|H].
    + rewrite (get_lt' _ _ _ 0) by assumption. apply sim_ok. eapply sim_ext; [eapply sim_bind; [apply sim_read; assumption|]; intros c; apply sim_round_end; assumption|].
      intros h V. cbn beta. destruct (get (deref h m) main) eqn:G; cbn [attach bind fst snd]; rewrite ?G; reflexivity.
    + rewrite get_ge by assumption. eapply sim_ext; [apply sim_raise|]. intros h V. cbn beta.
      rewrite get_ge by (rewrite deref_length; assumption). reflexivity.
  - intros h V. cbn beta. cbn [bind fst snd].
    destruct (argmax _ _) as [main|e|]; cbn [bind]; [|reflexivity|reflexivity].
    destruct (get (deref h m) main) as [c|e|] eqn:G; cbn [bind]; [|reflexivity|reflexivity].
    destruct (csize c =? 0); [reflexivity|]. destruct (lowest_agent_value c) as [low|e|]; cbn [bind]; [|reflexivity|reflexivity].
    destruct (increase_price_up_to_balance pv main low 0) as [pv'|e|]; cbn [bind]; [|reflexivity|reflexivity].
    destruct (pv_status pv') as [[]|]; try reflexivity; rewrite ?G; cbn [bind]; destruct (remove_lowest_agent c); reflexivity.
Qed.

Lemma sim_loop : forall fuel m recipe pv,
  sim m (fun h => deref h m) (h_ascending_loop fuel recipe m pv)
    (fun s => x <- ascending_loop fuel recipe (s, pv) ;; Ok (snd x, fst x)).
Proof.
  induction fuel as [|fuel IH]; intros m recipe pv; cbn [h_ascending_loop ascending_loop].
  - eapply sim_ext; [apply sim_lift|]. reflexivity.
  - eapply sim_ext.
    + eapply sim_bind; [apply sim_round|]. intros r.
      instantiate (1 := fun r s => if fst r then Ok (snd r, s) else x <- ascending_loop fuel recipe (s, snd r) ;; Ok (snd x, fst x)).
      cbn beta. destruct (fst r); [apply sim_ret|apply IH].
    + intros h V. cbn beta. destruct (ascending_round recipe (deref h m, pv)) as [[b [cats pv']]|e|]; cbn [bind fst snd]; try reflexivity.
      destruct b; reflexivity.
Qed.


Lemma preserved_deref : forall h h' m, preserved h h' -> valid h m -> valid h' m /\ deref h' m = deref h m.
Proof.
  intros h h' m P V. unfold valid in *. rewrite Forall_forall in V. split.
  - rewrite Forall_forall. intros r Hr. assert (X := V r Hr). apply nth_error_Some. rewrite (P r (nth r h (mkCat EmptyString []))); [discriminate|].
    apply nth_error_nth'. assumption.
  - unfold deref. apply map_ext_in. intros r Hr. assert (X := V r Hr). apply nth_error_nth. apply P. apply nth_error_nth'. assumption.
Qed.

Lemma preserved_length : forall h h', preserved h h' -> length h <= length h'.
Proof.
  intros h h' P. destruct (Nat.le_gt_cases (length h) (length h')) as [H|H]; [assumption|exfalso].
  assert (X := P (length h') (nth (length h') h (mkCat EmptyString [])) (nth_error_nth' h _ H)).
  assert (length h' < length h'); [|lia]. apply nth_error_Some. congruence.
Qed.

Lemma fresh_weaken : forall h h1 h2 refs, length h <= length h1 -> fresh h1 h2 refs -> fresh h h2 refs.
Proof. intros h h1 h2 refs L [A B]. split; [assumption|]. eapply Forall_impl; [|exact B]. cbn beta. intros. lia. Qed.

(** A program run after another one. *)
Lemma behaves_after : forall A h h1 (p : prog (A * list ref)) res, preserved h h1 -> behaves h1 p res ->
  exists h' r, p h1 = (h', r) /\ preserved h h' /\ match r with
       | Ok (a, refs) => res = Ok (a, deref h' refs) /\ fresh h h' refs
       | Raise e => res = Raise e
       | Timeout => res = Timeout
       end.
Proof.
  intros A h h1 p res P (h' & r & E & P' & F). exists h', r. split; [assumption|]. split; [eapply preserved_trans; eassumption|].
  destruct r as [[a refs]|e|]; [|assumption|assumption]. destruct F as [F1 F2]. split; [assumption|].
  eapply fresh_weaken; [apply preserved_length; exact P|assumption].
Qed.

(** The end of every auction: a trade is built from the objects. *)
Lemma sim_finish : forall A m (g : list category -> result A),
  sim m (fun h => deref h m) (hbind (hread_all m) (fun cats => hbind (hlift (g cats)) (fun t => hret (t, m))))
    (fun s => t <- g s ;; Ok ((t, m), s)).
Proof.
  intros A m g. eapply sim_ext; [eapply sim_bind; [apply sim_read_all, incl_refl|]; intros cats; eapply sim_bind; [apply sim_lift|]; intros t; apply sim_ret|].
  intros h V. cbn beta. cbn [bind fst snd]. destruct (g (deref h m)); reflexivity.
Qed.

Lemma attach_behaves : forall A m h (p : h_market -> prog (A * list ref)) (f : list category -> result (A * list category)),
  valid h m -> let refs := seq (length h) (length m) in
  sim refs (fun h => deref h refs) (p refs) (fun s => x <- f s ;; Ok ((fst x, refs), snd x)) ->
  behaves h (hbind (h_clone_market m) p) (f (clone_market (deref h m))).
Proof.
  intros A m h p f V refs H. destruct (after_clone _ m p _ h V H) as (h' & r & E & P & L & F). exists h', r. split; [assumption|]. split; [assumption|].
  fold refs in F. destruct (f (clone_market (deref h m))) as [[a cats]|e|]; cbn [bind fst snd] in F; destruct r as [[a' rf]|e'|]; cbn [attach] in F; try discriminate.
  - injection F; intros F1 F2 F3. rewrite <- F2, <- F3, F1. split; [reflexivity|]. apply fresh_seq. assumption.
  - injection F; intros ->. reflexivity.
  - reflexivity.
Qed.

Lemma behaves_bind : forall A B h (p : prog A) (q : A -> prog (B * list ref)) h1 a res, p h = (h1, Ok a) -> preserved h h1 ->
  behaves h1 (q a) res -> behaves h (hbind p q) res.
Proof.
  intros A B h p q h1 a res E P H. destruct (behaves_after _ _ _ _ _ P H) as (h' & r & E' & P' & F).
  exists h', r. split; [rewrite (hbind_eq _ _ _ _ _ _ _ E); assumption|auto].
Qed.

Lemma new_trade_cats : forall cats recipe prices t, new_trade cats recipe prices = Ok t -> tcats t = cats.
Proof. intros cats recipe prices t H. unfold new_trade in H. destruct (min_list _); [|discriminate]. injection H; intros <-. reflexivity. Qed.

Theorem ascending_behaves : forall M fuel it m recipe h, valid h m ->
  behaves h (h_ascending_auction M fuel it m recipe) (with_cats tcats (ascending_auction_M M fuel (deref h m) recipe)).
Proof.
  intros M fuel it m recipe h V. unfold h_ascending_auction, ascending_auction_M. rewrite deref_length.
  destruct (Nat.eqb_spec (length recipe) (length m)) as [E|E].
  2: { exists h, (Raise ValueError). split; [reflexivity|]. split; [apply preserved_refl|reflexivity]. }
  destruct (optimal_eq it m recipe true h V) as (h1 & r1 & E1 & P1 & L1 & F1).
  destruct (optimal_trade_spec it (deref h m) recipe true) as (k & EO & _); [rewrite deref_length; assumption|]. rewrite EO in F1.
  destruct r1 as [[deals refs]|e|]; [|discriminate|discriminate].
  destruct (preserved_deref _ _ _ P1 V) as [V1 D1]. eapply behaves_bind; [exact E1|exact P1|]. cbn beta. rewrite <- D1.
  set (f := fun s => x <- ascending_loop fuel recipe (s, new_price_vector recipe (- M)) ;; t <- new_trade (fst x) recipe (Some (pv_prices (snd x))) ;; Ok (t, fst x)).
  replace (with_cats tcats _) with (f (clone_market (deref h1 m))).
  - apply attach_behaves; [assumption|]. set (rf := seq _ _). eapply sim_ext.
    + eapply sim_bind; [apply sim_loop|]. intros pv. apply sim_finish.
    + intros h0 V0. unfold f. cbn beta. destruct (ascending_loop fuel recipe (deref h0 rf, new_price_vector recipe (- M))) as [x|e|]; cbn [bind fst snd]; [|reflexivity|reflexivity].
      destruct (new_trade (fst x) recipe (Some (pv_prices (snd x)))); reflexivity.
  - unfold f, with_cats, ascending_start. destruct (ascending_loop _ _ _) as [x|e|]; cbn [bind]; [|reflexivity|reflexivity].
    destruct (new_trade (fst x) recipe (Some (pv_prices (snd x)))) as [t|e|] eqn:T; cbn [bind]; [|reflexivity|reflexivity].
    rewrite (new_trade_cats _ _ _ _ T). reflexivity.
Qed.

(** ** The tree auctions *)

Lemma hbind_assoc : forall A B C (p : prog A) (q : A -> prog B) (k : B -> prog C) h,
  hbind (hbind p q) k h = hbind p (fun a => hbind (q a) k) h.
Proof. intros A B C p q k h. unfold hbind. destruct (p h) as [h1 [a|e|]]; reflexivity. Qed.

Lemma sim_eq : forall S A rs view (p q : prog A) (f : S -> result (A * S)), (forall h, p h = q h) -> sim rs view q f -> sim rs view p f.
Proof. intros S A rs view p q f E H h h' r ND V X. rewrite E in X. apply H; assumption. Qed.

Lemma sim_remove_beaten : forall m prices,
  sim m (fun h => deref h m) (h_remove_beaten m prices) (fun s => s' <- remove_beaten s prices ;; Ok (tt, s')).
Proof.
  induction m as [|r m IH]; intros prices; cbn [h_remove_beaten].
  - eapply sim_ext; [apply sim_ret|]. reflexivity.
  - destruct prices as [|p prices]; [eapply sim_ext; [apply sim_lift|]; reflexivity|].
    assert (S1 : sim1 r (hbind (hread r) (fun c => if 0 <? csize c then hbind (hlift (lowest_agent_value c)) (fun low =>
         if Qle_bool low p then h_remove_lowest_agent r else hret tt) else hret tt))
       (fun c => c' <- (if 0 <? csize c then low <- lowest_agent_value c ;; if Qle_bool low p then remove_lowest_agent c else Ok c else Ok c) ;; Ok (tt, c'))).
    { eapply sim1_ext; [eapply sim1_bind; [apply sim1_read|]; intros c|].
      - instantiate (1 := fun c c0 => if 0 <? csize c then low <- lowest_agent_value c ;; if Qle_bool low p then c' <- remove_lowest_agent c0 ;; Ok (tt, c') else Ok (tt, c0) else Ok (tt, c0)).
        cbn beta. destruct (0 <? csize c); [|apply sim1_ret].
        eapply sim1_ext; [eapply sim1_bind; [apply sim1_lift|]; intros low|].
        + instantiate (1 := fun low c0 => if Qle_bool low p then c' <- remove_lowest_agent c0 ;; Ok (tt, c') else Ok (tt, c0)). cbn beta.
          destruct (Qle_bool low p); [apply sim1_remove_lowest|apply sim1_ret].
        + intros c0. cbn beta. destruct (lowest_agent_value c); reflexivity.
      - intros c. cbn beta. cbn [bind fst snd]. destruct (0 <? csize c); [|reflexivity].
        destruct (lowest_agent_value c) as [low|e|]; cbn [bind]; [|reflexivity|reflexivity]. destruct (Qle_bool low p); reflexivity. }
    assert (S2 := sim_step _ _ r m _ (fun _ => h_remove_beaten m prices) _ _ S1 (fun _ => IH prices)).
    eapply sim_ext; [eapply sim_eq; [|exact S2]; intros h; symmetry; apply hbind_assoc|].
    intros h V. cbn [deref map remove_beaten]. fold (deref h m).
    destruct (if 0 <? csize _ then _ else _) as [c'|e|]; cbn [bind fst snd]; [|reflexivity|reflexivity].
    destruct (remove_beaten (deref h m) prices); reflexivity.
Qed.

Lemma sim_tree_round : forall M t m sp,
  sim m (fun h => deref h m) (h_tree_round M t m sp) (fun s => x <- tree_round M t (s, sp) ;; Ok ((fst x, snd (snd x)), fst (snd x))).
Proof.
  intros M t m sp. unfold h_tree_round, tree_round. eapply sim_ext; [eapply sim_bind; [apply sim_read_all, incl_refl|]; intros cats|].
  - instantiate (1 := fun cats s => match largest_categories cats t with
      | (_, combined_category_size, indices) =>
          if (combined_category_size =? 0)%nat then Ok ((true, sp), s)
          else
            increases <- planned_increases M cats indices ;;
            sp' <- increase_prices sp increases 0 ;;
            match sp_status sp' with
            | Some STOPPED_AT_ZERO_SUM => Ok ((true, sp'), s)
            | _ => s' <- remove_beaten s (map_category_index_to_price sp') ;; Ok ((false, sp'), s')
            end
      end). cbn beta.
    destruct (largest_categories cats t) as [[a b] l]. destruct (b =? 0); [apply sim_ret|].
    apply sim_bind_lift. intros incs. apply sim_bind_lift. intros sp'.
    assert (X : sim m (fun h => deref h m) (hbind (h_remove_beaten m (map_category_index_to_price sp')) (fun _ => hret (false, sp')))
       (fun s => s' <- remove_beaten s (map_category_index_to_price sp') ;; Ok ((false, sp'), s'))).
    { eapply sim_ext; [eapply sim_bind; [apply sim_remove_beaten|intros u; apply sim_ret]|]. intros h V. cbn beta.
      destruct (remove_beaten _ _); reflexivity. }
    destruct (sp_status sp') as [[]|]; first [apply sim_ret|exact X].
  - intros h V. cbn beta. cbn [bind fst snd]. destruct (largest_categories (deref h m) t) as [[a b] l]. destruct (b =? 0); [reflexivity|].
    destruct (planned_increases M (deref h m) l) as [incs|e|]; cbn [bind]; [|reflexivity|reflexivity].
    destruct (increase_prices sp incs 0) as [sp'|e|]; cbn [bind]; [|reflexivity|reflexivity].
    destruct (sp_status sp') as [[]|]; try reflexivity; destruct (remove_beaten (deref h m) _); reflexivity.
Qed.

Lemma sim_tree_loop : forall M fuel t m sp,
  sim m (fun h => deref h m) (h_tree_loop M fuel t m sp) (fun s => x <- tree_loop M fuel t (s, sp) ;; Ok (snd x, fst x)).
Proof.
  intros M. induction fuel as [|fuel IH]; intros t m sp; cbn [h_tree_loop tree_loop].
  - eapply sim_ext; [apply sim_lift|]. reflexivity.
  - eapply sim_ext.
    + eapply sim_bind; [apply sim_tree_round|]. intros r.
      instantiate (1 := fun r s => if fst r then Ok (snd r, s) else x <- tree_loop M fuel t (s, snd r) ;; Ok (snd x, fst x)).
      cbn beta. destruct (fst r); [apply sim_ret|apply IH].
    + intros h V. cbn beta. destruct (tree_round M t (deref h m, sp)) as [[b [cats sp']]|e|]; cbn [bind fst snd]; try reflexivity.
      destruct b; reflexivity.
Qed.

Lemma tree_trade_cats : forall cats t prices r, new_tree_trade cats t prices = Ok r -> tt_cats r = cats.
Proof. intros cats t prices r H. unfold new_tree_trade in H. apply bind_Ok in H. destruct H as (x & _ & H). injection H; intros <-. reflexivity. Qed.

Theorem tree_behaves : forall M p0 fuel m struct h, valid h m ->
  behaves h (h_tree_auction M p0 fuel m struct) (with_cats tt_cats (tree_auction M p0 fuel (deref h m) struct)).
Proof.
  intros M p0 fuel m struct h V. unfold h_tree_auction, tree_auction.
  set (f := fun cats => t <- new_tree cats struct ;; rs <- recipes (length cats) t ;; _ <- tree_optimal_trade cats t ;; sp <- new_sim_prices rs p0 ;;
    x <- tree_loop M fuel t (cats, sp) ;; r <- new_tree_trade (fst x) t (map_category_index_to_price (snd x)) ;; Ok (r, fst x)).
  replace (with_cats tt_cats _) with (f (clone_market (deref h m))).
  - apply attach_behaves; [assumption|]. set (rf := seq _ _). eapply sim_ext.
    + eapply sim_bind; [apply sim_read_all, incl_refl|]. intros cats. apply sim_bind_lift. intros t. apply sim_bind_lift. intros rs.
      apply sim_bind_lift. intros u. apply sim_bind_lift. intros sp. eapply sim_bind; [apply sim_tree_loop|]. intros sp'. apply sim_finish.
    + intros h0 V0. unfold f. cbn beta. cbn [bind fst snd].
      destruct (new_tree (deref h0 rf) struct) as [t|e|]; cbn [bind]; [|reflexivity|reflexivity].
      destruct (recipes (length (deref h0 rf)) t) as [rs|e|]; cbn [bind]; [|reflexivity|reflexivity].
      destruct (tree_optimal_trade (deref h0 rf) t) as [u|e|]; cbn [bind]; [|reflexivity|reflexivity].
      destruct (new_sim_prices rs p0) as [sp|e|]; cbn [bind]; [|reflexivity|reflexivity].
      destruct (tree_loop M fuel t (deref h0 rf, sp)) as [x|e|]; cbn [bind fst snd]; [|reflexivity|reflexivity].
      destruct (new_tree_trade _ _ _); reflexivity.
  - unfold f, with_cats.
      destruct (new_tree (clone_market (deref h m)) struct) as [t|e|]; cbn [bind]; [|reflexivity|reflexivity].
      destruct (recipes _ t) as [rs|e|]; cbn [bind]; [|reflexivity|reflexivity].
      destruct (tree_optimal_trade _ t) as [u|e|]; cbn [bind]; [|reflexivity|reflexivity].
      destruct (new_sim_prices rs p0) as [sp|e|]; cbn [bind]; [|reflexivity|reflexivity].
      destruct (tree_loop M fuel t _) as [x|e|]; cbn [bind fst snd]; [|reflexivity|reflexivity].
      destruct (new_tree_trade _ _ _) as [r|e|] eqn:T; cbn [bind]; [|reflexivity|reflexivity].
      rewrite (tree_trade_cats _ _ _ _ T). reflexivity.
Qed.
