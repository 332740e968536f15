(** * The heap models refine the functional ones and preserve the caller's objects (C52) *)

From Coq Require Import String List Arith Lia QArith Bool.
From Verif Require Import Base Model_Agents Model_Trade Model_Prices Model_Market Model_Ascending Model_TradeReduction Model_McAfee
  Model_RecipeTree Model_TreeAuction Model_IntPrices Model_IntTree Model_IntAuction Model_Heap Spec_Heap Proof_TA1.
Import ListNotations.
Open Scope nat_scope.

Definition untouched (rs : list ref) (h h' : heap) : Prop :=
  length h' = length h /\ forall a, ~ In a rs -> nth_error h' a = nth_error h a.

Definition attach {A S} (r : result A) (s : S) : result (A * S) :=
  match r with Ok a => Ok (a, s) | Raise e => Raise e | Timeout => Timeout end.

(** A program that touches only the objects [rs], of which the functional program [f] sees the part [view]. *)
Definition sim {S A} (rs : list ref) (view : heap -> S) (p : prog A) (f : S -> result (A * S)) : Prop :=
  forall h h' r, NoDup rs -> valid h rs -> p h = (h', r) -> untouched rs h h' /\ f (view h) = attach r (view h').

Lemma untouched_refl : forall rs h, untouched rs h h.
Proof. intros. split; auto. Qed.

Lemma untouched_trans : forall rs a b c, untouched rs a b -> untouched rs b c -> untouched rs a c.
Proof. intros rs a b c [L1 H1] [L2 H2]. split; [congruence|]. intros x Hx. rewrite H2, H1 by assumption. reflexivity. Qed.

Lemma untouched_incl : forall rs rs' a b, incl rs rs' -> untouched rs a b -> untouched rs' a b.
Proof. intros rs rs' a b I [L H]. split; [assumption|]. intros x Hx. apply H. intros X. apply Hx. apply I. assumption. Qed.

Lemma valid_untouched : forall rs rs' h h', untouched rs h h' -> valid h rs' -> valid h' rs'.
Proof. intros rs rs' h h' [L _] V. unfold valid in *. rewrite L. assumption. Qed.

Lemma sim_bind : forall S A B rs view (p : prog A) (q : A -> prog B) (f : S -> result (A * S)) g,
  sim rs view p f -> (forall a, sim rs view (q a) (g a)) -> sim rs view (hbind p q) (fun s => x <- f s ;; g (fst x) (snd x)).
Proof.
  intros S A B rs view p q f g Hp Hq h h' r ND V E. unfold hbind in E. destruct (p h) as [h1 r1] eqn:E1.
  destruct (Hp _ _ _ ND V E1) as [U1 F1]. rewrite F1. destruct r1 as [a|e|]; cbn [attach bind fst snd].
  - destruct (Hq a h1 h' r ND (valid_untouched _ _ _ _ U1 V) E) as [U2 F2]. split; [eapply untouched_trans; eassumption|assumption].
  - injection E; intros <- <-. auto.
  - injection E; intros <- <-. auto.
Qed.

Lemma sim_ext : forall S A rs view (p : prog A) (f g : S -> result (A * S)), sim rs view p f ->
  (forall h, valid h rs -> f (view h) = g (view h)) -> sim rs view p g.
Proof. intros S A rs view p f g H E h h' r ND V X. destruct (H _ _ _ ND V X) as [U F]. split; [assumption|]. rewrite <- E; assumption. Qed.

Lemma sim_lift : forall S A rs view (r : result A), sim rs view (hlift r) (fun s : S => attach r s).
Proof. intros S A rs view r h h' r' ND V E. injection E; intros <- <-. split; [apply untouched_refl|reflexivity]. Qed.

Lemma sim_ret : forall S A rs view (a : A), sim rs view (hret a) (fun s : S => Ok (a, s)).
Proof. intros. apply (sim_lift S A rs view (Ok a)). Qed.

Lemma get_valid : forall h r, r < length h -> get h r = Ok (nth r h (mkCat EmptyString [])).
Proof. intros h r H. apply get_Ok. apply nth_error_nth'. assumption. Qed.

Lemma read_all_valid : forall h m, valid h m -> map_result (get h) m = Ok (deref h m).
Proof.
  intros h m V. unfold deref. apply map_result_ok_all. unfold valid in V. rewrite Forall_forall in V. intros r Hr. apply get_valid. auto.
Qed.

Lemma sim_read_all : forall rs m, incl m rs -> sim rs (fun h => deref h m) (hread_all m) (fun s => Ok (s, s)).
Proof.
  intros rs m I h h' r ND V E. unfold hread_all in E. injection E; intros <- <-. split; [apply untouched_refl|].
  rewrite read_all_valid; [reflexivity|]. unfold valid in *. rewrite Forall_forall in *. auto.
Qed.

Lemma deref_nth : forall h m i, i < length m -> nth i (deref h m) (mkCat EmptyString []) = nth (nth i m 0) h (mkCat EmptyString []).
Proof.
  intros h m. unfold deref. induction m as [|r m IH]; intros [|i] H; simpl in *; try lia; [reflexivity|]. apply IH. lia.
Qed.

Lemma deref_length : forall h m, length (deref h m) = length m.
Proof. intros. apply map_length. Qed.

Lemma valid_nth : forall h m i, valid h m -> i < length m -> nth i m 0 < length h.
Proof. intros h m i V H. unfold valid in V. rewrite Forall_forall in V. apply V. apply nth_In. assumption. Qed.

Lemma get_lt' : forall A (l : list A) i d, i < length l -> get l i = Ok (nth i l d).
Proof. intros. apply get_Ok. apply nth_error_nth'. assumption. Qed.

Lemma sim_read : forall m i, i < length m -> sim m (fun h => deref h m) (hread (nth i m 0)) (fun s => attach (get s i) s).
Proof.
  intros m i H h h' r ND V E. unfold hread in E. injection E; intros <- <-. split; [apply untouched_refl|].
  rewrite (get_valid h (nth i m 0)) by (apply valid_nth; assumption).
  rewrite (get_lt' _ _ _ (mkCat EmptyString [])) by (rewrite deref_length; assumption). rewrite deref_nth by assumption. reflexivity.
Qed.

Lemma deref_write : forall h m i c, NoDup m -> valid h m -> i < length m ->
  deref (set_nth (nth i m 0) c h) m = set_nth i c (deref h m).
Proof.
  intros h m i c ND V H. apply nth_ext with (d := mkCat EmptyString []) (d' := mkCat EmptyString []).
  - rewrite set_nth_length, !deref_length. reflexivity.
  - intros j Hj. rewrite deref_length in Hj. rewrite deref_nth by assumption. destruct (Nat.eq_dec j i) as [->|N].
    + rewrite !nth_set_nth_same; [reflexivity|rewrite deref_length; assumption|apply valid_nth; assumption].
    + rewrite (nth_set_nth_other _ i j) by congruence. rewrite nth_set_nth_other; [rewrite deref_nth by assumption; reflexivity|].
      intros X. apply N. symmetry. eapply (proj1 (NoDup_nth m 0)); eassumption.
Qed.

Lemma sim_write : forall m i c, i < length m -> sim m (fun h => deref h m) (hwrite (nth i m 0) c) (fun s => Ok (tt, set_nth i c s)).
Proof.
  intros m i c H h h' r ND V E. unfold hwrite in E. injection E; intros <- <-. split.
  - split; [apply set_nth_length|]. intros a Ha. apply set_nth_other. intros <-. apply Ha. apply nth_In. assumption.
  - rewrite deref_write by assumption. reflexivity.
Qed.

(** Frame rules. *)
Lemma deref_untouched : forall rs m h h', untouched rs h h' -> (forall r, In r m -> ~ In r rs) -> deref h' m = deref h m.
Proof.
  intros rs m h h' [L U] D. unfold deref. apply map_ext_in. intros r Hr. specialize (U r (D r Hr)).
  rewrite <- !nth_default_eq. unfold nth_default. rewrite U. reflexivity.
Qed.

Lemma NoDup_app_l : forall A (a b : list A), NoDup (a ++ b) -> NoDup a.
Proof. intros A a b H. induction a; [constructor|]. inversion H; subst. constructor; [rewrite in_app_iff in H2; tauto|auto]. Qed.
Lemma NoDup_app_r : forall A (a b : list A), NoDup (a ++ b) -> NoDup b.
Proof. intros A a b H. induction a; [assumption|]. inversion H; auto. Qed.
Lemma NoDup_app_d : forall A (a b : list A) x, NoDup (a ++ b) -> In x a -> ~ In x b.
Proof. intros A a b x H. induction a; intros Ha; [destruct Ha|]. inversion H; subst. rewrite in_app_iff in H2. destruct Ha as [<-|Ha]; [tauto|auto]. Qed.

Definition two (a b : list ref) (h : heap) : list category * list category := (deref h a, deref h b).

Lemma sim_left : forall A a b (p : prog A) f, sim a (fun h => deref h a) p f ->
  sim (a ++ b) (two a b) p (fun s => x <- f (fst s) ;; Ok (fst x, (snd x, snd s))).
Proof.
  intros A a b p f H h h' r ND V E. unfold valid in V. apply Forall_app in V. destruct V as [V1 V2].
  destruct (H _ _ _ (NoDup_app_l _ _ _ ND) V1 E) as [U F]. split; [eapply untouched_incl; [|exact U]; apply incl_appl, incl_refl|].
  unfold two. cbn [fst snd]. rewrite F. rewrite (deref_untouched a b h h' U).
  - destruct r; reflexivity.
  - intros x Hx Ha. eapply NoDup_app_d; eassumption.
Qed.

Lemma sim_right : forall A a b (p : prog A) f, sim b (fun h => deref h b) p f ->
  sim (a ++ b) (two a b) p (fun s => x <- f (snd s) ;; Ok (fst x, (fst s, snd x))).
Proof.
  intros A a b p f H h h' r ND V E. unfold valid in V. apply Forall_app in V. destruct V as [V1 V2].
  destruct (H _ _ _ (NoDup_app_r _ _ _ ND) V2 E) as [U F]. split; [eapply untouched_incl; [|exact U]; apply incl_appr, incl_refl|].
  unfold two. cbn [fst snd]. rewrite F. rewrite (deref_untouched b a h h' U).
  - destruct r; reflexivity.
  - intros x Ha Hx. eapply NoDup_app_d; eassumption.
Qed.

Lemma sim_cons : forall A r m (p : prog A) f g, sim ([r] ++ m) (two [r] m) p f ->
  (forall c cats, g (c :: cats) = x <- f ([c], cats) ;; Ok (fst x, hd c (fst (snd x)) :: snd (snd x))) ->
  sim (r :: m) (fun h => deref h (r :: m)) p g.
Proof.
  intros A r m p f g H E h h' x ND V X. destruct (H _ _ _ ND V X) as [U F]. split; [assumption|].
  cbn [deref map]. change (map (fun r0 => nth r0 h (mkCat EmptyString [])) m) with (deref h m). rewrite E.
  unfold two in F. cbn [deref map] in F. change (map (fun r0 => nth r0 h (mkCat EmptyString [])) m) with (deref h m) in F. rewrite F.
  destruct x; reflexivity.
Qed.

(** ** Methods of a category *)

Definition on_cat {A} (i : nat) (f : category -> result (A * category)) (s : list category) : result (A * list category) :=
  c <- get s i ;; x <- f c ;; Ok (fst x, set_nth i (snd x) s).

Lemma sim_modify : forall m i (g : category -> result category), i < length m ->
  sim m (fun h => deref h m) (hbind (hread (nth i m 0)) (fun c => hbind (hlift (g c)) (fun c' => hwrite (nth i m 0) c')))
    (fun s => c <- get s i ;; c' <- g c ;; Ok (tt, set_nth i c' s)).
Proof.
  intros m i g H. eapply sim_ext.
  - eapply sim_bind; [apply sim_read; assumption|]. intros c. eapply sim_bind; [apply sim_lift|]. intros c'. apply sim_write. assumption.
  - intros h V. cbn beta. destruct (get (deref h m) i) as [c|e|]; cbn [attach bind fst snd]; [|reflexivity|reflexivity].
    destruct (g c); reflexivity.
Qed.

Lemma sim_append : forall m i v, i < length m ->
  sim m (fun h => deref h m) (h_append (nth i m 0) v) (fun s => c <- get s i ;; Ok (tt, set_nth i (append c v) s)).
Proof.
  intros m i v H. eapply sim_ext.
  - eapply sim_bind; [apply sim_read; assumption|]. intros c. apply (sim_write m i (append c v)). assumption.
  - intros h V. cbn beta. destruct (get (deref h m) i) as [c|e|]; reflexivity.
Qed.

Lemma sim_ok : forall S A B rs view (a : A) (q : A -> prog B) (g : S -> result (B * S)), sim rs view (q a) g -> sim rs view (hbind (hlift (Ok a)) q) g.
Proof. intros S A B rs view a q g H. exact H. Qed.

Lemma sim_raise : forall S A B rs view e (q : A -> prog B), sim rs view (hbind (hlift (Raise e)) q) (fun s : S => Raise e).
Proof. intros S A B rs view e q h h' r ND V E. unfold hbind, hlift in E. injection E; intros <- <-. split; [apply untouched_refl|reflexivity]. Qed.

Lemma get_ge : forall A (l : list A) i, length l <= i -> get l i = Raise IndexError.
Proof. intros A l i H. unfold get. rewrite (proj2 (nth_error_None l i)) by assumption. reflexivity. Qed.

Lemma sim_append_trader : forall m i v,
  sim m (fun h => deref h m) (h_append_trader m i v) (fun s => s' <- append_trader s i v ;; Ok (tt, s')).
Proof.
  intros m i v. unfold h_append_trader, append_trader. destruct (Nat.lt_ge_cases i (length m)) as [H|H].
  - rewrite (get_lt' _ _ _ 0) by assumption. apply sim_ok. eapply sim_ext; [apply (sim_append m i v H)|].
    intros h V. cbn beta. destruct (get (deref h m) i); reflexivity.
  - rewrite (get_ge _ m) by assumption. eapply sim_ext; [apply sim_raise|]. intros h V. cbn beta.
    rewrite get_ge by (rewrite deref_length; assumption). reflexivity.
Qed.

(** A program on the single object [r]. *)
Definition sim1 {A} (r : ref) (p : prog A) (f : category -> result (A * category)) : Prop :=
  sim [r] (fun h => deref h [r]) p (fun s => match s with c :: _ => x <- f c ;; Ok (fst x, [snd x]) | [] => Raise IndexError end).

Lemma sim1_modify : forall r g, sim1 r (hbind (hread r) (fun c => hbind (hlift (g c)) (fun c' => hwrite r c'))) (fun c => c' <- g c ;; Ok (tt, c')).
Proof.
  intros r g. unfold sim1. eapply sim_ext; [apply (sim_modify [r] 0 g); simpl; lia|].
  intros h V. cbn. destruct (g _); reflexivity.
Qed.

Lemma sim1_bind : forall A B r (p : prog A) (q : A -> prog B) f g, sim1 r p f -> (forall a, sim1 r (q a) (g a)) ->
  sim1 r (hbind p q) (fun c => x <- f c ;; g (fst x) (snd x)).
Proof.
  intros A B r p q f g Hp Hq. unfold sim1 in *. eapply sim_ext; [eapply sim_bind; [exact Hp|exact Hq]|].
  intros h V. cbn [deref map]. destruct (f _) as [x|e|]; reflexivity.
Qed.

Lemma sim1_ext : forall A r (p : prog A) f g, sim1 r p f -> (forall c, f c = g c) -> sim1 r p g.
Proof. intros A r p f g H E. unfold sim1 in *. eapply sim_ext; [exact H|]. intros h V. cbn [deref map]. rewrite E. reflexivity. Qed.

Lemma sim1_ret : forall A r (a : A), sim1 r (hret a) (fun c => Ok (a, c)).
Proof. intros A r a. unfold sim1. eapply sim_ext; [apply sim_ret|]. intros h V. reflexivity. Qed.

Lemma sim1_lift : forall A r (x : result A), sim1 r (hlift x) (fun c => attach x c).
Proof. intros A r x. unfold sim1. eapply sim_ext; [apply sim_lift|]. intros h V. cbn. destruct x; reflexivity. Qed.

Lemma sim1_read : forall r, sim1 r (hread r) (fun c => Ok (c, c)).
Proof. intros r. unfold sim1. eapply sim_ext; [apply (sim_read [r] 0); simpl; lia|]. intros h V. reflexivity. Qed.

Lemma sim1_remove_highest : forall r n, sim1 r (h_remove_highest_agents r n) (fun c => c' <- remove_highest_agents c n ;; Ok (tt, c')).
Proof.
  intros r. induction n as [|n IH]; cbn [h_remove_highest_agents remove_highest_agents].
  - eapply sim1_ext; [apply sim1_ret|reflexivity].
  - eapply sim1_ext; [eapply sim1_bind; [apply sim1_modify|intros u; exact IH]|].
    intros c. cbn beta. destruct (remove_highest_agent c); reflexivity.
Qed.

Lemma sim1_remove_lowest : forall r, sim1 r (h_remove_lowest_agent r) (fun c => c' <- remove_lowest_agent c ;; Ok (tt, c')).
Proof. intros r. apply sim1_modify. Qed.

Lemma sim1_append : forall r v, sim1 r (h_append r v) (fun c => Ok (tt, append c v)).
Proof.
  intros r v. unfold sim1. eapply sim_ext; [apply (sim_append [r] 0 v); simpl; lia|]. intros h V. reflexivity.
Qed.

(** A program on the first object followed by one on the others. *)
Lemma sim_step : forall A B r m (p : prog A) (q : A -> prog B) f g, sim1 r p f -> (forall a, sim m (fun h => deref h m) (q a) (g a)) ->
  sim (r :: m) (fun h => deref h (r :: m)) (hbind p q)
    (fun s => match s with
              | c :: cats => x <- f c ;; y <- g (fst x) cats ;; Ok (fst y, snd x :: snd y)
              | [] => Raise IndexError
              end).
Proof.
  intros A B r m p q f g Hp Hq. eapply sim_cons.
  - eapply sim_bind; [apply (sim_left _ [r] m _ _ Hp)|]. intros a. apply (sim_right _ [r] m _ _ (Hq a)).
  - intros c cats. cbn [fst snd]. destruct (f c) as [x|e|]; cbn [bind fst snd]; [|reflexivity|reflexivity].
    destruct (g (fst x) cats) as [y|e|]; reflexivity.
Qed.

Lemma sim_nil : forall A (a : A), sim [] (fun h => deref h []) (hret a) (fun s => Ok (a, s)).
Proof. intros. apply sim_ret. Qed.

(** ** Methods of a market *)

Lemma sim_market_remove_highest : forall m recipe,
  sim m (fun h => deref h m) (h_market_remove_highest m recipe) (fun s => s' <- market_remove_highest s recipe ;; Ok (tt, s')).
Proof.
  induction m as [|r m IH]; intros recipe; cbn [h_market_remove_highest].
  - eapply sim_ext; [apply sim_ret|]. reflexivity.
  - destruct recipe as [|k recipe].
    + eapply sim_ext; [apply sim_lift|]. reflexivity.
    + eapply sim_ext; [apply sim_step; [apply sim1_remove_highest|intros u; apply (IH recipe)]|].
      intros h V. cbn [deref map market_remove_highest].
      destruct (remove_highest_agents _ k) as [c|e|]; cbn [bind fst snd]; [|reflexivity|reflexivity].
      fold (deref h m). destruct (market_remove_highest (deref h m) recipe); reflexivity.
Qed.

Lemma sim_optimal_loop : forall it m recipe z acc,
  sim m (fun h => deref h m) (h_optimal_loop it m recipe z acc) (fun s => optimal_loop it s recipe z acc).
Proof.
  induction it as [|it IH]; intros m recipe z acc; cbn [h_optimal_loop optimal_loop]; [apply sim_ret|].
  eapply sim_ext.
  - eapply sim_bind; [apply sim_read_all, incl_refl|]. intros cats. eapply sim_bind; [apply sim_lift|]. intros [ps|].
    + instantiate (1 := fun o s => match o with None => Ok (acc, s) | Some ps =>
        if (Qlt_bool (Qsum ps) 0 || (Qeq_bool (Qsum ps) 0 && negb z))%bool then Ok (acc, s)
        else s' <- market_remove_highest s recipe ;; optimal_loop it s' recipe z (acc ++ [ps])%list end).
      cbv beta iota zeta. destruct (Qlt_bool (Qsum ps) 0 || (Qeq_bool (Qsum ps) 0 && negb z))%bool; [apply sim_ret|].
      eapply sim_ext; [eapply sim_bind; [apply sim_market_remove_highest|intros u; apply IH]|].
      intros h V. cbn beta. destruct (market_remove_highest (deref h m) recipe); reflexivity.
    + cbv beta iota. apply sim_ret.
  - intros h V. cbn beta. cbn [bind fst snd]. destruct (get_highest_agents (deref h m) recipe) as [[ps|]|e|]; reflexivity.
Qed.

(** ** Allocation *)

Lemma hbind_eq : forall A B (p : prog A) (f : A -> prog B) h h' a, p h = (h', Ok a) -> hbind p f h = f a h'.
Proof. intros A B p f h h' a E. unfold hbind. rewrite E. reflexivity. Qed.

Lemma map_alloc : forall (g : category -> category) m h, valid h m ->
  hmap (fun r => hbind (hread r) (fun c => hnew (g c))) m h = ((h ++ map g (deref h m))%list, Ok (seq (length h) (length m))).
Proof.
  intros g. induction m as [|r m IH]; intros h V; cbn [hmap].
  - cbn. rewrite app_nil_r. reflexivity.
  - inversion V; subst. assert (V' : valid (h ++ [g (nth r h (mkCat EmptyString []))]) m).
    { unfold valid in *. rewrite Forall_forall in *. intros x Hx. rewrite app_length. specialize (H2 x Hx). lia. }
    assert (D : deref (h ++ [g (nth r h (mkCat EmptyString []))]) m = deref h m).
    { unfold deref. apply map_ext_in. intros x Hx. unfold valid in H2. rewrite Forall_forall in H2. rewrite app_nth1 by auto. reflexivity. }
    rewrite (hbind_eq _ _ _ _ h (h ++ [g (nth r h (mkCat EmptyString []))])%list (length h)).
    2: { rewrite (hbind_eq _ _ _ _ h h (nth r h (mkCat EmptyString []))); [reflexivity|]. unfold hread. rewrite get_valid by assumption. reflexivity. }
    rewrite (hbind_eq _ _ _ _ _ _ _ (IH _ V')). unfold hret, hlift. rewrite D, <- app_assoc, app_length. cbn [length seq]. rewrite Nat.add_1_r.
    reflexivity.
Qed.

Lemma h_clone_eq : forall m h, valid h m -> h_clone_market m h = ((h ++ clone_market (deref h m))%list, Ok (seq (length h) (length m))).
Proof. intros m h V. apply (map_alloc (fun c => new_category (cname c) (cvalues c)) m h V). Qed.

Lemma h_empty_eq : forall m h, valid h m ->
  h_empty_agent_categories m h = ((h ++ empty_agent_categories (deref h m))%list, Ok (seq (length h) (length m))).
Proof. intros m h V. apply (map_alloc (fun c => new_category (cname c) []) m h V). Qed.

Lemma valid_seq : forall h l k, k = length l -> valid (h ++ l) (seq (length h) k).
Proof. intros h l k ->. unfold valid. rewrite Forall_forall. intros r Hr. apply in_seq in Hr. rewrite app_length. lia. Qed.

Lemma deref_seq : forall h l k, k = length l -> deref (h ++ l) (seq (length h) k) = l.
Proof.
  intros h l k ->. revert h. induction l as [|c l IH]; intros h; [reflexivity|]. cbn [length seq deref map].
  rewrite app_nth2 by lia. rewrite Nat.sub_diag. cbn [nth]. f_equal. specialize (IH (h ++ [c])%list).
  rewrite app_length, <- app_assoc in IH. cbn [length app] in IH. rewrite Nat.add_1_r in IH. exact IH.
Qed.

Lemma preserved_refl : forall h, preserved h h.
Proof. intros h r c H. assumption. Qed.
Lemma preserved_trans : forall a b c, preserved a b -> preserved b c -> preserved a c.
Proof. intros a b c H1 H2 r x H. auto. Qed.
Lemma preserved_app : forall h l, preserved h (h ++ l).
Proof. intros h l r c H. rewrite nth_error_app1; [assumption|]. apply nth_error_Some. congruence. Qed.
Lemma preserved_untouched : forall h0 h h' rs, preserved h0 h -> untouched rs h h' -> Forall (fun r => length h0 <= r) rs -> preserved h0 h'.
Proof.
  intros h0 h h' rs P [L U] F r c H. rewrite U; [apply P; assumption|]. intros X. rewrite Forall_forall in F. apply F in X.
  assert (r < length h0) by (apply nth_error_Some; congruence). lia.
Qed.
