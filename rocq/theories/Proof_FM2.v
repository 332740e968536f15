(** * C100: the loop of optimal_trade with doubles is the exact one *)

From Coq Require Import String ZArith Reals Qreals QArith Qpower List Lia Lra Sorted Permutation.
From Coq Require Import SpecFloat.
From Flocq Require Import Core BinarySingleNaN Plus_error.
From Verif Require Import Base Model_Agents Model_Market Model_Float Model_FloatMcAfee Spec_Float Spec_FloatMcAfee Proof_Float Proof_Float2 Proof_FM1.
Import ListNotations.

Local Open Scope nat_scope.
#[local] Existing Instance hprec.
#[local] Existing Instance hmax.

Lemma ex_heads : forall cats, get_highest_agents (exact_market cats) (repeat 1 (length cats)) = Ok (option_map (map dval) (f_heads cats)).
Proof.
  induction cats as [|c cats IH]; [reflexivity|]. unfold exact_market in *. cbn [map length repeat get_highest_agents f_heads]. unfold csize. cbn [cvalues]. rewrite map_length.
  destruct c as [|x c]; [reflexivity|]. cbn [length map Nat.ltb Nat.leb]. rewrite IH. cbn [bind]. destruct (f_heads cats); reflexivity.
Qed.

Lemma ex_tl : forall cats ps, f_heads cats = Some ps -> market_remove_highest (exact_market cats) (repeat 1 (length cats)) = Ok (exact_market (map (@tl double) cats)).
Proof.
  induction cats as [|c cats IH]; intros ps H; [reflexivity|]. cbn [f_heads] in H. destruct c as [|x c]; [discriminate|].
  destruct (f_heads cats) as [qs|] eqn:E; [|discriminate]. unfold exact_market in *. cbn [map length repeat market_remove_highest remove_highest_agents].
  unfold remove_highest_agent. cbn [cvalues map bind]. rewrite (IH qs eq_refl). reflexivity.
Qed.

Definition drawn (cats : list (list double)) (ps : list double) : Prop := Forall2 (fun x c => In x c) ps cats.

Lemma heads_drawn : forall cats ps, f_heads cats = Some ps -> drawn cats ps.
Proof.
  induction cats as [|c cats IH]; intros ps H; cbn [f_heads] in H; [injection H as <-; constructor|]. destruct c as [|x c]; [discriminate|].
  destruct (f_heads cats) as [qs|]; [|discriminate]. injection H as <-. constructor; [left; reflexivity|apply IH; reflexivity].
Qed.

Lemma tl_drawn : forall cats ps, drawn (map (@tl double) cats) ps -> drawn cats ps.
Proof.
  induction cats as [|c cats IH]; intros ps H; inversion H as [|x ? ps' ? H1 H2]; subst; constructor; [|apply IH; assumption]. destruct c; [destruct H1|right; assumption].
Qed.

Lemma loop_drawn : forall it cats d, In d (fst (f_optimal_loop it cats)) -> drawn cats d.
Proof.
  induction it as [|it IH]; intros cats d H; cbn [f_optimal_loop fst] in H; [destruct H|]. destruct (f_heads cats) as [ps|] eqn:E; [|destruct H].
  destruct (flt (f_gft ps) (fint 0)); [destruct H|]. cbn [fst] in H. destruct H as [<-|H]; [apply heads_drawn; exact E|]. apply tl_drawn. apply IH. exact H.
Qed.

Definition sign_right (ps : list double) : Prop := flt (f_gft ps) (fint 0) = Qlt_bool (Qsum (map dval ps)) 0.

Lemma loop_sim : forall it cats acc, (forall ps, drawn cats ps -> sign_right ps) ->
  optimal_loop it (exact_market cats) (repeat 1 (length cats)) true acc
  = Ok (acc ++ map (map dval) (fst (f_optimal_loop it cats)), exact_market (snd (f_optimal_loop it cats))).
Proof.
  induction it as [|it IH]; intros cats acc H; cbn [optimal_loop f_optimal_loop]; [cbn [fst snd map]; rewrite app_nil_r; reflexivity|].
  rewrite ex_heads. cbn [bind]. destruct (f_heads cats) as [ps|] eqn:E; cbn [option_map]; [|cbn [fst snd map]; rewrite app_nil_r; reflexivity].
  rewrite <- (H ps) by (apply heads_drawn; exact E). rewrite andb_false_r, orb_false_r.
  destruct (flt (f_gft ps) (fint 0)); [cbn [fst snd map]; rewrite app_nil_r; reflexivity|].
  rewrite (ex_tl cats ps E). cbn [bind]. replace (repeat 1 (length cats)) with (repeat 1 (length (map (@tl double) cats))) by (rewrite map_length; reflexivity).
  rewrite IH by (intros qs K; apply H; apply tl_drawn; exact K). cbn [fst snd map]. rewrite <- app_assoc. reflexivity.
Qed.

Lemma ex_clone : forall cats, Forall (Forall finite_double) cats -> clone_market (exact_market cats) = exact_market (map f_desc cats).
Proof.
  intros cats H. induction H as [|c cats Hc H IH]; [reflexivity|]. unfold clone_market, exact_market in *. cbn [map]. rewrite IH. unfold clone, new_category. cbn [cname cvalues].
  rewrite f_desc_map by exact Hc. reflexivity.
Qed.

Lemma desc_finite : forall cats, Forall (Forall finite_double) cats -> Forall (Forall finite_double) (map f_desc cats).
Proof. intros cats H. apply Forall_map. rewrite Forall_forall in *. intros c Hc. apply f_desc_finite. apply H. exact Hc. Qed.

Lemma drawn_finite : forall cats ps, Forall (Forall finite_double) cats -> drawn cats ps -> Forall finite_double ps.
Proof. intros cats ps H D. induction D as [|x c ps cats X D IH]; inversion H as [|? ? F1 F2]; subst; constructor; auto. rewrite Forall_forall in F1. apply F1. exact X. Qed.

Lemma drawn2 : forall b s d, drawn [b; s] d -> exists x y, d = [x; y] /\ In x b /\ In y s.
Proof. intros b s d D. inversion D as [|x ? d' ? X D1]; subst. inversion D1 as [|y ? d'' ? Y D2]; subst. inversion D2; subst. exists x, y. auto. Qed.

Lemma sign2 : forall b s ps, Forall finite_double b -> Forall finite_double s -> drawn [b; s] ps -> sign_right ps.
Proof.
  intros b s ps Hb Hs D. destruct (drawn2 _ _ _ D) as (x & y & -> & X & Y). rewrite Forall_forall in Hb, Hs. unfold sign_right. cbn [map]. apply gft_sign; auto.
Qed.

(** The exact optimal trade has the same deals, in the order of the exact gains. *)
Lemma optimal2 : forall it bs ss, Forall finite_double bs -> Forall finite_double ss ->
  optimal_trade it (exact_market [bs; ss]) [1; 1] true
  = Ok (sort_by Qsum (map (map dval) (fst (f_optimal_loop it [f_desc bs; f_desc ss]))), exact_market (snd (f_optimal_loop it [f_desc bs; f_desc ss]))).
Proof.
  intros it bs ss Hb Hs. unfold optimal_trade. cbn [length exact_market map Nat.eqb].
  change [mkCat "agent" (map dval bs); mkCat "agent" (map dval ss)] with (exact_market [bs; ss]). rewrite ex_clone by (repeat constructor; assumption). cbn [map].
  change [1; 1] with (repeat 1 (length [f_desc bs; f_desc ss])). rewrite loop_sim; [reflexivity|].
  intros ps D. apply (sign2 (f_desc bs) (f_desc ss)); auto using f_desc_finite.
Qed.

(** ** The deals: the best k of each side, in order *)

Fixpoint pairs (b s : list double) (k : nat) : list (list double) :=
  match k, b, s with
  | S k', x :: b', y :: s' => [x; y] :: pairs b' s' k'
  | _, _, _ => []
  end.

Lemma loop_pairs : forall it b s, exists k, k <= length b /\ k <= length s /\
  fst (f_optimal_loop it [b; s]) = pairs b s k /\ snd (f_optimal_loop it [b; s]) = [skipn k b; skipn k s].
Proof.
  assert (Z : forall (b s : list double), pairs b s 0 = []) by (intros [|] [|]; reflexivity).
  induction it as [|it IH]; intros b s; cbn [f_optimal_loop]; [exists 0; cbn [fst snd skipn]; rewrite Z; repeat split; lia|].
  destruct b as [|x b]; [exists 0; cbn; repeat split; lia|]. destruct s as [|y s]; [exists 0; cbn; repeat split; lia|]. cbn [f_heads].
  destruct (flt (f_gft [x; y]) (fint 0)); [exists 0; cbn; repeat split; lia|]. cbn [map tl].
  destruct (IH b s) as (k & K1 & K2 & K3 & K4). exists (S k). cbn [fst snd length pairs skipn]. rewrite K3, K4. repeat split; lia.
Qed.

Lemma pairs_length : forall k b s, k <= length b -> k <= length s -> length (pairs b s k) = k.
Proof. induction k as [|k IH]; intros [|x b] [|y s] H H'; cbn in *; try reflexivity; try lia. rewrite IH by lia. reflexivity. Qed.

Lemma pairs_nth : forall k b s, k <= length b -> k <= length s -> forall d,
  map (fun ps => nth 0 ps d) (pairs b s k) = firstn k b /\ map (fun ps => nth 1 ps d) (pairs b s k) = firstn k s.
Proof.
  induction k as [|k IH]; intros [|x b] [|y s] H H' d; cbn in *; try (split; reflexivity); try lia. destruct (IH b s ltac:(lia) ltac:(lia) d) as [E1 E2]. rewrite E1, E2. split; reflexivity.
Qed.

(** Any two deals are comparable, coordinate by coordinate. *)
Lemma pairs_chain : forall k b s, fdesc b -> fdesc s ->
  ForallOrdPairs (fun d e => exists x y x' y', d = [x; y] /\ e = [x'; y'] /\ fle x' x = true /\ fle y' y = true) (pairs b s k).
Proof.
  assert (Q : forall k b s e, In e (pairs b s k) -> exists x y, e = [x; y] /\ In x b /\ In y s).
  { induction k as [|k IH]; intros [|x b] [|y s] e H; cbn in H; try destruct H as []. 
    - subst. exists x, y. repeat split; left; reflexivity.
    - destruct (IH b s e H) as (x' & y' & -> & X & Y). exists x', y'. repeat split; right; assumption. }
  induction k as [|k IH]; intros [|x b] [|y s] B S; cbn; try constructor.
  - apply StronglySorted_inv in B. apply StronglySorted_inv in S. destruct B as [_ B], S as [_ S]. rewrite Forall_forall in *. intros e E.
    destruct (Q _ _ _ _ E) as (x' & y' & -> & X & Y). exists x, y, x', y'. auto.
  - apply StronglySorted_inv in B. apply StronglySorted_inv in S. apply IH; tauto.
Qed.

Lemma chain_In : forall A (R : A -> A -> Prop) l a b, ForallOrdPairs R l -> In a l -> In b l -> a = b \/ R a b \/ R b a.
Proof. intros A R l a b H Ha Hb. destruct (ForallOrdPairs_In H a b Ha Hb) as [->|[K|K]]; auto. Qed.

Lemma f_desc_sorted : forall l, Forall finite_double l -> fdesc (f_desc l).
Proof.
  intros l H. unfold f_desc, fdesc. induction H as [|x l Hx H IH]; [constructor|]. cbn [isort].
  assert (F : Forall finite_double (isort (fun x y => fle y x) l)).
  { rewrite Forall_forall in *. intros y Hy. apply H. apply (isort_In _ _ _ _ Hy). }
  revert F IH. generalize (isort (fun x y => fle y x) l). intros r F S. induction r as [|y r IHr]; cbn [insert]; [repeat constructor|].
  inversion F as [|? ? Fy Fr]; subst. apply StronglySorted_inv in S. destruct S as [S1 S2].
  destruct (fle y x) eqn:L.
  - constructor; [constructor; assumption|]. constructor; [exact L|]. rewrite Forall_forall in *. intros z Hz. apply (fle_trans z y x); auto using finite_dbl.
  - constructor; [apply IHr; assumption|]. rewrite Forall_forall in *. intros z Hz. apply insert_In in Hz. destruct Hz as [->|Hz]; [|auto]. apply fle_total; auto.
Qed.

(** ** The traders *)

Lemma add_two : forall deals c d, (forall ps, In ps deals -> exists x y, ps = [x; y]) ->
  exists c' d', fold_left (fun t ps => f_add_ps ps t) deals [c; d] = [c'; d']
    /\ Permutation c' (c ++ map (fun ps => nth 0 ps (fint 0)) deals) /\ Permutation d' (d ++ map (fun ps => nth 1 ps (fint 0)) deals).
Proof.
  induction deals as [|ps deals IH]; intros c d H; cbn [fold_left map].
  - exists c, d. rewrite !app_nil_r. auto.
  - destruct (H ps (or_introl eq_refl)) as (x & y & ->). cbn [f_add_ps nth].
    destruct (IH (f_desc (c ++ [x])) (f_desc (d ++ [y])) (fun qs K => H qs (or_intror K))) as (c' & d' & E & P1 & P2).
    exists c', d'. split; [exact E|]. split.
    + rewrite P1, f_desc_perm, <- app_assoc. reflexivity.
    + rewrite P2, f_desc_perm, <- app_assoc. reflexivity.
Qed.
