(** * C74: the old multi-recipe auction with disjoint recipes runs the single-recipe auction of each recipe *)

From Coq Require Import String List Arith Lia QArith Lqa Permutation Sorted Bool Qround.
From Verif Require Import Base Model_Agents Model_Trade Model_Prices Model_Market Model_RecipeTree Model_TreeAuction
  Model_Ascending Model_OldMulti Spec_Market Spec_RecipeTree Spec_TreeAuction Spec_Path Spec_OldMulti
  Proof_Path4 Proof_Om1 Proof_Om2 Proof_Om5 Proof_Om8 Props_TreeAuction Props_OldMulti.
Import ListNotations.
Open Scope Q_scope.

(** ** C74 *)

(** If no category belongs to two recipes, no two agents of a category have the same value, and Python iterates over the sets of
    categories in increasing order, the auction returns a trade whose deals are those of the auctions
    (ascending_auction_protocol.py) of the single recipes together; and a recipe that is still there at the end has in its own
    auction the same remaining agents, and the same prices if it has deals; a recipe that was left out has no deals there. *)
Theorem C74_disjoint_recipes : forall depth M v lp iter fuel m rs, 0 < M -> set_order iter -> keeps_order iter ->
  no_ties m -> values_over (- M) m -> 0 <= v -> values_below v m -> Qn (length m) * v < M -> Qn (agents_number m) <= M ->
  rs <> [] -> Forall (usable (length m)) rs -> disjoint rs -> solves_prices (length m) (- M) lp rs ->
  (agents_number m < fuel)%nat -> (length rs < depth)%nat ->
  exists t rest trs, multi_auction depth M lp iter fuel m rs = (Ok t, rest) /\ sublist rest rs
    /\ Forall2 (fun r tr => ascending_auction_M M fuel m r = Ok tr /\ recipe_outcome t rest r tr) rs trs
    /\ mt_deals t = nsum (map num_of_deals trs).
Proof. exact multi_disjoint. Qed.
Print Assumptions C74_disjoint_recipes.

(** With one recipe the two auctions have the same number of deals, the same remaining agents in the categories of the recipe, and
    the same prices of these if there are deals ("The results should be the same",
    old/ascending_auction_multirecipe_test.py:24-30). *)
Theorem C74_single_recipe : forall depth M v lp iter fuel m r, 0 < M -> set_order iter -> keeps_order iter ->
  no_ties m -> values_over (- M) m -> 0 <= v -> values_below v m -> Qn (length m) * v < M -> Qn (agents_number m) <= M ->
  usable (length m) r -> solves_prices (length m) (- M) lp [r] -> (agents_number m < fuel)%nat -> (1 < depth)%nat ->
  exists t tr, multi_auction depth M lp iter fuel m [r] = (Ok t, [r]) /\ ascending_auction_M M fuel m r = Ok tr
    /\ mt_deals t = num_of_deals tr
    /\ forall c, (0 < nth c r 0)%nat -> nth_error (mt_cats t) c = nth_error (tcats tr) c
         /\ ((0 < num_of_deals tr)%nat -> exists ps, tprices tr = Some ps /\ nth c (mt_prices t) 0 == nth c ps 0).
Proof.
  intros depth M v lp iter fuel m r HM IT KO NT VO V0 VB VQ HA HU SP HF HD.
  destruct (C74_disjoint_recipes depth M v lp iter fuel m [r] HM IT KO NT VO V0 VB VQ HA) as (t & rest & trs & A & B & C & D); auto.
  - discriminate.
  - intros c j k [J _] [K _]. simpl in J, K. lia.
  - destruct (C73_result _ _ _ _ _ _ _ _ _ HM IT (proj1 SP) A) as (NE & _).
    inversion C as [|? tr ? trs' [C1 C2] C3]; subst. inversion C3; subst.
    assert (rest = [r]).
    { inversion B as [|? ? ? B'|? ? ? B']; subst; inversion B'; subst; congruence. }
    subst rest. exists t, tr. split; [assumption|]. split; [assumption|]. split; [simpl in D; lia|].
    intros c Hc. apply C2; [left; reflexivity|assumption].
Qed.
Print Assumptions C74_single_recipe.

(** ** Concrete cases *)

(** A solver of the linear program for disjoint recipes. *)
Definition disjoint_lp (M : Q) (n : nat) (recipes : list (list nat)) : result (list Q) :=
  if recipes_checked n recipes && forallb (existsb (fun x => 0 <? x)%nat) recipes
     && forallb (fun c => length (containing recipes c) <=? 1)%nat (seq 0 n)
  then Ok (spread_prices M n recipes) else Raise ValueError.

Lemma disjoint_lp_cond : forall n rs, recipes_checked n rs && forallb (existsb (fun x => 0 <? x)%nat) rs
     && forallb (fun c => length (containing rs c) <=? 1)%nat (seq 0 n) = true
  <-> rs <> [] /\ Forall (usable n) rs /\ disjoint rs.
Proof.
  intros n rs. rewrite !andb_true_iff, checked_binary, !forallb_forall. split.
  - intros [[[NE B] NZ] D]. split; [assumption|]. rewrite Forall_forall in B. split.
    + apply Forall_forall. intros r Hr. split; [auto|]. specialize (NZ r Hr). apply existsb_exists in NZ. destruct NZ as [x [Hx P]].
      apply Nat.ltb_lt in P. destruct (In_nth _ _ 0%nat Hx) as [c [_ E]]. exists c. lia.
    + intros c j k [J1 J2] [K1 K2]. assert (Hc : (c < n)%nat).
      { destruct (B (nth j rs []) (nth_In rs [] J1)) as [L _]. destruct (lt_dec c n) as [X|X]; [assumption|]. rewrite nth_overflow in J2 by lia. lia. }
      specialize (D c ltac:(apply in_seq; lia)). apply Nat.leb_le in D.
      assert (J : In j (containing rs c)) by (apply containing_In; auto). assert (K : In k (containing rs c)) by (apply containing_In; auto).
      destruct (containing rs c) as [|a [|b l]]; simpl in D; try lia; [destruct J|]. destruct J as [->|[]], K as [->|[]]. reflexivity.
  - intros (NE & U & D). rewrite Forall_forall in U. split; [split; [split; [assumption|]|]|].
    + apply Forall_forall. intros r Hr. apply (U r Hr).
    + intros r Hr. destruct (U r Hr) as [_ [c Hc]]. apply existsb_exists. exists (nth c r 0%nat). split; [|apply Nat.ltb_lt; assumption].
      apply nth_In. destruct (lt_dec c (length r)) as [X|X]; [assumption|]. rewrite nth_overflow in Hc by lia. lia.
    + intros c _. apply Nat.leb_le. apply disjoint_containing. assumption.
Qed.

Lemma sublist_index : forall A (d : A) l' l, sublist l' l -> forall j k, (j < length l')%nat -> (k < length l')%nat -> j <> k ->
  exists j' k', (j' < length l)%nat /\ (k' < length l)%nat /\ j' <> k' /\ nth j' l d = nth j l' d /\ nth k' l d = nth k l' d.
Proof.
  intros A d l' l H. induction H as [|a l' l H IH|a l' l H IH]; intros j k Hj Hk N; [simpl in Hj; lia| |].
  - assert (ONE : forall i, (i < length l')%nat -> exists i', (i' < length l)%nat /\ nth i' l d = nth i l' d).
    { intros i Hi. assert (X : In (nth i l' d) l) by (eapply sublist_In; [exact H|apply nth_In; assumption]).
      destruct (In_nth _ _ d X) as [i' [? ?]]. eauto. }
    destruct j as [|j], k as [|k]; simpl in Hj, Hk; [lia| | |].
    + destruct (ONE k ltac:(lia)) as [k' [K1 K2]]. exists 0%nat, (S k'). simpl. repeat split; auto; lia.
    + destruct (ONE j ltac:(lia)) as [j' [K1 K2]]. exists (S j'), 0%nat. simpl. repeat split; auto; lia.
    + destruct (IH j k) as (j' & k' & X1 & X2 & X3 & X4 & X5); try lia. exists (S j'), (S k'). simpl. repeat split; auto; lia.
  - destruct (IH j k Hj Hk N) as (j' & k' & X1 & X2 & X3 & X4 & X5). exists (S j'), (S k'). simpl. repeat split; auto; lia.
Qed.

Lemma sublist_disjoint : forall rs rest, sublist rest rs -> disjoint rs -> disjoint rest.
Proof.
  intros rs rest H D c j k [J1 J2] [K1 K2]. destruct (Nat.eq_dec j k) as [E|N]; [assumption|]. exfalso.
  destruct (sublist_index _ [] _ _ H j k J1 K1 N) as (j' & k' & X1 & X2 & X3 & X4 & X5). apply X3. apply (D c); split; auto; congruence.
Qed.

Lemma disjoint_lp_solves : forall M n rs, 0 < M -> Forall (usable n) rs -> disjoint rs -> solves_prices n (- M) (disjoint_lp M n) rs.
Proof.
  intros M n rs HM U D. split.
  - intros recipes. unfold disjoint_lp. destruct (_ && _) eqn:E; [|reflexivity]. apply disjoint_lp_cond in E. destruct E as (E1 & E2 & E3).
    apply spread_feasible; auto; (eapply Forall_impl; [|exact E2]); intros r H; apply H.
  - intros recipes NE SL _. unfold disjoint_lp. destruct (_ && _) eqn:E; [eauto|]. exfalso. rewrite <- Bool.not_true_iff_false in E. apply E.
    apply disjoint_lp_cond. split; [assumption|]. split; [|eapply sublist_disjoint; eassumption].
    rewrite Forall_forall in U |- *. intros r Hr. apply U. eapply sublist_In; eassumption.
Qed.

(** Three disjoint recipes; the third has no agents and is left out. *)
Definition three_markets : market :=
  [mkCat "buyer" [9; 8; 7; 1]; mkCat "seller" [-4; -3]; mkCat "rider" [6; 5; 3]; mkCat "driver" [-1; -2]; mkCat "none" []].
Definition three_recipes : list (list nat) := [[1; 1; 0; 0; 0]; [0; 0; 1; 1; 0]; [0; 0; 0; 0; 1]]%nat.

Lemma three_recipes_ok : three_recipes <> [] /\ Forall (usable 5) three_recipes /\ disjoint three_recipes.
Proof. apply disjoint_lp_cond. reflexivity. Qed.

Example C74_ex_disjoint : exists t rest trs,
  multi_auction 4 1000 (disjoint_lp 1000 5) (fun l => l) 12 three_markets three_recipes = (Ok t, rest)
  /\ Forall2 (fun r tr => ascending_auction_M 1000 12 three_markets r = Ok tr /\ recipe_outcome t rest r tr) three_recipes trs
  /\ mt_deals t = nsum (map num_of_deals trs) /\ map num_of_deals trs = [1; 1; 0]%nat
  /\ rest = [[1; 1; 0; 0; 0]; [0; 0; 1; 1; 0]]%nat /\ map Qred (mt_prices t) = [8; -8; 5; -5; -1000].
Proof.
  destruct three_recipes_ok as (A & B & C).
  destruct (C74_disjoint_recipes 4 1000 9 (disjoint_lp 1000 5) (fun l => l) 12 three_markets three_recipes)
    as (t & rest & trs & X1 & X2 & X3 & X4).
  - reflexivity.
  - intros l. apply Permutation_refl.
  - intros l _. reflexivity.
  - apply no_ties_intro. unfold three_markets. repeat constructor; simpl; intros F; discriminate F.
  - intros c x Hc Hx. simpl in Hc. repeat (destruct Hc as [<-|Hc]; [simpl in Hx; repeat (destruct Hx as [<-|Hx]; [reflexivity|]); destruct Hx|]). destruct Hc.
  - discriminate.
  - intros c x Hc Hx. simpl in Hc. repeat (destruct Hc as [<-|Hc]; [simpl in Hx; repeat (destruct Hx as [<-|Hx]; [unfold Qle; simpl; lia|]); destruct Hx|]). destruct Hc.
  - reflexivity.
  - discriminate.
  - exact A.
  - exact B.
  - exact C.
  - apply disjoint_lp_solves; [reflexivity|exact B|exact C].
  - vm_compute. lia.
  - simpl. lia.
  - exists t, rest, trs. split; [assumption|]. split; [assumption|]. split; [assumption|].
    assert (E : exists t0 rest0, multi_auction 4 1000 (disjoint_lp 1000 5) (fun l => l) 12 three_markets three_recipes = (Ok t0, rest0)
       /\ rest0 = [[1; 1; 0; 0; 0]; [0; 0; 1; 1; 0]]%nat /\ map Qred (mt_prices t0) = [8; -8; 5; -5; -1000]).
    { eexists. eexists. split; [vm_compute; reflexivity|]. split; reflexivity. }
    destruct E as (t0 & rest0 & E1 & E2 & E3). rewrite X1 in E1. injection E1; intros -> ->. split; [|split; assumption].
    unfold three_recipes in X3.
    inversion X3 as [|? t1 ? l1 [Y1 _] Z1]; subst. inversion Z1 as [|? t2 ? l2 [Y2 _] Z2]; subst.
    inversion Z2 as [|? t3 ? l3 [Y3 _] Z3]; subst. inversion Z3; subst.
    vm_compute in Y1. injection Y1; intros <-. vm_compute in Y2. injection Y2; intros <-. vm_compute in Y3. injection Y3; intros <-. reflexivity.
Qed.

(** ** Where the two auctions differ *)

(** The equality needs different values: here two buyers of equal value make the multi-recipe auction lose a deal, since it
    removes both at the buyers' price 8, and the single-recipe auction only one. *)
Definition tied_market : market :=
  [mkCat "buyer" [9; 8; 8]; mkCat "seller" [-1; -2; -3]; mkCat "mediator" [-1; -2; -3]].

Theorem C74_ties_refuted : exists t tr,
  fst (multi_auction 2 1000 (disjoint_lp 1000 3) (fun l => l) 10 tied_market [[1; 1; 1]]%nat) = Ok t
  /\ ascending_auction_M 1000 10 tied_market [1; 1; 1]%nat = Ok tr
  /\ mt_deals t = 1%nat /\ num_of_deals tr = 2%nat /\ ~ no_ties tied_market.
Proof.
  eexists. eexists. split; [vm_compute; reflexivity|]. split; [vm_compute; reflexivity|]. split; [reflexivity|]. split; [reflexivity|].
  intros NT. apply (NT (mkCat "buyer" [9; 8; 8]) [9] 8 [] 8 []); [left; reflexivity|reflexivity|reflexivity].
Qed.
Print Assumptions C74_ties_refuted.

(** It also needs the increasing order: Python iterates over the set {1, 8} in the order 8, 1, so with these two categories the
    multi-recipe auction starts with category 8, and ends with other prices and agents. *)
Definition nine_categories : market :=
  [mkCat "0" []; mkCat "buyer" [9; 8]; mkCat "2" []; mkCat "3" []; mkCat "4" []; mkCat "5" []; mkCat "6" []; mkCat "7" [];
   mkCat "seller" [-4; -3]].
Definition python_order (l : list nat) : list nat := if list_eq_dec Nat.eq_dec l [1; 8]%nat then [8; 1]%nat else l.

Theorem C74_set_order_refuted : exists t tr, set_order python_order
  /\ fst (multi_auction 2 1000 (disjoint_lp 1000 9) python_order 10 nine_categories [[0; 1; 0; 0; 0; 0; 0; 0; 1]]%nat) = Ok t
  /\ ascending_auction_M 1000 10 nine_categories [0; 1; 0; 0; 0; 0; 0; 0; 1]%nat = Ok tr
  /\ mt_deals t = 1%nat /\ num_of_deals tr = 1%nat
  /\ nth 1 (mt_prices t) 0 == 4 /\ (exists ps, tprices tr = Some ps /\ nth 1 ps 0 == 8).
Proof.
  eexists. eexists. split.
  - intros l. unfold python_order. destruct (list_eq_dec _ l _) as [->|_]; [apply perm_swap|apply Permutation_refl].
  - split; [vm_compute; reflexivity|]. split; [vm_compute; reflexivity|]. repeat split. eexists. split; reflexivity.
Qed.
Print Assumptions C74_set_order_refuted.
