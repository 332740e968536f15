(** * C73: the old multi-recipe ascending auction (old/ascending_auction_multirecipe_protocol.py) *)

From Coq Require Import String List Arith Lia QArith Lqa Permutation Sorted Bool Qround.
From Verif Require Import Base Model_Agents Model_Trade Model_Prices Model_Market Model_RecipeTree Model_TreeAuction
  Model_Ascending Model_OldMulti Spec_Market Spec_RecipeTree Spec_TreeAuction Spec_OldMulti
  Proof_Om1 Proof_Om2 Proof_Om3 Proof_Om4.
Import ListNotations.
Open Scope Q_scope.

(** ** C73: the auction ends, and what it returns *)

(** The call returns a trade or raises ValueError: it does not loop for ever and raises nothing else.  (So lines 221-224, the
    [else] of the deletion of the last recipe, are never reached: the model raises TypeError there.) *)
Theorem C73_returns_or_ValueError : forall depth M lp iter fuel m rs, 0 < M -> set_order iter ->
  finds_prices (length m) (- M) lp -> (agents_number m < fuel)%nat -> (length rs < depth)%nat ->
  (exists t, fst (multi_auction depth M lp iter fuel m rs) = Ok t)
  \/ fst (multi_auction depth M lp iter fuel m rs) = Raise ValueError.
Proof. exact multi_returns. Qed.
Print Assumptions C73_returns_or_ValueError.

(** A returned trade: the caller's list of recipes is cut down to the recipes of the trade; the highest agents of each category
    remain and pay at most their values; the prices of all remaining recipes have the same sum, at most 0, and 0 if there are
    deals; and the number of deals is the largest number that the remaining agents can make. *)
Theorem C73_result : forall depth M lp iter fuel m rs t rest, 0 < M -> set_order iter -> finds_prices (length m) (- M) lp ->
  multi_auction depth M lp iter fuel m rs = (Ok t, rest) ->
  rest <> [] /\ sublist rest rs /\ mt_recipes t = rest
  /\ Forall2 (fun c c' => cname c' = cname c /\ exists k, cvalues c' = firstn k (sort_desc (cvalues c))) m (mt_cats t)
  /\ (values_above (- M) m ->
      forall i c v, nth_error (mt_cats t) i = Some c -> In v (cvalues c) -> nth i (mt_prices t) 0 <= v)
  /\ (exists S, equal_sums rest (mt_prices t) S /\ S <= 0)
  /\ ((0 < mt_deals t)%nat -> equal_sums rest (mt_prices t) 0)
  /\ (Qn (agents_number m) <= M ->
      (exists ds, can_make (mt_cats t) rest ds /\ nsum ds = mt_deals t)
      /\ forall ds, can_make (mt_cats t) rest ds -> (nsum ds <= mt_deals t)%nat).
Proof. exact multi_result. Qed.
Print Assumptions C73_result.

(** If the recipes share a category, a trade with deals uses one recipe only. *)
Theorem C73_shared_category : forall depth M v lp iter fuel m rs t rest, 0 < M -> set_order iter ->
  finds_prices (length m) (- M) lp -> 0 <= v -> values_below v m -> Qn (length m) * v < M -> share_a_category rs ->
  multi_auction depth M lp iter fuel m rs = (Ok t, rest) -> (0 < mt_deals t)%nat -> length rest = 1%nat.
Proof. exact multi_shared. Qed.
Print Assumptions C73_shared_category.

(** If a category shared by two or more recipes has at least as many agents as the largest unshared categories of the recipes
    ([bigs]) together, the call raises ValueError. *)
Theorem C73_shared_large : forall depth M lp iter fuel m rs c bigs, 0 < M -> set_order iter -> finds_prices (length m) (- M) lp ->
  (1 < length rs)%nat -> (0 < depth)%nat -> (0 < fuel)%nat ->
  (forall k, (k < length rs)%nat -> contains rs k c) ->
  length bigs = length rs ->
  (forall k, (k < length rs)%nat -> unshared rs k (nth k bigs 0%nat)
     /\ forall i, unshared rs k i -> (nth i (map csize m) 0 <= nth (nth k bigs 0) (map csize m) 0)%nat) ->
  (0 < nsum (map (fun i => nth i (map csize m) 0%nat) bigs) <= nth c (map csize m) 0)%nat ->
  multi_auction depth M lp iter fuel m rs = (Raise ValueError, rs).
Proof. exact multi_shared_large. Qed.
Print Assumptions C73_shared_large.

(** ** Concrete cases *)

(** A stand-in for the linear program, for recipes with equally many categories. *)
Definition uniform_lp (M : Q) (n : nat) (recipes : list (list nat)) : result (list Q) :=
  match recipes with
  | r0 :: _ =>
      if (0 <? nsum r0)%nat && forallb (fun r => (length r =? n)%nat && (nsum r =? nsum r0)%nat) recipes
      then Ok (repeat (- M) n) else Raise ValueError
  | [] => Raise ValueError
  end.

Lemma dot_repeat : forall x r n, (length r <= n)%nat -> dot (repeat x n) r == x * Qn (nsum r).
Proof.
  intros x. induction r as [|a r IH]; intros n H; [change (Qn (nsum [])) with 0; destruct n; cbn [repeat dot]; ring|]. destruct n as [|n]; [simpl in H; lia|].
  cbn [repeat dot]. rewrite IH by (simpl in H; lia). change (nsum (a :: r)) with (a + nsum r)%nat. rewrite Qn_plus. ring.
Qed.

Lemma uniform_lp_finds : forall M n, 0 < M -> finds_prices n (- M) (uniform_lp M n).
Proof.
  intros M n HM recipes. unfold uniform_lp. destruct recipes as [|r0 rs]; [reflexivity|].
  destruct (_ && _) eqn:E; [|reflexivity]. apply andb_true_iff in E. destruct E as [E1 E2]. apply Nat.ltb_lt in E1.
  rewrite forallb_forall in E2.
  assert (D : forall r, In r (r0 :: rs) -> dot (repeat (- M) n) r == - M * Qn (nsum r0)).
  { intros r Hr. specialize (E2 r Hr). apply andb_true_iff in E2. rewrite !Nat.eqb_eq in E2. destruct E2 as [E2 E3].
    rewrite dot_repeat by lia. rewrite E3. reflexivity. }
  split; [split; [apply repeat_length|split]|].
  - apply Forall_forall. intros p Hp. apply repeat_spec in Hp. subst p. apply Qle_refl.
  - exists (- M * Qn (nsum r0)). exact D.
  - intros r Hr. rewrite (D r Hr). assert (X : Qn 1 <= Qn (nsum r0)) by (apply Qn_le; lia). change (Qn 1) with 1 in X. nra.
Qed.

Definition buyers_sellers : market := [mkCat "buyer" [9; 8]; mkCat "seller" [-4; -3]].

Example C73_ex_single : exists t, fst (multi_auction 2 1000 (uniform_lp 1000 2) (fun l => l) 5 buyers_sellers [[1; 1]]%nat) = Ok t
  /\ mt_deals t = 1%nat /\ map Qred (mt_prices t) = [8; -8] /\ map cvalues (mt_cats t) = [[9]; [-3; -4]].
Proof. eexists. split; [vm_compute; reflexivity|]. repeat split. Qed.

Example C73_ex_returns : exists t, fst (multi_auction 2 1000 (uniform_lp 1000 2) (fun l => l) 5 buyers_sellers [[1; 1]]%nat) = Ok t
  \/ fst (multi_auction 2 1000 (uniform_lp 1000 2) (fun l => l) 5 buyers_sellers [[1; 1]]%nat) = Raise ValueError.
Proof.
  destruct (C73_returns_or_ValueError 2 1000 (uniform_lp 1000 2) (fun l => l) 5 buyers_sellers [[1; 1]]%nat) as [[t H]|H].
  - reflexivity.
  - intros l. apply Permutation_refl.
  - apply uniform_lp_finds. reflexivity.
  - vm_compute. lia.
  - simpl. lia.
  - exists t. left. assumption.
  - exists (mkMT [] [] [] 0). right. assumption.
Qed.

(** Two recipes with a shared category, one of which is left out since it has no sellers; the caller's list loses it. *)
Definition one_side_empty : market :=
  [mkCat "buyer" [19; 17]; mkCat "sellerA" []; mkCat "sellerB" [-2; -4; -6; -8]].

Example C73_ex_shared : exists t,
  multi_auction 3 1000 (uniform_lp 1000 3) (fun l => l) 7 one_side_empty [[1; 1; 0]; [1; 0; 1]]%nat = (Ok t, [[1; 0; 1]]%nat)
  /\ mt_deals t = 2%nat
  /\ length [[1; 0; 1]]%nat = 1%nat.
Proof.
  eexists. split; [vm_compute; reflexivity|]. split; [reflexivity|].
  apply (C73_shared_category 3 1000 19 (uniform_lp 1000 3) (fun l => l) 7 one_side_empty [[1; 1; 0]; [1; 0; 1]]%nat) with
    (t := match fst (multi_auction 3 1000 (uniform_lp 1000 3) (fun l => l) 7 one_side_empty [[1; 1; 0]; [1; 0; 1]]%nat) with
          | Ok t => t | _ => mkMT [] [] [] 0 end).
  - reflexivity.
  - intros l. apply Permutation_refl.
  - apply uniform_lp_finds. reflexivity.
  - discriminate.
  - intros c v Hc Hv. simpl in Hc. destruct Hc as [<-|[<-|[<-|[]]]]; simpl in Hv;
      repeat (destruct Hv as [<-|Hv]; [unfold Qle; simpl; lia|]); destruct Hv.
  - reflexivity.
  - exists 0%nat. intros [|[|k]] Hk; simpl in Hk; split; simpl; lia.
  - vm_compute. reflexivity.
  - vm_compute. lia.
Qed.

(** ** The tests of the file (old/ascending_auction_multirecipe_test.py:68-131) *)

(** Recipes [1,1,0] and [1,0,1] with at least as many buyers as sellers: in all the markets of [test_market_110_101], where 1 or 4
    deals are expected, the call raises ValueError, whatever prices the linear program finds. *)
Theorem C73_test_110_101_refuted : forall depth M lp iter fuel buyers sellersA sellersB, 0 < M -> set_order iter ->
  finds_prices 3 (- M) lp -> (0 < depth)%nat -> (0 < fuel)%nat ->
  (0 < length sellersA + length sellersB <= length buyers)%nat ->
  fst (multi_auction depth M lp iter fuel [mkCat "buyer" buyers; mkCat "sellerA" sellersA; mkCat "sellerB" sellersB]
         [[1; 1; 0]; [1; 0; 1]]%nat) = Raise ValueError.
Proof.
  intros depth M lp iter fuel buyers sellersA sellersB HM IT LP HD HF HS.
  rewrite (C73_shared_large depth M lp iter fuel _ _ 0 [1; 2]%nat); auto.
  - intros [|[|k]] Hk; simpl in Hk; split; simpl; lia.
  - intros [|[|k]] Hk; simpl in Hk; try lia.
    + split; [split; [split; simpl; lia|]|].
      * intros [|[|j]] [J1 J2]; simpl in J1, J2; lia.
      * intros [|[|[|i]]] [[I1 I2] I3]; simpl in I2; try (destruct i; lia); try lia; try (unfold csize; simpl; lia).
        exfalso. specialize (I3 1%nat). cut (1%nat = 0%nat); [lia|]. apply I3. split; simpl; lia.
    + split; [split; [split; simpl; lia|]|].
      * intros [|[|j]] [J1 J2]; simpl in J1, J2; lia.
      * intros [|[|[|i]]] [[I1 I2] I3]; simpl in I2; try (destruct i; lia); try lia; try (unfold csize; simpl; lia).
        exfalso. specialize (I3 0%nat). cut (0%nat = 1%nat); [lia|]. apply I3. split; simpl; lia.
  - unfold csize. simpl. lia.
Qed.
Print Assumptions C73_test_110_101_refuted.

(** The first of these markets. *)
Example C73_ex_test : forall lp iter, set_order iter -> finds_prices 3 (-1000) lp ->
  fst (multi_auction 3 1000 lp iter 10 [mkCat "buyer" [9; 8]; mkCat "sellerA" [-4]; mkCat "sellerB" [-3]] [[1; 1; 0]; [1; 0; 1]]%nat)
  = Raise ValueError.
Proof. intros lp iter IT LP. apply C73_test_110_101_refuted; try reflexivity; auto; simpl; lia. Qed.

(** Recipes [1,1,0,0] and [1,0,1,1] (test_market_1100_1011, where 4 deals are expected). *)
Theorem C73_test_1100_1011_refuted : forall depth M lp iter fuel buyers sellers producers movers, 0 < M -> set_order iter ->
  finds_prices 4 (- M) lp -> (0 < depth)%nat -> (0 < fuel)%nat ->
  (0 < length sellers + Nat.max (length producers) (length movers) <= length buyers)%nat ->
  fst (multi_auction depth M lp iter fuel
         [mkCat "buyer" buyers; mkCat "seller" sellers; mkCat "producer" producers; mkCat "mover" movers]
         [[1; 1; 0; 0]; [1; 0; 1; 1]]%nat) = Raise ValueError.
Proof.
  intros depth M lp iter fuel buyers sellers producers movers HM IT LP HD HF HS.
  set (big := if (length producers <=? length movers)%nat then 3%nat else 2%nat).
  assert (HB : big = 3%nat /\ (length producers <= length movers)%nat \/ big = 2%nat /\ (length movers < length producers)%nat).
  { unfold big. destruct (Nat.leb_spec (length producers) (length movers)); auto. }
  rewrite (C73_shared_large depth M lp iter fuel _ _ 0 [1; big]%nat); auto.
  - intros [|[|k]] Hk; simpl in Hk; split; simpl; lia.
  - intros [|[|k]] Hk; simpl in Hk; try lia.
    + split; [split; [split; simpl; lia|]|].
      * intros [|[|j]] [J1 J2]; simpl in J1, J2; lia.
      * intros [|[|[|[|i]]]] [[I1 I2] I3]; simpl in I2; try (destruct i; lia); try lia; try (unfold csize; simpl; lia).
        exfalso. specialize (I3 1%nat). cut (1%nat = 0%nat); [lia|]. apply I3. split; simpl; lia.
    + destruct HB as [[-> HB]|[-> HB]]; (split; [split; [split; simpl; lia|]|]).
      * intros [|[|j]] [J1 J2]; simpl in J1, J2; lia.
      * intros [|[|[|[|i]]]] [[I1 I2] I3]; simpl in I2; try (destruct i; lia); try lia; try (unfold csize; simpl; lia).
        exfalso. specialize (I3 0%nat). cut (0%nat = 1%nat); [lia|]. apply I3. split; simpl; lia.
      * intros [|[|j]] [J1 J2]; simpl in J1, J2; lia.
      * intros [|[|[|[|i]]]] [[I1 I2] I3]; simpl in I2; try (destruct i; lia); try lia; try (unfold csize; simpl; lia).
        exfalso. specialize (I3 0%nat). cut (0%nat = 1%nat); [lia|]. apply I3. split; simpl; lia.
  - unfold csize. destruct HB as [[-> HB]|[-> HB]]; simpl; lia.
Qed.
Print Assumptions C73_test_1100_1011_refuted.
