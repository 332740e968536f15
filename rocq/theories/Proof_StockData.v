(** * Proofs about the stock prices (C85) *)

From Coq Require Import String List Arith Lia ZArith QArith Qround Lqa Permutation Bool.
From Verif Require Import Base Model_Experiment Model_StockData Spec_StockData.
Import ListNotations.
Open Scope Q_scope.

Lemma py_int_comp : forall a b, a == b -> py_int a = py_int b.
Proof.
  intros a b H. unfold py_int. rewrite (Qfloor_comp a b H), (Qceiling_comp a b H).
  destruct (Qle_bool 0 a) eqn:E, (Qle_bool 0 b) eqn:F; try reflexivity.
  - apply Qle_bool_iff in E. apply Qle_bool_false in F. lra.
  - apply Qle_bool_iff in F. apply Qle_bool_false in E. lra.
Qed.

Lemma thousands_comp : forall a b, a == b -> thousands a = thousands b.
Proof. intros a b H. apply py_int_comp. rewrite H. reflexivity. Qed.

Lemma py_int_truncation : forall q, truncation q (py_int q).
Proof.
  intros q. assert (F1 := Qfloor_le q). assert (F2 := Qlt_floor q). assert (C1 := Qle_ceiling q). assert (C2 := Qceiling_lt q).
  rewrite inject_Z_plus in F2. replace (Qceiling q - 1)%Z with (Qceiling q + -1)%Z in C2 by lia. rewrite inject_Z_plus in C2.
  change (inject_Z 1) with 1 in *. change (inject_Z (-1)) with (-1) in *.
  unfold py_int. split; intros H.
  - destruct (Qle_bool 0 q) eqn:E; [|apply Qle_bool_false in E; lra].
    split; [|lra]. rewrite <- (Qfloor_Z 0). apply Qfloor_resp_le. exact H.
  - destruct (Qle_bool 0 q) eqn:E.
    + apply Qle_bool_iff in E. assert (Z0 : q == 0) by lra.
      assert (X : Qfloor q = 0%Z) by (rewrite (Qfloor_comp _ _ Z0); reflexivity).
      rewrite X. split; [lia|]. change (inject_Z 0) with 0. lra.
    + split; [rewrite <- (Qceiling_Z 0); apply Qceiling_resp_le; exact H|].
      set (c := Qceiling q) in *. split; lra.
Qed.

Lemma thousands_truncation : forall x, truncation (x * 1000) (thousands x).
Proof. intros x. apply py_int_truncation. Qed.

(** ** The dealing loop *)

Lemma extend_nth_length : forall i x l, length (extend_nth i x l) = length l.
Proof. intros i x l. revert i. induction l as [|a l IH]; intros [|i]; simpl; auto. Qed.

Lemma extend_nth_same : forall i x l a, nth_error l i = Some a -> nth_error (extend_nth i x l) i = Some (a ++ x).
Proof. intros i x l. revert i. induction l as [|b l IH]; intros [|i] a H; simpl in *; try discriminate; [congruence|auto]. Qed.

Lemma extend_nth_other : forall i j x l, i <> j -> nth_error (extend_nth i x l) j = nth_error l j.
Proof. intros i j x l. revert i j. induction l as [|b l IH]; intros [|i] [|j] H; simpl; try reflexivity; try congruence. apply IH. congruence. Qed.

Section Deal.
  Variables (recipe : list nat) (sellers : list Q).
  Let K := (length recipe - 1)%nat.

  Definition dealt (c : nat) (is : list nat) : list Q :=
    concat (map (fun i => repeat (nth (i mod length sellers) sellers 0) (nth c recipe 0%nat))
                (filter (fun i => i mod K + 1 =? c)%nat is)).

  Lemma dealt_app : forall c a b, dealt c (a ++ b) = dealt c a ++ dealt c b.
  Proof. intros c a b. unfold dealt. rewrite filter_app, map_app, concat_app. reflexivity. Qed.

  Lemma deal_fold : forall is start, 
    length (fold_left (deal_seller recipe sellers) is start) = length start
    /\ forall c a, nth_error start c = Some a ->
         nth_error (fold_left (deal_seller recipe sellers) is start) c = Some (a ++ dealt c is).
  Proof.
    induction is as [|i is IH]; intros start; cbn [fold_left].
    - split; [reflexivity|]. intros c a H. unfold dealt. simpl. rewrite app_nil_r. exact H.
    - destruct (IH (deal_seller recipe sellers start i)) as [L N]. 
      assert (LS : length (deal_seller recipe sellers start i) = length start) by (unfold deal_seller; apply extend_nth_length).
      rewrite LS in L.
      split; [exact L|]. intros c a H. change (i :: is) with ([i] ++ is). rewrite dealt_app, app_assoc. apply N.
      unfold deal_seller. fold K. unfold dealt. cbn [filter].
      destruct (Nat.eqb_spec (i mod K + 1) c) as [<-|Hne].
      + cbn [map concat]. rewrite app_nil_r. apply extend_nth_same. exact H.
      + cbn [map concat]. rewrite app_nil_r. rewrite extend_nth_other by exact Hne. exact H.
  Qed.

  Lemma filter_mod : forall L c, (0 < K)%nat -> (c < K)%nat ->
    filter (fun i => i mod K + 1 =? S c)%nat (seq 0 (L * K)) = map (fun q => (q * K + c)%nat) (seq 0 L).
  Proof.
    intros L c HK Hc. induction L as [|L IH]; [reflexivity|].
    replace (S L * K)%nat with (L * K + K)%nat by lia. rewrite seq_app, filter_app, IH.
    rewrite seq_S, map_app. f_equal. rewrite !Nat.add_0_l. cbn [map].
    (* one full round *)
    assert (G : forall n, (n <= K)%nat -> filter (fun i => i mod K + 1 =? S c)%nat (seq (L * K) n)
                = if (c <? n)%nat then [(L * K + c)%nat] else []).
    { induction n as [|n IHn]; intros Hn; [reflexivity|]. rewrite seq_S, filter_app, IHn by lia. cbn [filter].
      rewrite (Nat.add_comm (L * K) n), Nat.mod_add by lia. rewrite (Nat.mod_small n K) by lia.
      destruct (Nat.eqb_spec (n + 1) (S c)) as [E|E].
      - assert (c = n) by lia. subst n. rewrite (proj2 (Nat.ltb_ge c c)) by lia. rewrite (proj2 (Nat.ltb_lt c (S c))) by lia.
        cbn [app]. f_equal. lia.
      - rewrite app_nil_r. destruct (Nat.ltb_spec c n), (Nat.ltb_spec c (S n)); try reflexivity; lia. }
    rewrite G by lia. rewrite (proj2 (Nat.ltb_lt c K)) by lia. reflexivity.
  Qed.

  Lemma dealt_all : forall L c, (0 < K)%nat -> (c < K)%nat ->
    dealt (S c) (seq 0 (L * K)) =
    concat (map (fun q => repeat (nth ((q * K + c) mod length sellers) sellers 0) (nth (S c) recipe 0%nat)) (seq 0 L)).
  Proof. intros L c HK Hc. unfold dealt. rewrite filter_mod by assumption. rewrite map_map. reflexivity. Qed.
End Deal.

Lemma split_data_spec : forall r0 rest buyers sellers,
  let recipe := r0 :: rest in
  exists cats, split_data recipe buyers sellers = Ok cats /\ length cats = length recipe
    /\ nth_error cats 0 = Some (concat (map (fun b => repeat (b * Qn (nsum rest)) r0) buyers))
    /\ forall j, (j < length rest)%nat ->
         nth_error cats (S j) = Some (concat (map (fun q => repeat (nth ((q * length rest + j) mod length sellers) sellers 0)
                                                              (nth j rest 0%nat)) (seq 0 (length sellers)))).
Proof.
  intros r0 rest buyers sellers recipe. unfold recipe, split_data.
  replace (nsum (r0 :: rest) - r0)%nat with (nsum rest) by (simpl; lia).
  set (start := _ :: repeat [] (length (r0 :: rest) - 1)).
  destruct (deal_fold (r0 :: rest) sellers (seq 0 (length sellers * (length (r0 :: rest) - 1))) start) as [L N].
  eexists. split; [reflexivity|]. split; [|split].
  - rewrite L. unfold start. simpl. rewrite repeat_length. lia.
  - rewrite (N 0%nat _ eq_refl). f_equal.
    assert (E : dealt (r0 :: rest) sellers 0 (seq 0 (length sellers * (length (r0 :: rest) - 1))) = []).
    { unfold dealt. generalize (seq 0 (length sellers * (length (r0 :: rest) - 1))). intros l. induction l as [|i l IH]; [reflexivity|].
      cbn [filter]. destruct (Nat.eqb_spec (i mod (length (r0 :: rest) - 1) + 1) 0); [lia|exact IH]. }
    rewrite E, app_nil_r. reflexivity.
  - intros j Hj.
    assert (Hs : nth_error start (S j) = Some []).
    { unfold start. cbn [nth_error length]. rewrite Nat.sub_succ, Nat.sub_0_r.
      rewrite (nth_error_nth' _ []) by (rewrite repeat_length; exact Hj). rewrite nth_repeat. reflexivity. }
    rewrite (N _ _ Hs). cbn [app]. f_equal.
    assert (EK : (length (r0 :: rest) - 1)%nat = length rest) by (simpl; lia).
    rewrite dealt_all by (rewrite EK; lia). rewrite EK. reflexivity.
Qed.
