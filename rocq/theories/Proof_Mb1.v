(** * The old multi-buyer auction: the conversion of the recipes *)

From Coq Require Import List Arith Lia QArith Lqa Bool.
From Verif Require Import Base Model_Agents Model_Trade Model_Market Model_Prices Model_RecipeTree Model_Ascending Model_Multibuyer
  Spec_Multibuyer.
Import ListNotations.
Open Scope nat_scope.

Lemma convert_found : forall l i k counts,
  (convert_recipe i true l k counts = Ok counts /\ forall j, nth j l 0 = 0)
  \/ (convert_recipe i true l k counts = Raise ValueError /\ exists j, 0 < nth j l 0).
Proof.
  induction l as [|x l IH]; intros i k counts; cbn [convert_recipe].
  - left. split; [reflexivity|]. intros [|j]; reflexivity.
  - destruct (Nat.eqb_spec x 0) as [->|N].
    + destruct (IH (S i) k counts) as [[E H]|[E [j H]]]; rewrite E; [left|right]; split; auto.
      * intros [|j]; [reflexivity|apply H].
      * exists (S j). exact H.
    + right. split; [reflexivity|]. exists 0. simpl. lia.
Qed.

(** One recipe: no buyer, one buyer with entry 1 who is new, or an error. *)
Lemma convert_one : forall l i k counts, i + length l <= length counts ->
  (convert_recipe i false l k counts = Ok counts /\ forall j, nth j l 0 = 0)
  \/ (exists p, p < length l /\ convert_recipe i false l k counts = Ok (set_nth (i + p) k counts)
        /\ nth p l 0 = 1 /\ (forall j, j <> p -> nth j l 0 = 0) /\ nth (i + p) counts 0 = 0)
  \/ (convert_recipe i false l k counts = Raise ValueError
      /\ ((exists p q, p <> q /\ 0 < nth p l 0 /\ 0 < nth q l 0) \/ (exists p, 1 < nth p l 0)
          \/ (exists p, p < length l /\ 0 < nth p l 0 /\ 0 < nth (i + p) counts 0))).
Proof.
  induction l as [|x l IH]; intros i k counts H; cbn [convert_recipe].
  - left. split; [reflexivity|]. intros [|j]; reflexivity.
  - simpl in H. destruct (Nat.eqb_spec x 0) as [->|N].
    + destruct (IH (S i) k counts) as [[E Z]|[(p & P & E & O & Z & C)|[E B]]]; [lia| | |].
      * left. split; [assumption|]. intros [|j]; [reflexivity|apply Z].
      * right. left. exists (S p). rewrite E. simpl in C |- *. rewrite <- plus_n_Sm. repeat split; auto; [lia|].
        intros [|j] Hj; [reflexivity|apply Z; lia].
      * right. right. split; [assumption|]. destruct B as [(p & q & B1 & B2 & B3)|[(p & B)|(p & B1 & B2 & B3)]].
        -- left. exists (S p), (S q). simpl. repeat split; auto.
        -- right. left. exists (S p). exact B.
        -- right. right. exists (S p). simpl in B3 |- *. rewrite <- plus_n_Sm. repeat split; auto; lia.
    + destruct (Nat.eqb_spec x 1) as [->|N1]; cbn [negb].
      * unfold get. destruct (nth_error counts i) as [c|] eqn:EC; [|apply nth_error_None in EC; lia]. cbn [bind].
        assert (EN : nth i counts 0 = c) by (apply nth_error_nth; assumption).
        destruct (Nat.eqb_spec c 0) as [->|NC]; cbn [negb].
        -- destruct (convert_found l (S i) k (set_nth i k counts)) as [[E Z]|[E [j Hj]]]; rewrite E.
           ++ right. left. exists 0. rewrite Nat.add_0_r. repeat split; auto; [simpl; lia|]. intros [|j] Hj; [lia|apply Z].
           ++ right. right. split; [reflexivity|]. left. exists 0, (S j). simpl. repeat split; auto; lia.
        -- right. right. split; [reflexivity|]. right. right. exists 0. rewrite Nat.add_0_r. simpl. repeat split; lia.
      * right. right. split; [reflexivity|]. right. left. exists 0. simpl. lia.
Qed.

Lemma nth_removelast : forall (r : list nat) i, i < length r - 1 -> nth i (removelast r) 0 = nth i r 0.
Proof.
  intros r. induction r as [|a r IH]; intros i H; [reflexivity|]. destruct r as [|b r]; [simpl in H; lia|].
  change (removelast (a :: b :: r)) with (a :: removelast (b :: r)). destruct i; [reflexivity|]. cbn [nth]. apply IH. simpl in *. lia.
Qed.

Lemma length_removelast : forall A (r : list A), length (removelast r) = length r - 1.
Proof. intros A r. rewrite removelast_firstn_len, firstn_length. lia. Qed.

Lemma last_nth : forall (r : list nat), last r 0 = nth (length r - 1) r 0.
Proof.
  induction r as [|a r IH]; [reflexivity|]. destruct r as [|b r]; [reflexivity|]. change (last (a :: b :: r) 0) with (last (b :: r) 0).
  rewrite IH. simpl. rewrite Nat.sub_0_r. reflexivity.
Qed.

(** The recipe [r] asks for [k] units for buyer [i]. *)
Definition asks (n : nat) (r : list nat) (i k : nat) : Prop := nth i r 0 = 1 /\ nth (n - 1) r 0 = k.

Lemma convert_recipe_cases : forall n r counts, 0 < n -> length r = n -> length counts = n - 1 ->
  (convert_recipe 0 false (removelast r) (last r 0) counts = Ok counts /\ multibuyer_recipe n r /\ forall i, ~ has_buyer n r i)
  \/ (exists p, p < n - 1 /\ convert_recipe 0 false (removelast r) (last r 0) counts = Ok (set_nth p (nth (n - 1) r 0) counts)
        /\ multibuyer_recipe n r /\ has_buyer n r p /\ nth p counts 0 = 0)
  \/ (convert_recipe 0 false (removelast r) (last r 0) counts = Raise ValueError
      /\ (multibuyer_recipe n r -> exists p, has_buyer n r p /\ 0 < nth p counts 0)).
Proof.
  intros n r counts Hn HL HC. assert (LR : length (removelast r) = n - 1) by (rewrite length_removelast; lia).
  assert (NR : forall i, i < n - 1 -> nth i (removelast r) 0 = nth i r 0) by (intros; apply nth_removelast; lia).
  assert (INN : forall p, 0 < nth p (removelast r) 0 -> has_buyer n r p).
  { intros p Hp. assert (p < n - 1) by (destruct (lt_dec p (n - 1)); [assumption|rewrite nth_overflow in Hp by lia; lia]).
    split; [assumption|]. rewrite <- NR by assumption. assumption. }
  destruct (convert_one (removelast r) 0 (last r 0) counts) as [[E Z]|[(p & P & E & O & Z & C)|[E B]]]; [lia| | |].
  - left. assert (NB : forall i, ~ has_buyer n r i). { intros i [H1 H2]. rewrite <- NR, Z in H2 by assumption. lia. }
    split; [assumption|]. split; [|assumption]. split; [assumption|].
    split; [intros i Hi|intros i j Hi]; exfalso; eapply NB; eassumption.
  - right. left. exists p. rewrite LR in P. rewrite last_nth, HL in E. simpl in E, C. split; [assumption|]. split; [rewrite last_nth, HL; assumption|].
    assert (U : forall i, has_buyer n r i -> i = p).
    { intros i [H1 H2]. destruct (Nat.eq_dec i p) as [X|X]; [assumption|]. rewrite <- NR, Z in H2 by assumption. lia. }
    split; [|split; [|assumption]].
    + split; [assumption|]. split.
      * intros i Hi. rewrite (U i Hi). rewrite <- NR by assumption. assumption.
      * intros i j Hi Hj. rewrite (U i Hi), (U j Hj). reflexivity.
    + split; [assumption|]. rewrite <- NR by assumption. lia.
  - right. right. split; [assumption|]. intros (_ & M1 & M2). destruct B as [(p & q & B1 & B2 & B3)|[(p & B)|(p & B1 & B2 & B3)]].
    + exfalso. apply B1. apply M2; apply INN; assumption.
    + exfalso. assert (H := INN p ltac:(lia)). assert (X := M1 p H). rewrite <- NR in X by apply H. lia.
    + exists p. split; [apply INN; assumption|exact B3].
Qed.

Lemma nth_set_same : forall A (l : list A) i x d, i < length l -> nth i (set_nth i x l) d = x.
Proof. induction l as [|a l IH]; intros [|i] x d H; simpl in *; try lia; [reflexivity|]. apply IH. lia. Qed.

Lemma nth_set_other : forall A (l : list A) i j x d, j <> i -> nth j (set_nth i x l) d = nth j l d.
Proof.
  induction l as [|a l IH]; intros [|i] j x d H; simpl; try reflexivity.
  - destruct j; [lia|reflexivity].
  - destruct j; [reflexivity|]. apply IH. lia.
Qed.

Lemma length_set_nth : forall A (l : list A) i x, length (set_nth i x l) = length l.
Proof. induction l as [|a l IH]; intros [|i] x; simpl; auto. Qed.

Lemma convert_recipes_ok : forall n rs counts counts', 0 < n -> length counts = n - 1 ->
  convert_recipes n rs counts = Ok counts' ->
  length counts' = n - 1 /\ Forall (multibuyer_recipe n) rs
  /\ forall i c, i < n - 1 -> 0 < c -> nth i counts' 0 = c <-> (nth i counts 0 = c \/ exists r, In r rs /\ asks n r i c).
Proof.
  induction rs as [|r rs IH]; intros counts counts' Hn HL H; cbn [convert_recipes] in H.
  - injection H; intros <-. split; [assumption|]. split; [constructor|]. intros i c Hi Hc. split; [auto|]. intros [X|[r [[] _]]]. assumption.
  - destruct (Nat.eqb_spec (length r) n) as [E|E]; cbn [negb] in H; [|discriminate]. destruct r as [|a r0] eqn:ER; [simpl in E; lia|]. rewrite <- ER in *. clear ER a r0.
    destruct (convert_recipe_cases n r counts Hn E HL) as [(X & MR & NB)|[(p & P & X & MR & HB & Z)|[X _]]]; rewrite X in H; cbn [bind] in H; [| |discriminate].
    + destruct (IH _ _ Hn HL H) as (A & B & C). split; [assumption|]. split; [constructor; assumption|]. intros i c Hi Hc. rewrite (C i c Hi Hc).
      split; intros [Y|[r' [Y1 Y2]]]; auto.
      * right. exists r'. split; [right; assumption|assumption].
      * destruct Y1 as [<-|Y1]; [|right; eauto]. exfalso. apply (NB i). split; [assumption|]. destruct Y2 as [Y2 _]. lia.
    + destruct (IH (set_nth p (nth (n - 1) r 0) counts) counts' Hn) as (A & B & C); [rewrite length_set_nth; assumption|assumption|].
      split; [assumption|]. split; [constructor; assumption|]. intros i c Hi Hc. rewrite (C i c Hi Hc). destruct MR as (_ & M1 & M2).
      destruct (Nat.eq_dec i p) as [->|N].
      * rewrite nth_set_same by lia. split; intros [Y|[r' [Y1 Y2]]].
        -- right. exists r. split; [left; reflexivity|]. split; [apply M1; assumption|assumption].
        -- right. exists r'. split; [right; assumption|assumption].
        -- lia.
        -- destruct Y1 as [<-|Y1]; [left; apply Y2|right; eauto].
      * rewrite nth_set_other by assumption. split; intros [Y|[r' [Y1 Y2]]]; auto.
        -- right. exists r'. split; [right; assumption|assumption].
        -- destruct Y1 as [<-|Y1]; [|right; eauto]. exfalso. apply N. apply M2; [|assumption]. split; [assumption|]. destruct Y2 as [Y2 _]. lia.
Qed.

Lemma convert_recipes_cases : forall n rs counts, 0 < n -> length counts = n - 1 ->
  (exists counts', convert_recipes n rs counts = Ok counts') \/ convert_recipes n rs counts = Raise ValueError.
Proof.
  induction rs as [|r rs IH]; intros counts Hn HL; cbn [convert_recipes]; [eauto|].
  destruct (Nat.eqb_spec (length r) n) as [E|E]; cbn [negb]; [|auto]. destruct r as [|a r0] eqn:ER; [simpl in E; lia|]. rewrite <- ER in *. clear ER a r0.
  destruct (convert_recipe_cases n r counts Hn E HL) as [(X & _)|[(p & P & X & _)|[X _]]]; rewrite X; cbn [bind];
    [apply IH; assumption| |auto].
  apply IH; [assumption|]. rewrite length_set_nth. assumption.
Qed.

Lemma convert_recipes_total : forall n rs counts, 0 < n -> length counts = n - 1 -> Forall (multibuyer_recipe n) rs ->
  distinct_buyers n rs -> (forall r i, In r rs -> has_buyer n r i -> nth i counts 0 = 0) ->
  exists counts', convert_recipes n rs counts = Ok counts'.
Proof.
  induction rs as [|r rs IH]; intros counts Hn HL F D Z; cbn [convert_recipes]; [eauto|].
  inversion F as [|? ? MR F']; subst. assert (E : length r = n) by exact (proj1 MR).
  destruct (Nat.eqb_spec (length r) n) as [_|X]; cbn [negb]; [|contradiction].
  destruct r as [|a r0] eqn:ER; [simpl in E; lia|]. rewrite <- ER in *. clear ER a r0.
  assert (D' : distinct_buyers n rs).
  { intros i j k Hj Hk H1 H2. assert (X := D i (S j) (S k)). simpl in X. specialize (X ltac:(lia) ltac:(lia) H1 H2). lia. }
  destruct (convert_recipe_cases n r counts Hn E HL) as [(X & _)|[(p & P & X & _ & HB & Y)|[_ X]]]; [rewrite X; cbn [bind]..|].
  - apply IH; auto. intros r' i Hr. apply Z. right. assumption.
  - apply IH; auto; [rewrite length_set_nth; assumption|]. intros r' i Hr Hi. destruct (Nat.eq_dec i p) as [->|N].
    + exfalso. destruct (In_nth _ _ [] Hr) as [k [Hk Ek]]. assert (X' := D p 0 (S k)). simpl in X'. rewrite Ek in X'.
      specialize (X' ltac:(lia) ltac:(lia) HB Hi). lia.
    + rewrite nth_set_other by assumption. eapply Z; [right|]; eassumption.
  - exfalso. destruct (X MR) as (p & H1 & H2). rewrite (Z r p) in H2; [lia|left; reflexivity|assumption].
Qed.

Lemma nth_repeat0 : forall k i, nth i (repeat 0 k) 0 = 0.
Proof. induction k as [|k IH]; intros [|i]; simpl; auto. Qed.

Theorem convert_spec : forall n rs, 0 < n ->
  ((exists counts, convert_recipes_to_seller_counts rs n = Ok counts) \/ convert_recipes_to_seller_counts rs n = Raise ValueError)
  /\ (Forall (multibuyer_recipe n) rs -> distinct_buyers n rs -> exists counts, convert_recipes_to_seller_counts rs n = Ok counts)
  /\ forall counts, convert_recipes_to_seller_counts rs n = Ok counts ->
       length counts = n - 1 /\ Forall (multibuyer_recipe n) rs
       /\ forall i c, i < n - 1 -> 0 < c -> nth i counts 0 = c <-> exists r, In r rs /\ nth i r 0 = 1 /\ nth (n - 1) r 0 = c.
Proof.
  intros n rs Hn. unfold convert_recipes_to_seller_counts. assert (L : length (repeat 0 (n - 1)) = n - 1) by apply repeat_length.
  split; [apply convert_recipes_cases; assumption|]. split.
  - intros F D. apply convert_recipes_total; auto. intros. apply nth_repeat0.
  - intros counts H. destruct (convert_recipes_ok _ _ _ _ Hn L H) as (A & B & C). split; [assumption|]. split; [assumption|].
    intros i c Hi Hc. rewrite (C i c Hi Hc), nth_repeat0. split; [intros [X|X]; [lia|exact X]|auto].
Qed.
