(** * Proofs about the stock prices, continued (C85) *)

From Coq Require Import String List Arith Lia ZArith QArith Qround Lqa Permutation Bool.
From Verif Require Import Base Model_Experiment Model_StockData Spec_StockData Proof_StockData.
Import ListNotations.
Open Scope Q_scope.

Lemma truncation_comp : forall a b z, a == b -> truncation a z -> truncation b z.
Proof.
  intros a b z H [T1 T2]. split; intros Hb.
  - destruct T1 as [A B]; [lra|]. split; [exact A|lra].
  - destruct T2 as [A B]; [lra|]. split; [exact A|lra].
Qed.

Lemma truncation_unique : forall q z1 z2, truncation q z1 -> truncation q z2 -> z1 = z2.
Proof.
  intros q z1 z2 [A1 B1] [A2 B2]. destruct (Qlt_le_dec q 0) as [H|H].
  - destruct B1 as [_ C1]; [lra|]. destruct B2 as [_ C2]; [lra|].
    assert (D1 : inject_Z z1 < inject_Z (z2 + 1)) by (rewrite inject_Z_plus; change (inject_Z 1) with 1; lra).
    assert (D2 : inject_Z z2 < inject_Z (z1 + 1)) by (rewrite inject_Z_plus; change (inject_Z 1) with 1; lra).
    rewrite <- Zlt_Qlt in D1, D2. lia.
  - destruct A1 as [_ C1]; [lra|]. destruct A2 as [_ C2]; [lra|].
    assert (D1 : inject_Z z1 < inject_Z (z2 + 1)) by (rewrite inject_Z_plus; change (inject_Z 1) with 1; lra).
    assert (D2 : inject_Z z2 < inject_Z (z1 + 1)) by (rewrite inject_Z_plus; change (inject_Z 1) with 1; lra).
    rewrite <- Zlt_Qlt in D1, D2. lia.
Qed.

Lemma in_thousandths_map : forall xs, in_thousandths xs (map thousands xs).
Proof.
  induction xs as [|x xs IH]; constructor; [|exact IH].
  apply (truncation_comp (x * 1000)); [ring|apply thousands_truncation].
Qed.

Lemma in_thousandths_opp : forall xs, in_thousandths (map Qopp xs) (map thousands (array_opp xs)).
Proof.
  induction xs as [|x xs IH]; constructor; [|exact IH].
  apply (truncation_comp ((-1 * x) * 1000)); [ring|apply thousands_truncation].
Qed.

Lemma array_opp_length : forall a, length (array_opp a) = length a.
Proof. intros a. apply map_length. Qed.

Lemma array_add_length : forall a b, length a = length b -> length (array_add a b) = length a.
Proof. intros a b H. unfold array_add. rewrite map_length, combine_length. lia. Qed.

(** Which branch is taken. *)
Lemma get_prices_raw_general : forall f recipe, ~ special_recipe recipe ->
  get_prices_raw f recipe = split_data recipe (high f ++ close f) (array_opp (open_ f ++ low f)).
Proof.
  intros f recipe NS.
  assert (D : split_data recipe (high f ++ close f) (array_opp (open_ f ++ low f))
            = split_data recipe (high f ++ close f) (array_opp (open_ f) ++ array_opp (low f)))
    by (unfold array_opp; rewrite map_app; reflexivity).
  rewrite D. clear D.
  assert (TE : three_equal recipe = false).
  { destruct recipe as [|a [|b [|c [|]]]]; try reflexivity. simpl.
    destruct (Nat.eqb_spec b a), (Nat.eqb_spec c b); try reflexivity. subst. exfalso. apply NS. right; right; right; right. exists a. reflexivity. }
  assert (N1 : recipe <> [1; 1]%nat) by (intros ->; apply NS; left; reflexivity).
  assert (N2 : recipe <> [2; 1]%nat) by (intros ->; apply NS; right; left; reflexivity).
  assert (N3 : recipe <> [1; 2]%nat) by (intros ->; apply NS; right; right; left; reflexivity).
  assert (N4 : recipe <> [2; 1; 1]%nat) by (intros ->; apply NS; right; right; right; left; reflexivity).
  unfold get_prices_raw.
  destruct recipe as [|a r]; [reflexivity|].
  destruct a as [|[|[|a]]]; destruct r as [|b r]; try (rewrite TE; reflexivity).
  all: destruct b as [|[|[|b]]]; destruct r as [|c r]; try (rewrite TE; reflexivity); try congruence.
  all: destruct c as [|[|c]]; destruct r as [|e r]; try (rewrite TE; reflexivity); try congruence.
Qed.

Lemma map_rep : forall {A B} (f : A -> B) a r, map f (repeat a r) = repeat (f a) r.
Proof. intros A B f a r. induction r as [|r IH]; cbn [repeat map]; [reflexivity|]. rewrite IH. reflexivity. Qed.

(** The general recipe: what every category holds. *)
Lemma map_concat_repeat : forall (f : Q -> Z) (g : nat -> Q) r l,
  map f (concat (map (fun i => repeat (g i) r) l)) = concat (map (fun i => repeat (f (g i)) r) l).
Proof.
  intros f g r l. induction l as [|i l IH]; [reflexivity|]. cbn [map concat]. rewrite map_app, IH, map_rep. reflexivity.
Qed.

Lemma map_concat_repeat_Q : forall (f : Q -> Z) (g : Q -> Q) r l,
  map f (concat (map (fun i => repeat (g i) r) l)) = concat (map (fun i => repeat (f (g i)) r) l).
Proof.
  intros f g r l. induction l as [|i l IH]; [reflexivity|]. cbn [map concat]. rewrite map_app, IH, map_rep. reflexivity.
Qed.

Lemma nth_array_opp : forall i l, nth i (array_opp l) 0 == - nth i l 0.
Proof.
  intros i l. unfold array_opp. revert i. induction l as [|a l IH]; intros [|i]; cbn [nth map]; try reflexivity.
  apply IH.
Qed.

Lemma general_spec : forall f n r0 rest, days n f -> ~ special_recipe (r0 :: rest) ->
  exists cats, get_prices f (r0 :: rest) = Ok cats /\ length cats = S (length rest)
    /\ nth_error cats 0 = Some (concat (map (fun b => repeat (thousands (b * Qn (nsum rest))) r0) (high f ++ close f)))
    /\ forall j, (j < length rest)%nat ->
         nth_error cats (S j) = Some (concat (map (fun i => repeat (thousands (- nth i (open_ f ++ low f) 0)) (nth j rest 0%nat))
                                                  (source (2 * n) (length rest) j))).
Proof.
  intros f n r0 rest (D1 & D2 & D3 & D4) NS. unfold get_prices. rewrite get_prices_raw_general by exact NS.
  destruct (split_data_spec r0 rest (high f ++ close f) (array_opp (open_ f ++ low f))) as (cats & E & L & C0 & CJ).
  rewrite E. cbn [bind]. exists (map (map thousands) cats). split; [reflexivity|]. split; [rewrite map_length; exact L|]. split.
  - rewrite nth_error_map, C0. cbn [option_map]. f_equal. apply map_concat_repeat_Q.
  - intros j Hj. rewrite nth_error_map, (CJ j Hj). cbn [option_map]. f_equal.
    rewrite (map_concat_repeat thousands (fun q => nth ((q * length rest + j) mod length (array_opp (open_ f ++ low f))) (array_opp (open_ f ++ low f)) 0)).
    rewrite array_opp_length, app_length, D3, D4. replace (n + n)%nat with (2 * n)%nat by lia.
    unfold source. rewrite map_map. f_equal. apply map_ext. intros q. f_equal. apply thousands_comp. apply nth_array_opp.
Qed.

Lemma concat_repeat_length : forall {A B} (g : A -> B) r l, length (concat (map (fun i => repeat (g i) r) l)) = (r * length l)%nat.
Proof. intros A B g r l. induction l as [|i l IH]; cbn [map concat length]; [lia|]. rewrite app_length, repeat_length, IH. lia. Qed.

Lemma source_length : forall L K j, length (source L K j) = L.
Proof. intros. unfold source. rewrite map_length, seq_length. reflexivity. Qed.

(** Sizes. *)
Lemma special_dec : forall recipe, special_recipe recipe \/ ~ special_recipe recipe.
Proof.
  intros recipe. unfold special_recipe.
  destruct (list_eq_dec Nat.eq_dec recipe [1; 1]%nat); [tauto|]. destruct (list_eq_dec Nat.eq_dec recipe [2; 1]%nat); [tauto|].
  destruct (list_eq_dec Nat.eq_dec recipe [1; 2]%nat); [tauto|]. destruct (list_eq_dec Nat.eq_dec recipe [2; 1; 1]%nat); [tauto|].
  destruct recipe as [|a [|b [|c [|d r]]]]; try (right; intros [?|[?|[?|[?|[x H]]]]]; congruence).
  destruct (Nat.eq_dec a b) as [<-|]; [|right; intros [?|[?|[?|[?|[x H]]]]]; try congruence].
  destruct (Nat.eq_dec a c) as [<-|]; [|right; intros [?|[?|[?|[?|[x H]]]]]; try congruence].
  left. right; right; right; right. exists a. reflexivity.
Qed.

Lemma raw_three : forall f a, get_prices_raw f [a; a; a] = Ok [array_add (high f) (close f); array_opp (open_ f); array_opp (low f)].
Proof.
  intros f a.
  assert (TE : three_equal [a; a; a] = true) by (simpl; rewrite Nat.eqb_refl; reflexivity).
  unfold get_prices_raw. rewrite TE. destruct a as [|[|[|a]]]; reflexivity.
Qed.

Lemma sizes : forall f n recipe d, days n f -> recipe <> [] -> Forall (fun r => (0 < r)%nat) recipe -> deals_possible n recipe d ->
  exists cats, get_prices f recipe = Ok cats /\
    Forall2 (fun r cat => (r * d <= length cat < r * (d + 1))%nat) recipe cats.
Proof.
  intros f n recipe d D NE P DP. assert (DD := D). destruct D as (D1 & D2 & D3 & D4).
  destruct DP as [(-> & ->)|[([ E | [ E | E ] ] & ->)|[(a & -> & Hd)|(NS & ->)]]].
  - eexists. split; [reflexivity|]. cbn [map]. repeat constructor; rewrite ?map_length, ?app_length, ?array_opp_length; lia.
  - subst recipe. eexists. split; [reflexivity|]. cbn [map]. repeat constructor; rewrite ?map_length, ?app_length, ?array_add_length, ?array_opp_length;
      rewrite ?array_opp_length; lia.
  - subst recipe. eexists. split; [reflexivity|]. cbn [map]. repeat constructor; rewrite ?map_length, ?app_length, ?array_add_length, ?array_opp_length; lia.
  - subst recipe. eexists. split; [reflexivity|]. cbn [map]. repeat constructor; rewrite ?map_length, ?app_length, ?array_add_length, ?array_opp_length; lia.
  - unfold get_prices. rewrite raw_three. eexists. split; [reflexivity|]. cbn [map].
    repeat constructor; rewrite ?map_length, ?array_add_length, ?array_opp_length; lia.
  - destruct recipe as [|r0 rest]; [congruence|].
    destruct (general_spec f n r0 rest DD NS) as (cats & E & L & C0 & CJ). exists cats. split; [exact E|].
    destruct cats as [|c0 cats]; [discriminate|]. simpl in C0. injection C0 as C0. assert (P0 := Forall_inv P). assert (PR := Forall_inv_tail P). cbv beta in P0. constructor.
    + rewrite C0, (concat_repeat_length (fun b => thousands (b * Qn (nsum rest)))), app_length, D1, D2. nia.
    + assert (G : forall j, (j < length rest)%nat -> nth_error cats j = Some
          (concat (map (fun i => repeat (thousands (- nth i (open_ f ++ low f) 0)) (nth j rest 0%nat)) (source (2 * n) (length rest) j)))) by exact CJ.
      assert (LC : length cats = length rest) by (simpl in L; lia).
      assert (X : forall j, (j < length rest)%nat -> (nth j rest 0 * (2 * n) <= length (nth j cats []) < nth j rest 0 * (2 * n + 1))%nat).
      { intros j Hj. rewrite (nth_error_nth _ _ _ (G j Hj)). rewrite (concat_repeat_length (fun i => thousands (- nth i (open_ f ++ low f) 0))), source_length.
        assert (0 < nth j rest 0)%nat; [|nia]. rewrite Forall_forall in PR. apply PR. apply nth_In. exact Hj. }
      clear -X LC. revert cats LC X. induction rest as [|r rest IH]; intros [|c cats] LC X; simpl in LC; try discriminate; constructor.
      * apply (X 0%nat). simpl. lia.
      * apply IH; [lia|]. intros j Hj. apply (X (S j)). simpl. lia.
Qed.

(** ** Which sellers *)
Open Scope nat_scope.

Lemma source_permutation : forall L K j, Nat.gcd K L = 1 -> Permutation (source L K j) (seq 0 L).
Proof.
  intros L K j G. destruct (Nat.eq_dec L 0) as [->|HL]; [reflexivity|].
  apply NoDup_Permutation_bis.
  - unfold source. 
    assert (INJ : forall a b, a < L -> b < L -> (a * K + j) mod L = (b * K + j) mod L -> a <= b -> a = b).
    { intros a b Ha Hb E Hle.
      assert (Q1 := Nat.div_mod (a * K + j) L HL). assert (Q2 := Nat.div_mod (b * K + j) L HL).
      assert (DV : Nat.divide L (K * (b - a))).
      { exists ((b * K + j) / L - (a * K + j) / L). rewrite Nat.mul_sub_distr_r. nia. }
      apply Nat.gauss in DV; [|rewrite Nat.gcd_comm; exact G].
      destruct DV as [x Hx]. destruct x as [|x]; nia. }
    assert (H : forall l, NoDup l -> (forall x, In x l -> x < L) -> NoDup (map (fun q => (q * K + j) mod L) l)).
    { induction l as [|a l IH]; intros ND B; [constructor|]. inversion ND; subst. cbn [map]. constructor.
      - rewrite in_map_iff. intros (b & E & I). apply H1. destruct (Nat.le_ge_cases a b).
        + rewrite (INJ a b); auto; [apply B; left; reflexivity|apply B; right; exact I].
        + rewrite <- (INJ b a); auto; [apply B; right; exact I|apply B; left; reflexivity].
      - apply IH; [assumption|]. intros x I. apply B. right. exact I. }
    apply H; [apply seq_NoDup|]. intros x I. apply in_seq in I. lia.
  - rewrite source_length, seq_length. lia.
  - intros x I. unfold source in I. apply in_map_iff in I. destruct I as (q & <- & _). apply in_seq.
    assert (M := Nat.mod_upper_bound (q * K + j) L HL). lia.
Qed.

Lemma source_residue : forall L K j g i, Nat.divide g K -> Nat.divide g L -> In i (source L K j) -> i mod g = j mod g.
Proof.
  intros L K j g i [a ->] [b ->] I. unfold source in I. apply in_map_iff in I. destruct I as (q & <- & I).
  apply in_seq in I. assert (HL : b * g <> 0) by lia. assert (Hg : g <> 0) by (intros ->; lia).
  assert (D := Nat.div_mod (q * (a * g) + j) (b * g) HL).
  set (m := (q * (a * g) + j) mod (b * g)) in *. set (c := (q * (a * g) + j) / (b * g)) in *.
  assert (E1 : (q * (a * g) + j) mod g = j mod g).
  { replace (q * (a * g) + j) with (j + (q * a) * g) by lia. apply Nat.mod_add. exact Hg. }
  rewrite <- E1, D. replace (b * g * c + m) with (m + (b * c) * g) by lia. rewrite Nat.mod_add by exact Hg. reflexivity.
Qed.

Lemma round_map : forall {A} (f : nat -> A) K L, concat (map (fun q => map (fun j => f (q * K + j)) (seq 0 K)) (seq 0 L)) = map f (seq 0 (L * K)).
Proof.
  intros A f K L. induction L as [|L IH]; [reflexivity|].
  rewrite seq_S, map_app, concat_app, IH. cbn [map concat]. rewrite app_nil_r.
  replace (S L * K) with (L * K + K) by lia. rewrite seq_app, map_app. f_equal. rewrite !Nat.add_0_l.
  replace (seq (L * K) K) with (map (fun j => L * K + j) (seq 0 K)).
  - rewrite map_map. reflexivity.
  - generalize (L * K). intros s. clear. revert s. induction K as [|K IH]; intros s; [reflexivity|].
    rewrite !seq_S, map_app, IH. cbn [map]. reflexivity.
Qed.

Lemma concat_transpose : forall {A} (f : nat -> nat -> A) l1 l2,
  Permutation (concat (map (fun i => map (fun j => f i j) l2) l1)) (concat (map (fun j => map (fun i => f i j) l1) l2)).
Proof.
  intros A f l1 l2. induction l1 as [|i l1 IH]; cbn [map concat].
  - induction l2; [reflexivity|exact IHl2].
  - rewrite IH. clear IH. induction l2 as [|j l2 IH2]; [reflexivity|]. cbn [map concat].
    cbn [app]. constructor. rewrite <- IH2. rewrite !app_assoc. apply Permutation_app_tail. apply Permutation_app_comm.
Qed.

Lemma source_total : forall L K, Permutation (concat (map (source L K) (seq 0 K))) (concat (repeat (seq 0 L) K)).
Proof.
  intros L K. destruct (Nat.eq_dec L 0) as [->|HL].
  { unfold source. simpl. clear. generalize 0. induction K as [|K IH]; intros s; [reflexivity|]. simpl. apply IH. }
  unfold source. rewrite <- (concat_transpose (fun q j => (q * K + j) mod L)).
  rewrite (round_map (fun i => i mod L)). rewrite Nat.mul_comm. rewrite <- (round_map (fun i => i mod L)).
  replace (map (fun q => map (fun j => (q * L + j) mod L) (seq 0 L)) (seq 0 K)) with (repeat (seq 0 L) K); [reflexivity|].
  generalize 0 at 3. induction K as [|K IH]; intros s; [reflexivity|]. cbn [repeat seq map]. f_equal; [|apply IH].
  rewrite <- (map_id (seq 0 L)) at 1. apply map_ext_in. intros j I. apply in_seq in I.
  rewrite Nat.add_comm, Nat.mod_add by exact HL. symmetry. apply Nat.mod_small. lia.
Qed.
