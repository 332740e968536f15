(** * C100: the statements about the traders *)

From Coq Require Import String ZArith QArith List Lia Sorted Permutation.
From Coq Require Import SpecFloat.
From Verif Require Import Base Model_Agents Model_Market Model_Float Model_FloatMcAfee Spec_Float Spec_FloatMcAfee Proof_Float2 Proof_FM1 Proof_FM2 Proof_FM3.
Import ListNotations.

Local Open Scope nat_scope.

Lemma float_no_deficit : forall iterations bs ss heuristic, Forall finite_double bs -> Forall finite_double ss ->
  exists tb ts p1 p2, f_mcafee iterations [bs; ss] heuristic = Ok ([tb; ts], [p1; p2])
    /\ finite_double p1 /\ finite_double p2 /\ (0 <= dval p1 + dval p2)%Q.
Proof.
  intros it bs ss h Hb Hs. destruct (result2 it bs ss h Hb Hs) as (tb & ts & p1 & p2 & kept & dropped & E & F1 & F2 & N & _). exists tb, ts, p1, p2. auto.
Qed.

Lemma split_desc : forall k l v w, Forall finite_double l -> In v (firstn k (f_desc l)) -> In w (skipn k (f_desc l)) -> (dval w <= dval v)%Q.
Proof.
  intros k l v w H V W. assert (S := f_desc_sorted l H). assert (F := f_desc_finite l H). revert V W S F. generalize (f_desc l). clear. intros r. revert k.
  induction r as [|x r IH]; intros [|k] V W S F; cbn in V, W; try contradiction. apply StronglySorted_inv in S. destruct S as [S1 S2]. inversion F as [|? ? F1 F2]; subst.
  destruct V as [<-|V]; [|apply (IH k); assumption].
  assert (W' : In w r) by (rewrite <- (firstn_skipn k r); apply in_or_app; right; exact W). rewrite Forall_forall in S2, F2. specialize (S2 w W'). rewrite fle_dval in S2 by auto. apply Qle_bool_iff. exact S2.
Qed.

Lemma float_traders : forall iterations bs ss heuristic tb ts p1 p2 deals remaining, Forall finite_double bs -> Forall finite_double ss ->
  f_mcafee iterations [bs; ss] heuristic = Ok ([tb; ts], [p1; p2]) ->
  optimal_trade iterations (exact_market [bs; ss]) [1; 1] true = Ok (deals, remaining) ->
  (deals = [] -> (dval p1 == 0)%Q /\ (dval p2 == 0)%Q) /\
  exists rb rs worse_b worse_s,
    Permutation (tb ++ rb ++ worse_b) bs /\ Permutation (ts ++ rs ++ worse_s) ss
    /\ length (tb ++ rb) = length deals /\ length (ts ++ rs) = length deals /\ length rb = length rs /\ length rb <= 1
    /\ (forall v w, In v (tb ++ rb) -> In w worse_b -> (dval w <= dval v)%Q) /\ (forall v w, In v (ts ++ rs) -> In w worse_s -> (dval w <= dval v)%Q).
Proof.
  intros it bs ss h tb ts p1 p2 deals rem Hb Hs H O. rewrite optimal2 in O by assumption. fold (the_deals it bs ss) in O. injection O as <- _.
  destruct (result2 it bs ss h Hb Hs) as (tb' & ts' & q1 & q2 & kept & dropped & E & _ & _ & _ & PK & LD & PB & PS & Z & _). rewrite H in E. injection E as <- <- <- <-.
  split.
  { intros N. destruct (Z) as [-> ->]; [|split; reflexivity]. apply (f_equal (@length _)) in N. unfold sort_by in N. rewrite isort_length, map_length in N. destruct (the_deals it bs ss); [reflexivity|discriminate]. }
  unfold sort_by. rewrite isort_length, map_length.
  destruct (loop_pairs it (f_desc bs) (f_desc ss)) as (k & K1 & K2 & K3 & _). unfold the_deals in *. rewrite K3 in *.
  destruct (pairs_nth k _ _ K1 K2 (fint 0)) as [N0 N1].
  exists (map (fun ps => nth 0 ps (fint 0)) dropped), (map (fun ps => nth 1 ps (fint 0)) dropped), (skipn k (f_desc bs)), (skipn k (f_desc ss)).
  assert (P0 : Permutation (tb ++ map (fun ps => nth 0 ps (fint 0)) dropped) (firstn k (f_desc bs))). { rewrite PB, <- map_app, <- N0. apply Permutation_map. exact PK. }
  assert (P1 : Permutation (ts ++ map (fun ps => nth 1 ps (fint 0)) dropped) (firstn k (f_desc ss))). { rewrite PS, <- map_app, <- N1. apply Permutation_map. exact PK. }
  rewrite pairs_length by assumption. rewrite !app_assoc.
  split; [rewrite P0, firstn_skipn; apply f_desc_perm|]. split; [rewrite P1, firstn_skipn; apply f_desc_perm|].
  split; [rewrite (Permutation_length P0), firstn_length; lia|]. split; [rewrite (Permutation_length P1), firstn_length; lia|].
  split; [rewrite !map_length; reflexivity|]. split; [rewrite map_length; exact LD|].
  split; intros v w V W.
  - apply (split_desc k bs); auto. apply (Permutation_in _ P0). exact V.
  - apply (split_desc k ss); auto. apply (Permutation_in _ P1). exact V.
Qed.
