(** * C118: the two sides of McAfee's protocol with doubles, in either order *)

From Coq Require Import List Arith ZArith Bool Lia.
From Coq Require Import SpecFloat.
From Verif Require Import Base Model_Float Model_FloatMcAfee Proof_FM1.
Import ListNotations.

Lemma fadd_comm : forall x y, fadd x y = fadd y x.
Proof.
  assert (K : forall sx mx ex sy my ey, fadd (S754_finite sx mx ex) (S754_finite sy my ey) = fadd (S754_finite sy my ey) (S754_finite sx mx ex)).
  { intros. unfold fadd. cbn [SFadd]. cbv zeta. rewrite (Z.min_comm ex ey). rewrite Z.add_comm. reflexivity. }
  intros x y. destruct x as [[]|[]| |sx mx ex], y as [[]|[]| |sy my ey]; first [apply K|reflexivity].
Qed.

Lemma fint0 : fint 0 = S754_zero false. Proof. reflexivity. Qed.

Lemma sum2_comm : forall x y, fadd (fadd (fint 0) x) y = fadd (fadd (fint 0) y) x.
Proof.
  intros x y. rewrite fint0. destruct x as [[]|[]| |sx mx ex], y as [[]|[]| |sy my ey]; first [apply (fadd_comm (S754_finite _ _ _) (S754_finite _ _ _))|reflexivity].
Qed.

Lemma gft_swap : forall x y, f_gft [y; x] = f_gft [x; y].
Proof. intros x y. unfold f_gft. cbn [fold_left]. apply sum2_comm. Qed.

Definition two (d : list double) : Prop := exists x y, d = [x; y].

Lemma loop_swap : forall it a b, f_optimal_loop it [b; a] = (map (@rev double) (fst (f_optimal_loop it [a; b])), rev (snd (f_optimal_loop it [a; b]))).
Proof.
  induction it as [|it IH]; intros a b; [reflexivity|]. cbn [f_optimal_loop]. destruct a as [|x a], b as [|y b]; try reflexivity. cbn [f_heads].
  rewrite (gft_swap x y). destruct (flt (f_gft [x; y]) (fint 0)); [reflexivity|]. cbn [map tl]. rewrite (IH a b). reflexivity.
Qed.

Lemma loop_two : forall it a b d, In d (fst (f_optimal_loop it [a; b])) -> two d.
Proof.
  induction it as [|it IH]; intros a b d H; [destruct H|]. cbn [f_optimal_loop] in H. destruct a as [|x a], b as [|y b]; try (destruct H; fail). cbn [f_heads] in H.
  destruct (flt (f_gft [x; y]) (fint 0)); [destruct H|]. cbn [map tl fst] in H. destruct H as [<-|H]; [exists x, y; reflexivity|apply (IH a b d H)].
Qed.

Lemma loop_rest : forall it a b, exists a' b', snd (f_optimal_loop it [a; b]) = [a'; b'].
Proof.
  induction it as [|it IH]; intros a b; [exists a, b; reflexivity|]. cbn [f_optimal_loop]. destruct a as [|x a], b as [|y b]; try (do 2 eexists; reflexivity). cbn [f_heads].
  destruct (flt (f_gft [x; y]) (fint 0)); [do 2 eexists; reflexivity|]. cbn [map tl snd]. apply IH.
Qed.

Lemma by_gft_swap : forall deals, (forall d, In d deals -> two d) -> f_by_gft (map (@rev double) deals) = map (@rev double) (f_by_gft deals).
Proof.
  intros deals H. unfold f_by_gft. symmetry. apply isort_map. intros d e D E. destruct (H d D) as (x & y & ->). destruct (H e E) as (x' & y' & ->). cbn [rev app]. rewrite (gft_swap x y), (gft_swap x' y'). reflexivity.
Qed.

Lemma add_swap : forall deals t1 t2, (forall d, In d deals -> two d) ->
  fold_left (fun t ps => f_add_ps ps t) (map (@rev double) deals) [t2; t1] = rev (fold_left (fun t ps => f_add_ps ps t) deals [t1; t2])
  /\ exists u1 u2, fold_left (fun t ps => f_add_ps ps t) deals [t1; t2] = [u1; u2].
Proof.
  induction deals as [|d deals IH]; intros t1 t2 H; [split; [reflexivity|do 2 eexists; reflexivity]|].
  destruct (H d (or_introl eq_refl)) as (x & y & ->). cbn [map rev app fold_left f_add_ps]. apply IH. intros e E. apply H. right. exact E.
Qed.

Lemma good_swap : forall c x y, f_good_price c [y; x] = f_good_price c [x; y].
Proof. intros c x y. unfold f_good_price. cbn [forallb]. rewrite !andb_true_r. apply andb_comm. Qed.

Lemma candidate_swap : forall x y, f_candidate [y; x] = f_candidate [x; y].
Proof. intros x y. unfold f_candidate. cbn [length Nat.eqb map fold_left]. rewrite sum2_comm. reflexivity. Qed.

Definition swapped (r : result (list (list double) * list double)) : result (list (list double) * list double) :=
  match r with Ok (t, p) => Ok (rev t, rev p) | e => e end.

Theorem mcafee_swap : forall it a b h, f_mcafee it [b; a] h = swapped (f_mcafee it [a; b] h).
Proof.
  intros it a b h. unfold f_mcafee. cbn [map]. rewrite (loop_swap it (f_desc a) (f_desc b)). cbn [fst snd].
  assert (T := loop_two it (f_desc a) (f_desc b)). destruct (loop_rest it (f_desc a) (f_desc b)) as (a' & b' & ER). rewrite ER. cbn [rev app map].
  rewrite (by_gft_swap _ T).
  assert (T' : forall d, In d (f_by_gft (fst (f_optimal_loop it [f_desc a; f_desc b]))) -> two d) by (intros d D; apply T; apply (isort_In _ _ _ _ D)).
  set (A := match a' with [] => [fint (-100000000)] | _ :: _ => a' end). set (B := match b' with [] => [fint (-100000000)] | _ :: _ => b' end).
  assert (EA : exists x l, A = x :: l) by (unfold A; destruct a'; eauto). assert (EB : exists x l, B = x :: l) by (unfold B; destruct b'; eauto).
  destruct EA as (x & la & ->). destruct EB as (y & lb & ->). cbn [f_heads].
  revert T'. generalize (f_by_gft (fst (f_optimal_loop it [f_desc a; f_desc b]))). intros deals T'.
  assert (MAIN : forall cand : option double,
    match map (@rev double) deals with
    | [] => Ok ([[]; []], [fint 0; fint 0])
    | last_positive :: others => match cand with
       | Some c => if f_good_price c last_positive
          then Ok (fold_left (fun t ps => f_add_ps ps t) (last_positive :: others) [[]; []], map (fun x => if flt x (fint 0) then fmul c (fint (-1)) else fmul c (fint 1)) last_positive)
          else Ok (fold_left (fun t ps => f_add_ps ps t) others [[]; []], last_positive)
       | None => Ok (fold_left (fun t ps => f_add_ps ps t) others [[]; []], last_positive) end end
    = swapped (match deals with
    | [] => Ok ([[]; []], [fint 0; fint 0])
    | last_positive :: others => match cand with
       | Some c => if f_good_price c last_positive
          then Ok (fold_left (fun t ps => f_add_ps ps t) (last_positive :: others) [[]; []], map (fun x => if flt x (fint 0) then fmul c (fint (-1)) else fmul c (fint 1)) last_positive)
          else Ok (fold_left (fun t ps => f_add_ps ps t) others [[]; []], last_positive)
       | None => Ok (fold_left (fun t ps => f_add_ps ps t) others [[]; []], last_positive) end end)).
  { intros cand. destruct deals as [|d others]; [reflexivity|]. assert (TO : forall e, In e others -> two e) by (intros e E; apply T'; right; exact E).
    destruct (add_swap (d :: others) [] [] T') as [S1 _]. destruct (add_swap others [] [] TO) as [S2 _]. cbn [map] in S1 |- *.
    destruct (T' d (or_introl eq_refl)) as (p & q & ->). cbn [rev app] in S1 |- *. destruct cand as [c|]; [|rewrite S2; reflexivity].
    rewrite good_swap. destruct (f_good_price c [p; q]); [rewrite S1|rewrite S2]; reflexivity. }
  destruct h.
  - rewrite candidate_swap. unfold f_candidate. cbn [length Nat.eqb bind]. apply (MAIN (Some (fdiv (fold_left fadd (map SFabs [x; y]) (fint 0)) (fint (Z.of_nat 2))))).
  - cbn [bind]. apply (MAIN None).
Qed.

Theorem two_sides : forall it bs ss h tb ts p1 p2, f_mcafee it [bs; ss] h = Ok ([tb; ts], [p1; p2]) <-> f_mcafee it [ss; bs] h = Ok ([ts; tb], [p2; p1]).
Proof.
  intros it bs ss h tb ts p1 p2. split; intros H; rewrite mcafee_swap, H; reflexivity.
Qed.
