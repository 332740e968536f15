(** * The statements of C85 in terms of [in_thousandths] *)

From Coq Require Import String List Arith Lia ZArith QArith Lqa Permutation.
From Verif Require Import Base Model_Experiment Model_StockData Spec_StockData Proof_StockData Proof_StockData2 Proof_StockData3.
Import ListNotations.
Open Scope Q_scope.

Lemma in_thousandths_ext : forall xs ys zs, Forall2 Qeq xs ys -> in_thousandths xs zs -> in_thousandths ys zs.
Proof.
  intros xs ys zs H. revert zs. induction H as [|x y xs ys E H IH]; intros zs T; inversion T; subst; constructor.
  - apply (truncation_comp (1000 * x)); [rewrite E; reflexivity|assumption].
  - apply IH. assumption.
Qed.

Lemma Forall2_Qeq_refl : forall l, Forall2 Qeq l l.
Proof. induction l; constructor; [reflexivity|assumption]. Qed.

Lemma opp_lists : forall l, Forall2 Qeq (array_opp l) (map Qopp l).
Proof. unfold array_opp. induction l; cbn [map]; constructor; [ring|assumption]. Qed.

Lemma add_opp_lists : forall a b, Forall2 Qeq (array_add (array_opp a) (array_opp b)) (map (fun p => - (fst p + snd p)) (combine a b)).
Proof.
  unfold array_add, array_opp. induction a as [|x a IH]; intros [|y b]; cbn [map combine]; constructor; cbn [fst snd]; [ring|apply IH].
Qed.

Lemma thousandths_opp : forall l, in_thousandths (map Qopp l) (map thousands (array_opp l)).
Proof. intros l. apply (in_thousandths_ext (array_opp l)); [apply opp_lists|apply in_thousandths_map]. Qed.

Lemma thousandths_opp_app : forall a b, in_thousandths (map Qopp (a ++ b)) (map thousands (array_opp a ++ array_opp b)).
Proof. intros a b. replace (array_opp a ++ array_opp b) with (array_opp (a ++ b)) by (unfold array_opp; apply map_app). apply thousandths_opp. Qed.

Lemma special_contents : forall f n, days n f ->
  (exists c0 c1, get_prices f [1; 1]%nat = Ok [c0; c1] /\ in_thousandths (high f ++ close f) c0
     /\ in_thousandths (map Qopp (open_ f ++ low f)) c1)
  /\ (exists c0 c1, get_prices f [2; 1]%nat = Ok [c0; c1] /\ in_thousandths (high f ++ close f) c0
     /\ in_thousandths (map (fun p => - (fst p + snd p)) (combine (open_ f) (low f))) c1)
  /\ (exists c0 c1, get_prices f [1; 2]%nat = Ok [c0; c1]
     /\ in_thousandths (map (fun p => fst p + snd p) (combine (high f) (close f))) c0
     /\ in_thousandths (map Qopp (open_ f ++ low f)) c1)
  /\ (exists c0 c1 c2, get_prices f [2; 1; 1]%nat = Ok [c0; c1; c2] /\ in_thousandths (high f ++ close f) c0
     /\ in_thousandths (map Qopp (open_ f)) c1 /\ in_thousandths (map Qopp (low f)) c2)
  /\ (forall a, exists c0 c1 c2, get_prices f [a; a; a] = Ok [c0; c1; c2]
     /\ in_thousandths (map (fun p => fst p + snd p) (combine (high f) (close f))) c0
     /\ in_thousandths (map Qopp (open_ f)) c1 /\ in_thousandths (map Qopp (low f)) c2).
Proof.
  intros f n D.
  split; [|split; [|split; [|split]]].
  - do 2 eexists. split; [reflexivity|]. split; [apply in_thousandths_map|apply thousandths_opp_app].
  - do 2 eexists. split; [reflexivity|]. split; [apply in_thousandths_map|].
    apply (in_thousandths_ext _ _ _ (add_opp_lists _ _)). apply in_thousandths_map.
  - do 2 eexists. split; [reflexivity|]. split; [apply in_thousandths_map|apply thousandths_opp_app].
  - do 3 eexists. split; [reflexivity|]. split; [apply in_thousandths_map|]. split; apply thousandths_opp.
  - intros a. unfold get_prices. rewrite raw_three. do 3 eexists. split; [reflexivity|].
    split; [apply in_thousandths_map|]. split; apply thousandths_opp.
Qed.

Lemma general_contents : forall f n r0 rest, days n f -> ~ special_recipe (r0 :: rest) ->
  exists c0 cs, get_prices f (r0 :: rest) = Ok (c0 :: cs) /\ length cs = length rest
    /\ (exists zs, in_thousandths (map (fun x => x * inject_Z (Z.of_nat (nsum rest))) (high f ++ close f)) zs
          /\ c0 = concat (map (fun z => repeat z r0) zs))
    /\ forall j r, nth_error rest j = Some r -> exists zs,
         in_thousandths (map (fun i => - nth i (open_ f ++ low f) 0) (source (2 * n) (length rest) j)) zs
         /\ nth_error cs j = Some (concat (map (fun z => repeat z r) zs)).
Proof.
  intros f n r0 rest D NS. destruct (general_spec f n r0 rest D NS) as (cats & E & L & C0 & CJ).
  destruct cats as [|c0 cs]; [discriminate|]. exists c0, cs. split; [exact E|]. split; [simpl in L; lia|]. split.
  - exists (map thousands (map (fun x => x * inject_Z (Z.of_nat (nsum rest))) (high f ++ close f))).
    split; [apply in_thousandths_map|]. simpl in C0. injection C0 as ->. rewrite !map_map. reflexivity.
  - intros j r Hr. assert (Hj : (j < length rest)%nat) by (apply nth_error_Some; congruence).
    exists (map thousands (map (fun i => - nth i (open_ f ++ low f) 0) (source (2 * n) (length rest) j))).
    split; [apply in_thousandths_map|]. assert (Y := CJ j Hj). cbn [nth_error] in Y. rewrite Y. rewrite (nth_error_nth _ _ _ Hr).
    rewrite !map_map. reflexivity.
Qed.

Lemma coprime_contents : forall f n r0 rest cats j r cat, days n f -> ~ special_recipe (r0 :: rest) ->
  Nat.gcd (length rest) (2 * n) = 1%nat -> get_prices f (r0 :: rest) = Ok cats ->
  nth_error rest j = Some r -> nth_error cats (S j) = Some cat ->
  exists zs, in_thousandths (map Qopp (open_ f ++ low f)) zs /\ Permutation cat (concat (map (fun z => repeat z r) zs)).
Proof.
  intros f n r0 rest cats j r cat D NS G E Hr Hc.
  exists (map thousands (map Qopp (open_ f ++ low f))). split; [apply in_thousandths_map|].
  rewrite (coprime_categories f n r0 rest cats j r cat D NS G E Hr Hc). rewrite !map_map. reflexivity.
Qed.

Lemma thousands_thousandth : forall x, thousandth x (thousands x).
Proof. intros x. apply (truncation_comp (x * 1000)); [ring|apply thousands_truncation]. Qed.

Lemma residue_contents : forall f n r0 rest cats j cat z g, days n f -> ~ special_recipe (r0 :: rest) ->
  Nat.divide g (length rest) -> Nat.divide g (2 * n) -> get_prices f (r0 :: rest) = Ok cats ->
  nth_error cats (S j) = Some cat -> In z cat ->
  exists i x, nth_error (open_ f ++ low f) i = Some x /\ (i mod g = j mod g)%nat /\ thousandth (- x) z.
Proof.
  intros f n r0 rest cats j cat z g D NS G1 G2 E Hc I.
  destruct (residue_categories f n r0 rest cats j cat z g D NS G1 G2 E Hc I) as (i & x & A & B & ->).
  exists i, x. split; [exact A|]. split; [exact B|apply thousands_thousandth].
Qed.

Lemma all_contents : forall f n r0 r k cats, days n f -> ~ special_recipe (r0 :: repeat r k) ->
  get_prices f (r0 :: repeat r k) = Ok cats ->
  exists zs, in_thousandths (map Qopp (open_ f ++ low f)) zs
    /\ Permutation (concat (tl cats)) (concat (repeat (concat (map (fun z => repeat z r) zs)) k)).
Proof.
  intros f n r0 r k cats D NS E. exists (map thousands (map Qopp (open_ f ++ low f))). split; [apply in_thousandths_map|].
  rewrite (all_sellers f n r0 r k cats D NS E). rewrite !map_map. reflexivity.
Qed.

Lemma shuffled_contents : forall s1 s2 cache f name, (forall l, Permutation l (s1 l)) -> (forall l, Permutation l (s2 l)) ->
  lookup name cache = None ->
  let r := get_all_prices_shuffled s1 s2 cache f name in
  (exists zs, in_thousandths (high f ++ close f ++ open_ f ++ low f) zs /\ Permutation (fst r) zs)
  /\ forall s1' s2' f', fst (get_all_prices_shuffled s1' s2' (snd r) f' name) = fst r.
Proof.
  intros s1 s2 cache f name H1 H2 N r. split.
  - exists (map thousands (high f ++ close f ++ open_ f ++ low f)). split; [apply in_thousandths_map|].
    apply shuffled_first; assumption.
  - intros s1' s2' f'. apply (shuffled_again s1 s2 s1' s2' cache f f' name name).
Qed.
