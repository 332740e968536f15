(** * Prices in a better market (C112): the ascending auction *)

From Coq Require Import String List Arith Lia QArith Lqa Permutation Sorted.
From Verif Require Import Base Model_Agents Model_Trade Model_Prices Model_Market Model_Ascending
  Spec_Market Spec_Ascending Spec_Statics Spec_Reorder Proof_Market Proof_Ascending Proof_Ascending2 Proof_TA10 Proof_Initial.
Import ListNotations.
Open Scope Q_scope.

(** ** The first maximum *)

Lemma argmax_from_first : forall key l b, Sorted.StronglySorted lt (b :: l) ->
  forall y, In y (b :: l) -> (y < argmax_from key b l)%nat -> key y < key (argmax_from key b l).
Proof.
  induction l as [|x l IH]; intros b HS y Hy L; cbn [argmax_from] in *.
  - destruct Hy as [<-|[]]. lia.
  - inversion HS as [|? ? HS' HF]; subst. inversion HS' as [|? ? HS'' HF']; subst.
    destruct (Qlt_bool_reflect (key b) (key x)) as [H|H].
    + destruct (argmax_from_spec key l x) as (_ & A2 & _). destruct Hy as [<-|Hy]; [lra|]. apply IH; assumption.
    + destruct (argmax_from_spec key l b) as (A1 & A2 & A3).
      assert (HS2 : StronglySorted lt (b :: l)) by (constructor; [assumption|inversion HF; assumption]).
      destruct Hy as [<-|[<-|Hy]].
      * apply IH; [assumption|left; reflexivity|assumption].
      * assert (Hb : (b < x)%nat) by (inversion HF; assumption).
        assert (X : key b < key (argmax_from key b l)) by (apply IH; [assumption|left; reflexivity|lia]). lra.
      * apply IH; [assumption|right; assumption|assumption].
Qed.

Lemma relevant_sorted : forall recipe, StronglySorted lt (relevant_indices recipe).
Proof.
  intros recipe. unfold relevant_indices.
  assert (K : forall (f : nat -> bool) l, StronglySorted lt l -> StronglySorted lt (filter f l)).
  { intros f l H. induction H as [|a l H IH HF]; [constructor|]. cbn [filter]. destruct (f a); [|assumption]. constructor; [assumption|].
    rewrite Forall_forall in *. intros x Hx. apply filter_In in Hx. apply HF. apply Hx. }
  apply K. generalize 0%nat. induction (length recipe) as [|n IH]; intros s; [constructor|]. cbn [seq]. constructor; [apply IH|].
  apply Forall_forall. intros x Hx. apply in_seq in Hx. lia.
Qed.

(** Category [i] with [a] agents left is raised before category [j] with [b] agents left. *)
Definition ahead (recipe : list nat) (i a j b : nat) : Prop :=
  (b * nth i recipe 0 < a * nth j recipe 0 \/ (b * nth i recipe 0 = a * nth j recipe 0 /\ i < j))%nat.

Lemma choice_ahead : forall recipe ns main, choice recipe ns = Ok main -> forall j, (j < length recipe)%nat -> (0 < nth j recipe 0)%nat ->
  j <> main -> ahead recipe main (nth main ns 0%nat) j (nth j ns 0%nat).
Proof.
  intros recipe ns main H j Hj Hr Hne. destruct (choice_spec _ _ _ H) as (Hm & Hp & HA). specialize (HA j Hj Hr). unfold ahead.
  destruct (Nat.eq_dec (nth j ns 0 * nth main recipe 0)%nat (nth main ns 0 * nth j recipe 0)%nat) as [E|E]; [right|left; lia].
  split; [assumption|]. destruct (Nat.lt_ge_cases main j) as [L|L]; [assumption|exfalso].
  unfold choice, argmax in H. assert (RS := relevant_sorted recipe). assert (RI := proj2 (relevant_In recipe j) (conj Hj Hr)).
  destruct (relevant_indices recipe) as [|x l]; [discriminate|]. injection H as H. subst main.
  assert (X := argmax_from_first (ratio recipe ns) l x RS j RI ltac:(lia)). set (main := argmax_from (ratio recipe ns) x l) in *.
  unfold ratio in X. apply Qn_pos in Hr. apply Qn_pos in Hp. assert (E' : Qn (nth j ns 0 * nth main recipe 0)%nat == Qn (nth main ns 0 * nth j recipe 0)%nat) by (rewrite E; reflexivity).
  rewrite !Qn_mult in E'. set (a := Qn (nth j ns 0%nat)) in *. set (b := Qn (nth j recipe 0%nat)) in *.
  set (c := Qn (nth main ns 0%nat)) in *. set (d := Qn (nth main recipe 0%nat)) in *.
  assert (E1 : a / b == (a * d) / (b * d)) by (field; lra). assert (E2 : c / d == (c * b) / (b * d)) by (field; lra).
  rewrite E1, E2, E' in X. lra.
Qed.

(** ** Prices that an auction which always raises the first of the largest categories can reach *)

Definition used_by (recipe : list nat) (i : nat) : Prop := (i < length recipe)%nat /\ (0 < nth i recipe 0)%nat.

Definition orderly (M : Q) (recipe : list nat) (V : nat -> list Q) (f : nat -> Q) : Prop :=
  forall i, used_by recipe i -> - M <= f i /\ forall p, - M <= p -> p < f i -> (0 < exceed p (V i))%nat
    /\ forall j, used_by recipe j -> j <> i -> ahead recipe i (exceed p (V i)) j (exceed (f j) (V j)).

(** The sum is zero, or at most zero and nobody is above the prices. *)
Definition ended (recipe : list nat) (V : nat -> list Q) (f : nat -> Q) : Prop :=
  wdot f recipe <= 0 /\ (wdot f recipe == 0 \/ forall i, used_by recipe i -> exceed (f i) (V i) = 0%nat).

Lemma wdot_lt : forall f g recipe c, used_by recipe c -> (forall j, used_by recipe j -> f j <= g j) -> f c < g c -> wdot f recipe < wdot g recipe.
Proof.
  intros f g recipe c [Hc Hr] H L. set (h := fun j => if Nat.eq_dec j c then f c else g j).
  assert (A : wdot f recipe <= wdot h recipe).
  { apply wdot_le. intros j Hj Hp. unfold h. destruct (Nat.eq_dec j c) as [->|]; [lra|]. apply H. split; assumption. }
  assert (B : wdot g recipe == wdot h recipe + Qn (nth c recipe 0%nat) * (g c - h c)).
  { apply wdot_update; [assumption|]. intros j Hj. unfold h. destruct (Nat.eq_dec j c) as [->|]; [congruence|reflexivity]. }
  unfold h in B at 2. destruct (Nat.eq_dec c c) as [_|X]; [|congruence]. apply Qn_pos in Hr. nra.
Qed.

Section Core.
  Variables (M : Q) (recipe : list nat) (V V' : nat -> list Q) (f f' : nat -> Q).
  Hypothesis HO : orderly M recipe V f.
  Hypothesis HO' : orderly M recipe V' f'.
  Hypothesis HE : ended recipe V f.
  Hypothesis HE' : ended recipe V' f'.
  Hypothesis HI : forall k p, used_by recipe k -> (exceed p (V k) <= exceed p (V' k))%nat.

  Lemma others_down : forall j, used_by recipe j -> (forall p, exceed p (V' j) = exceed p (V j)) -> f' j <= f j.
  Proof.
    intros j Hj EQ. apply Qnot_lt_le. intros L.
    assert (ML : - M <= f j) by (apply HO; assumption).
    destruct (proj2 (HO' j Hj) (f j) ML L) as [P A].
    assert (Z : wdot f recipe == 0).
    { destruct (proj2 HE) as [Z|Z]; [assumption|]. rewrite EQ, (Z j Hj) in P. lia. }
    assert (K : exists k, used_by recipe k /\ f' k < f k).
    { assert (D : forall l : list nat, (exists k, In k l /\ used_by recipe k /\ f' k < f k) \/ (forall k, In k l -> used_by recipe k -> f k <= f' k)).
      { induction l as [|a l IH]; [right; intros k []|]. destruct IH as [(k & Hk & R)|IH]; [left; exists k; split; [right; assumption|assumption]|].
        destruct (Qlt_le_dec (f' a) (f a)) as [X|X].
        - destruct (lt_dec a (length recipe)) as [X1|X1]; [destruct (lt_dec 0 (nth a recipe 0%nat)) as [X2|X2]|].
          + left. exists a. split; [left; reflexivity|]. split; [split; assumption|assumption].
          + right. intros k [<-|Hk] [_ U]; [lia|apply IH; [assumption|]]. destruct (le_lt_dec (length recipe) k) as [Y|Y]; [rewrite nth_overflow in U by lia; lia|split; assumption].
          + right. intros k [<-|Hk] U; [destruct U; lia|auto].
        - right. intros k [<-|Hk] U; [assumption|auto]. }
      destruct (D (seq 0 (length recipe))) as [(k & _ & R)|R]; [exists k; assumption|exfalso].
      assert (X : wdot f recipe < wdot f' recipe).
      { apply (wdot_lt f f' recipe j Hj); [|assumption]. intros k U. apply R; [|assumption]. apply in_seq. destruct U. lia. }
      destruct HE' as [Y _]. lra. }
    destruct K as (k & Hk & Lk).
    assert (NE : k <> j) by (intros ->; lra).
    specialize (A k Hk NE).
    assert (MK : - M <= f' k) by (apply HO'; assumption).
    destruct (proj2 (HO k Hk) (f' k) MK Lk) as [_ B]. specialize (B j Hj (fun E => NE (eq_sym E))).
    assert (C := HI k (f' k) Hk). rewrite EQ in A. unfold ahead in A, B. destruct Hj, Hk. nia.
  Qed.

  Lemma own_up : forall c, used_by recipe c -> (forall j, used_by recipe j -> j <> c -> forall p, exceed p (V' j) = exceed p (V j)) -> f c <= f' c.
  Proof.
    intros c Hc EQ. apply Qnot_lt_le. intros L.
    assert (MK : - M <= f' c) by (apply HO'; assumption).
    destruct (proj2 (HO c Hc) (f' c) MK L) as [P _]. assert (C := HI c (f' c) Hc).
    assert (Z : wdot f' recipe == 0).
    { destruct (proj2 HE') as [Z|Z]; [assumption|]. rewrite (Z c Hc) in C. lia. }
    assert (X : wdot f' recipe < wdot f recipe).
    { apply (wdot_lt f' f recipe c Hc); [|assumption]. intros j U. destruct (Nat.eq_dec j c) as [->|N]; [lra|].
      apply others_down; [assumption|]. apply EQ; assumption. }
    destruct HE as [Y _]. lra.
  Qed.
End Core.

(** ** The ascending auction *)

Lemma exceed_rank : forall l n d, desc l -> (n < length l)%nat -> forall p, p < nth n l d -> (S n <= exceed p l)%nat.
Proof.
  intros l n d HS HL p H. rewrite <- (firstn_skipn (S n) l) at 1. rewrite exceed_app, exceed_all.
  - rewrite firstn_length_le by lia. lia.
  - intros v Hv. apply In_nth with (d := d) in Hv. destruct Hv as (x & Hx & <-). rewrite firstn_length_le in Hx by lia.
    assert (E : nth x (firstn (S n) l) d = nth x l d).
    { rewrite <- (firstn_skipn (S n) l) at 2. rewrite app_nth1; [reflexivity|]. rewrite firstn_length_le; lia. }
    rewrite E. assert (Y : nth n l d <= nth x l d) by (apply desc_nth; [assumption|lia|assumption]). lra.
Qed.

Lemma exceed_rank_le : forall l n d, desc l -> forall p, (n <= length l)%nat -> (n = length l \/ nth n l d <= p) -> (exceed p l <= n)%nat.
Proof.
  intros l n d HS p HL H. destruct H as [->|H]; [apply exceed_length|].
  rewrite <- (firstn_skipn n l) at 1. rewrite exceed_app.
  assert (A := exceed_length p (firstn n l)). rewrite firstn_length_le in A by lia. rewrite (exceed_zero p (skipn n l)); [lia|].
  intros v Hv. apply In_nth with (d := d) in Hv. destruct Hv as (x & Hx & <-). rewrite skipn_length in Hx.
  assert (E : nth x (skipn n l) d = nth (n + x) l d).
  { rewrite <- (firstn_skipn n l) at 2. rewrite app_nth2; rewrite firstn_length_le by lia; [|lia]. f_equal. lia. }
  rewrite E. assert (Y : nth (n + x) l d <= nth n l d) by (apply desc_nth; [assumption|lia|lia]). lra.
Qed.

(** Whoever left a category was in one that was ahead of the present ones. *)
Definition left_ahead (m : market) (recipe ns : list nat) : Prop :=
  forall i, used_by recipe i -> (nth i ns 0 < length (vals m i))%nat -> forall j, used_by recipe j -> j <> i ->
    ahead recipe i (S (nth i ns 0%nat)) j (nth j ns 0%nat).

Lemma left_ahead_outcome : forall M m recipe ns stop, outcome M m recipe ns stop -> left_ahead m recipe ns.
Proof.
  intros M m recipe ns stop [fuel H]. apply (abs_loop_ind M m recipe (left_ahead m recipe)) in H; [apply H| |].
  - intros i Hi L. rewrite sizes0_nth in L. lia.
  - intros a b HI (main & Hch & Hp & _ & ->) i Hi L j Hj Hne.
    destruct (Nat.eq_dec main i) as [<-|Ni].
    + rewrite nth_dec_same. rewrite nth_dec_other by congruence. replace (S (nth main a 0 - 1))%nat with (nth main a 0%nat) by lia.
      destruct Hj. apply (choice_ahead recipe a main Hch); assumption.
    + rewrite nth_dec_other in * by assumption. specialize (HI i Hi L j Hj Hne). assert (X := nth_dec_le main j a). unfold ahead in *.
      destruct Hi as [_ Hi]. nia.
Qed.

Lemma outcome_orderly : forall M m recipe ns stop, 0 < M -> length recipe = length m -> sorted_market m -> values_at_least (- M) m ->
  (exists j, used_by recipe j) -> outcome M m recipe ns stop -> orderly M recipe (vals m) (fp M m recipe ns stop) /\ ended recipe (vals m) (fp M m recipe ns stop).
Proof.
  intros M m recipe ns stop HM Hl HS HV Hpos HO.
  assert (LA := left_ahead_outcome _ _ _ _ _ HO).
  destruct (outcome_inv M m recipe HM Hl Hpos ns stop HO) as ([Hlen Hok] & Hneg & main & Hch & Hst).
  assert (SJ : forall j, desc (vals m j)).
  { intros j. destruct (lt_dec j (length m)) as [L|L]; [|rewrite vals_out by lia; constructor].
    eapply sorted_market_nth; [exact HS|]. apply nth_error_nth'. assumption. }
  assert (FL : forall j, (j < length m)%nat -> pr M m ns j <= fp M m recipe ns stop j).
  { intros j Hj. apply fp_lower; assumption. }
  assert (PM : forall j, - M <= pr M m ns j).
  { intros j. unfold pr. destruct (le_lt_dec (length (vals m j)) (nth j ns 0%nat)) as [L|L]; [rewrite nth_overflow by assumption; lra|].
    destruct (lt_dec j (length m)) as [J|J]; [|rewrite vals_out in L by lia; simpl in L; lia].
    apply (HV (nth j m dcat)); [apply nth_In; assumption|]. apply nth_In. exact L. }
  assert (EX : forall j, (j < length m)%nat -> (exceed (fp M m recipe ns stop j) (vals m j) <= nth j ns 0)%nat).
  { intros j Hj. apply (exceed_rank_le _ _ (- M)); [apply SJ|apply Hok|right]. apply FL. assumption. }
  destruct (choice_spec _ _ _ Hch) as (Hm1 & Hm2 & _).
  split.
  - intros i Hi. assert (Li : (i < length m)%nat) by (destruct Hi; lia). split; [specialize (FL i Li); specialize (PM i); lra|].
    intros p Mp Lp.
    assert (G : exists a, (0 < a <= exceed p (vals m i))%nat /\ forall j, used_by recipe j -> j <> i -> ahead recipe i a j (nth j ns 0%nat)).
    { destruct Hst as [[-> Hz]|[-> [Hp1 Hp2]]].
      - rewrite fp_other in Lp by (assumption || discriminate). unfold pr in Lp.
        destruct (le_lt_dec (length (vals m i)) (nth i ns 0%nat)) as [L|L]; [rewrite nth_overflow in Lp by assumption; lra|].
        exists (S (nth i ns 0%nat)). split; [split; [lia|apply (exceed_rank _ _ (- M)); [apply SJ|assumption|assumption]]|]. intros j Hj N. apply LA; assumption.
      - destruct (Nat.eq_dec main i) as [<-|N].
        + rewrite fp_main in Lp by assumption. destruct (bal_bounds M m recipe Hl ns main Hm1 Hm2 Hneg Hp2) as [_ U].
          exists (nth main ns 0%nat). split.
          * split; [assumption|]. assert (X : (S (nth main ns 0 - 1) <= exceed p (vals m main))%nat).
            { apply (exceed_rank _ _ (- M)); [apply SJ|specialize (Hok main); lia|lra]. } lia.
          * intros j [Hj1 Hj2] N. apply choice_ahead; assumption.
        + rewrite fp_other in Lp by (assumption || congruence). unfold pr in Lp.
          destruct (le_lt_dec (length (vals m i)) (nth i ns 0%nat)) as [L|L]; [rewrite nth_overflow in Lp by assumption; lra|].
          exists (S (nth i ns 0%nat)). split; [split; [lia|apply (exceed_rank _ _ (- M)); [apply SJ|assumption|assumption]]|]. intros j Hj N'. apply LA; assumption. }
    destruct G as (a & [Ha1 Ha2] & G). split; [lia|]. intros j Hj N. specialize (G j Hj N). assert (Lj : (j < length m)%nat) by (destruct Hj; lia).
    assert (X := EX j Lj). unfold ahead in *. destruct Hi as [_ Hi]. destruct Hj as [_ Hj]. nia.
  - split.
    + destruct Hst as [[-> Hz]|[-> [Hp1 Hp2]]].
      * assert (E : wdot (fp M m recipe ns None) recipe == psum M m recipe ns).
        { apply wdot_ext. intros j Hj _. rewrite fp_other by (discriminate || lia). reflexivity. } lra.
      * rewrite final_zero_wdot by assumption. lra.
    + destruct Hst as [[-> Hz]|[-> [Hp1 Hp2]]].
      * right. intros i Hi. assert (Li : (i < length m)%nat) by (destruct Hi; lia). assert (X := EX i Li).
        rewrite (empty_stop M m recipe HM Hl Hpos ns HO i) in X; [lia| |]; apply Hi.
      * left. apply final_zero_wdot; assumption.
Qed.

(** ** The theorem *)

Lemma improves_exceed : forall c c' p, category_improves c c' -> (exceed p (cvalues c) <= exceed p (cvalues c'))%nat.
Proof.
  intros c c' p (kept & extra & HP & HF). rewrite (exceed_perm _ _ _ HP), exceed_app. enough (exceed p (cvalues c) <= exceed p kept)%nat by lia.
  clear HP. induction HF as [|x y l l' H HF IH]; [reflexivity|].
  destruct (exceed_cons p x l) as [[L E]|[L E]]; destruct (exceed_cons p y l') as [[L' E']|[L' E']]; rewrite E, E'; try lra; lia.
Qed.

Lemma vals_clone : forall m j, Permutation (vals (clone_market m) j) (cvalues (nth j m dcat)).
Proof.
  intros m j. unfold vals, clone_market. change dcat with (clone dcat) at 1. rewrite map_nth. unfold clone, new_category. simpl.
  apply sort_desc_perm.
Qed.

Lemma improves_nth : forall m m' j, improves m m' -> category_improves (nth j m dcat) (nth j m' dcat).
Proof.
  intros m m' j H. revert j. induction H as [|c c' m m' H HF IH]; intros [|j]; cbn [nth]; try assumption; try apply IH;
    exists [], []; split; constructor.
Qed.

Theorem ascending_better : forall M rounds rounds' m m' recipe t t' P P', 0 < M -> values_at_least (- M) m -> values_at_least (- M) m' ->
  improves m m' -> ascending_auction_M M rounds m recipe = Ok t -> ascending_auction_M M rounds' m' recipe = Ok t' ->
  tprices t = Some P -> tprices t' = Some P' ->
  (forall j, (j < length m)%nat -> Permutation (cvalues (nth j m no_category)) (cvalues (nth j m' no_category)) ->
     nth j P' 0 <= nth j P 0
     /\ forall v, In v (cvalues (nth j (tcats t) no_category)) -> nth j P 0 < v -> In v (cvalues (nth j (tcats t') no_category)))
  /\ (forall c, (c < length m)%nat -> (forall j, (j < length m)%nat -> j <> c -> Permutation (cvalues (nth j m no_category)) (cvalues (nth j m' no_category))) ->
     nth c P 0 <= nth c P' 0).
Proof.
  intros M rounds rounds' m m' recipe t t' P P' HM HV HV' HI H H' HP HP'.
  destruct (auction_outcome _ _ _ _ _ H) as (Hl & Hpos & ns & stop & HO & _ & Et & _).
  destruct (auction_outcome _ _ _ _ _ H') as (Hl' & _ & ns' & stop' & HO' & _ & Et' & _).
  set (c := clone_market m) in *. set (c' := clone_market m') in *.
  assert (EP : P = final_prices M c recipe ns stop) by (rewrite Et in HP; cbn in HP; congruence).
  assert (EP' : P' = final_prices M c' recipe ns' stop') by (rewrite Et' in HP'; cbn in HP'; congruence).
  destruct (outcome_orderly M c recipe ns stop HM Hl (Proof_Market.clone_sorted m) (values_at_least_clone _ _ HV) Hpos HO) as [OR EN].
  destruct (outcome_orderly M c' recipe ns' stop' HM Hl' (Proof_Market.clone_sorted m') (values_at_least_clone _ _ HV') Hpos HO') as [OR' EN'].
  assert (LM : length m = length m').
  { clear -HI. induction HI; [reflexivity|simpl; congruence]. }
  assert (LC : length c = length m) by (unfold c; apply clone_length). assert (LC' : length c' = length m) by (unfold c'; rewrite clone_length; congruence).
  assert (HX : forall k p, used_by recipe k -> (exceed p (vals c k) <= exceed p (vals c' k))%nat).
  { intros k p _. unfold c, c'. rewrite (exceed_perm p _ _ (vals_clone m k)), (exceed_perm p _ _ (vals_clone m' k)). apply improves_exceed, improves_nth. assumption. }
  assert (SAME : forall j, Permutation (cvalues (nth j m no_category)) (cvalues (nth j m' no_category)) -> forall p, exceed p (vals c' j) = exceed p (vals c j)).
  { intros j HJ p. unfold c, c'. rewrite (exceed_perm p _ _ (vals_clone m j)), (exceed_perm p _ _ (vals_clone m' j)). symmetry. apply exceed_perm. exact HJ. }
  assert (UNUSED : forall j, (j < length m)%nat -> ~ used_by recipe j -> nth j P 0 == nth j P' 0).
  { intros j Hj NU. assert (K : forall mm nn ss, length mm = length m -> length recipe = length mm -> outcome M mm recipe nn ss -> nth j (final_prices M mm recipe nn ss) 0 == - M).
    { intros mm nn ss L1 L2 OO. change (fp M mm recipe nn ss j == - M). assert (Hx : (j < length mm)%nat) by lia.
      destruct OO as [fuel OO]. apply (abs_loop_ind M mm recipe (fun a => nth j a 0%nat = length (vals mm j))) in OO.
      - destruct OO as [E (main & Hch & Hst)]. rewrite fp_other; [|lia|].
        + unfold pr. rewrite E, nth_overflow by lia. reflexivity.
        + destruct (choice_spec _ _ _ Hch) as (A1 & A2 & _). destruct Hst as [[-> _]|[-> _]]; [discriminate|]. intros E2. injection E2 as ->.
          apply NU. split; assumption.
      - apply sizes0_nth.
      - intros a b E (main & Hch & _ & _ & ->). destruct (choice_spec _ _ _ Hch) as (A1 & A2 & _). rewrite nth_dec_other; [assumption|].
        intros ->. apply NU. split; assumption. }
    rewrite EP, EP'. rewrite (K c), (K c') by (assumption || congruence). reflexivity. }
  assert (DOWN : forall j, (j < length m)%nat -> Permutation (cvalues (nth j m no_category)) (cvalues (nth j m' no_category)) -> nth j P' 0 <= nth j P 0).
  { intros j Hj HJ. destruct (lt_dec 0 (nth j recipe 0%nat)) as [U|U].
    - rewrite EP, EP'. apply (others_down M recipe (vals c) (vals c') _ _ OR OR' EN EN' HX j); [split; [lia|assumption]|]. apply SAME. assumption.
    - rewrite (UNUSED j Hj); [lra|]. intros [_ X]. contradiction. }
  split.
  - intros j Hj HJ. split; [apply DOWN; assumption|]. intros v Hv Lv.
    assert (X := DOWN j Hj HJ). rewrite Et' . cbn [tcats]. unfold shrink.
    assert (Lj : (j < length c')%nat) by lia.
    rewrite (nth_map_seq _ _ _ j _ Lj). cbn [cvalues].
    rewrite Et in Hv. cbn [tcats] in Hv. unfold shrink in Hv. rewrite (nth_map_seq _ _ _ j _) in Hv by lia. cbn [cvalues] in Hv.
    assert (IV : In v (vals c' j)).
    { eapply Permutation_in; [apply Permutation_sym, vals_clone|]. eapply Permutation_in; [exact HJ|].
      eapply Permutation_in; [apply vals_clone|]. fold c. rewrite <- (firstn_skipn (nth j ns 0%nat) (vals c j)). apply in_or_app. left. assumption. }
    rewrite <- (firstn_skipn (nth j ns' 0%nat) (vals c' j)) in IV. apply in_app_or in IV. destruct IV as [IV|IV]; [assumption|exfalso].
    assert (G := gone_bounded M c' recipe HM Hl' Hpos ns' stop' j v HO' (Proof_Market.clone_sorted m') Lj IV). unfold fp in G. rewrite <- EP' in G. lra.
  - intros k Hk HK. destruct (lt_dec 0 (nth k recipe 0%nat)) as [U|U].
    + rewrite EP, EP'. apply (own_up M recipe (vals c) (vals c') _ _ OR OR' EN EN' HX k); [split; [lia|assumption]|].
      intros j Hj N. apply SAME. apply HK; [destruct Hj; lia|assumption].
    + rewrite (UNUSED k Hk); [lra|]. intros [_ X]. contradiction.
Qed.
