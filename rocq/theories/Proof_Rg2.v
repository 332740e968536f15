(** * Lock-step simulation of two regrouped auctions (for C72) *)

From Coq Require Import String List Arith Lia QArith Lqa Permutation Sorted Bool.
From Verif Require Import Base Model_Agents Model_Market Model_RecipeTree Model_TreeAuction
  Spec_Market Spec_RecipeTree Spec_TreeAuction Spec_Regroup Proof_Agents Proof_Market Proof_Tree Proof_TA1 Proof_TA2 Proof_TA3 Proof_TA6 Proof_TA7
  Proof_TA8 Proof_Rg1.
Import ListNotations.
Open Scope Q_scope.

Notation vl cats i := (cvalues (cat_at cats i)) (only parsing).

(** ** One group *)

Definition strict_group (M : Q) (cats cats' : list category) (J : list nat) (j' : nat) (p : Q) : Prop :=
  Permutation (agents_of cats J) (vl cats' j') /\ sdesc (vl cats' j')
  /\ (forall i, In i J -> desc (vl cats i)) /\ forall v, In v (vl cats' j') -> p < v /\ v <= M.

Definition group (M : Q) (cats cats' : list category) (J : list nat) (j' : nat) (p : Q) : Prop :=
  (exists i, J = [i] /\ vl cats i = vl cats' j') \/ strict_group M cats cats' J j' p.

Lemma agents_length : forall cats J, length (agents_of cats J) = nsum (map (fun i => csize (cat_at cats i)) J).
Proof.
  intros cats J. unfold agents_of. induction J as [|i J IH]; [reflexivity|]. cbn [map concat]. rewrite app_length, IH. reflexivity.
Qed.

Lemma agents_In : forall cats J i v, In i J -> In v (vl cats i) -> In v (agents_of cats J).
Proof.
  intros cats J i v Hi Hv. unfold agents_of. apply in_concat. exists (vl cats i). split; [|assumption].
  apply in_map_iff. exists i. auto.
Qed.

Lemma agents_inv : forall cats J v, In v (agents_of cats J) -> exists i, In i J /\ In v (vl cats i).
Proof.
  intros cats J v H. unfold agents_of in H. apply in_concat in H. destruct H as [l [Hl Hv]].
  apply in_map_iff in Hl. destruct Hl as [i [<- Hi]]. eauto.
Qed.

Lemma group_perm : forall M cats cats' J j' p, group M cats cats' J j' p -> Permutation (agents_of cats J) (vl cats' j').
Proof.
  intros M cats cats' J j' p [[i [-> E]]|[H _]]; [|assumption]. unfold agents_of. cbn [map concat]. rewrite app_nil_r, E. reflexivity.
Qed.

Lemma group_size : forall M cats cats' J j' p, group M cats cats' J j' p ->
  csize (cat_at cats' j') = nsum (map (fun i => csize (cat_at cats i)) J).
Proof.
  intros M cats cats' J j' p H. rewrite <- agents_length. unfold csize. symmetry. apply Permutation_length.
  eapply group_perm. exact H.
Qed.

Lemma tgt_eq : forall M c c', cvalues c = cvalues c' -> tgt M c = tgt M c'.
Proof. intros M c c' H. unfold tgt. rewrite H. reflexivity. Qed.

Lemma sdesc_desc : forall l, sdesc l -> desc l.
Proof.
  intros l H. induction H as [|a l _ IH H]; [constructor|]. constructor; [assumption|].
  rewrite Forall_forall in *. intros x Hx. apply Qlt_le_weak. auto.
Qed.

(** The planned price of the merged category is the lowest planned price of the group. *)
Lemma group_tgt : forall M cats cats' J j' p, J <> [] -> group M cats cats' J j' p ->
  (forall i, In i J -> tgt M (cat_at cats' j') <= tgt M (cat_at cats i))
  /\ exists i, In i J /\ tgt M (cat_at cats i) == tgt M (cat_at cats' j').
Proof.
  intros M cats cats' J j' p HJ [[i [-> E]]|(HP & HS & HD & HB)].
  - split; [intros k [<-|[]]; rewrite (tgt_eq M _ _ E); lra|].
    exists i. split; [left; reflexivity|]. rewrite (tgt_eq M _ _ E). reflexivity.
  - assert (LE : forall i v, In i J -> In v (vl cats i) -> In v (vl cats' j')).
    { intros i v Hi Hv. eapply Permutation_in; [exact HP|]. eapply agents_In; eassumption. }
    destruct (vl cats' j') as [|x l] eqn:Ev.
    + assert (Z : forall i, In i J -> vl cats i = []).
      { intros i Hi. destruct (vl cats i) as [|y k] eqn:Ei; [reflexivity|]. exfalso. apply (LE i y Hi). rewrite Ei. left. reflexivity. }
      unfold tgt at 1 4. rewrite Ev. split.
      * intros i Hi. unfold tgt. rewrite (Z i Hi). lra.
      * destruct J as [|i J]; [contradiction|]. exists i. split; [left; reflexivity|]. unfold tgt. rewrite (Z i (or_introl eq_refl)). reflexivity.
    + assert (T : tgt M (cat_at cats' j') = last (x :: l) 0) by (unfold tgt; rewrite Ev; reflexivity). rewrite T.
      assert (LI : In (last (x :: l) 0) (x :: l)) by (apply last_In; discriminate).
      assert (DX := sdesc_desc _ HS).
      assert (LB : forall i, In i J -> last (x :: l) 0 <= tgt M (cat_at cats i)).
      { intros i Hi. unfold tgt. destruct (vl cats i) as [|y k] eqn:Ei.
        - apply (HB _ LI).
        - apply last_le; [assumption|]. apply (LE i); [assumption|]. rewrite Ei. apply last_In. discriminate. }
      split; [assumption|]. assert (LJ := Permutation_in _ (Permutation_sym HP) LI). apply agents_inv in LJ.
      destruct LJ as [i [Hi Hv]]. exists i. split; [assumption|]. apply Qle_antisym; [|apply LB; assumption].
      unfold tgt. destruct (vl cats i) as [|y k] eqn:Ei; [destruct Hv|]. rewrite <- Ei in *. apply last_le; [apply HD|]; assumption.
Qed.

Lemma exists_last_or_nil : forall l : list Q, l = [] \/ exists w v, l = (w ++ [v])%list.
Proof.
  intros l. destruct l as [|a l]; [left; reflexivity|right].
  destruct (exists_last (l := a :: l)) as (w & v & E); [discriminate|]. eauto.
Qed.

Lemma beaten_eq : forall c c' p p', cvalues c = cvalues c' -> p == p' -> beaten c p = beaten c' p'.
Proof.
  intros c c' p p' E Hp. unfold beaten. rewrite E. destruct (cvalues c') as [|v l]; [reflexivity|].
  apply eq_iff_eq_true. rewrite !Qle_bool_iff. rewrite Hp. tauto.
Qed.

Lemma beat_values : forall c p, cvalues (beat c p) = if beaten c p then removelast (cvalues c) else cvalues c.
Proof. intros. unfold beat. destruct (beaten c p); reflexivity. Qed.

Lemma beaten_no : forall c p, (forall v, In v (cvalues c) -> p < v) -> beaten c p = false.
Proof.
  intros c p H. unfold beaten. destruct (cvalues c) as [|x l] eqn:E; [reflexivity|].
  assert (X := H (last (x :: l) 0) ltac:(apply last_In; discriminate)).
  destruct (Qle_bool_reflect (last (x :: l) 0) p) as [Y|Y]; [lra|reflexivity].
Qed.

Lemma agents_app : forall cats J K, agents_of cats (J ++ K) = (agents_of cats J ++ agents_of cats K)%list.
Proof. intros. unfold agents_of. rewrite map_app, concat_app. reflexivity. Qed.

Lemma agents_same : forall cats cats1 J, (forall i, In i J -> vl cats1 i = vl cats i) -> agents_of cats1 J = agents_of cats J.
Proof. intros cats cats1 J H. unfold agents_of. f_equal. apply map_ext_in. assumption. Qed.

(** Removal of the beaten agents. *)
Lemma group_beat : forall M cats cats' cats1 cats1' J j' p q q', group M cats cats' J j' p ->
  (strict_group M cats cats' J j' p -> forall v, In v (vl cats' j') -> q' <= v) -> (forall i, In i J -> q i == q') ->
  (forall i, cat_at cats1 i = beat (cat_at cats i) (q i)) -> cat_at cats1' j' = beat (cat_at cats' j') q' ->
  group M cats1 cats1' J j' q'.
Proof.
  intros M cats cats' cats1 cats1' J j' p q q' HG HT HQ H1 H1'.
  destruct HG as [[i [-> E]]|(HP & HS & HD & HB)].
  - left. exists i. split; [reflexivity|]. rewrite H1, H1', !beat_values.
    rewrite (beaten_eq _ _ _ _ E (HQ i (or_introl eq_refl))), E. reflexivity.
  - right. destruct (exists_last_or_nil (vl cats' j')) as [E|(w & v & E)].
    + assert (NB : forall i, In i J -> vl cats1 i = vl cats i).
      { intros i Hi. rewrite H1, beat_values, beaten_no; [reflexivity|]. intros x Hx. exfalso.
        assert (X := Permutation_in _ HP (agents_In _ _ _ _ Hi Hx)). rewrite E in X. destruct X. }
      assert (NB' : vl cats1' j' = vl cats' j').
      { rewrite H1', beat_values, beaten_no; [reflexivity|]. rewrite E. intros x []. }
      unfold strict_group. rewrite NB', E. rewrite (agents_same _ _ _ NB). rewrite <- E.
      split; [assumption|]. split; [assumption|]. split; [intros i Hi; rewrite (NB i Hi); auto|]. rewrite E. intros x [].
    + assert (HT' : q' <= v).
      { apply HT; [repeat split; try assumption; apply HB; assumption|]. rewrite E. apply in_app_iff. right. left. reflexivity. }
      rewrite E in HP, HS, HB.
      assert (GT : forall x, In x w -> v < x).
      { clear -HS. induction w as [|a w IH]; [intros x []|]. cbn [app] in HS. inversion HS as [|? ? S1 S2]; subst.
        intros x [<-|Hx]; [|auto]. rewrite Forall_forall in S2. apply S2. apply in_app_iff. right. left. reflexivity. }
      assert (SW : sdesc w).
      { clear -HS. induction w as [|a w IH]; [constructor|]. cbn [app] in HS. inversion HS as [|? ? S1 S2]; subst.
        constructor; [apply IH; assumption|]. rewrite Forall_forall in *. intros x Hx. apply S2. apply in_app_iff. left. assumption. }
      destruct (Qlt_le_dec q' v) as [L|L].
      * assert (NB : forall i, In i J -> vl cats1 i = vl cats i).
        { intros i Hi. rewrite H1, beat_values, beaten_no; [reflexivity|]. intros x Hx. rewrite (HQ i Hi).
          assert (X := Permutation_in _ HP (agents_In _ _ _ _ Hi Hx)). apply in_app_iff in X. destruct X as [X|[<-|[]]]; [|assumption].
          specialize (GT x X). lra. }
        assert (NB' : vl cats1' j' = vl cats' j').
        { rewrite H1', beat_values, beaten_no; [reflexivity|]. rewrite E. intros x X. apply in_app_iff in X.
          destruct X as [X|[<-|[]]]; [|assumption]. specialize (GT x X). lra. }
        unfold strict_group. rewrite NB', E. rewrite (agents_same _ _ _ NB).
        split; [assumption|]. split; [assumption|]. split; [intros i Hi; rewrite (NB i Hi); auto|].
        intros x Hx. split; [|apply HB; assumption]. apply in_app_iff in Hx. destruct Hx as [X|[<-|[]]]; [|assumption].
        specialize (GT x X). lra.
      * assert (EQ : q' == v) by lra.
        assert (IV : In v (agents_of cats J)) by (eapply Permutation_in; [symmetry; exact HP|apply in_app_iff; right; left; reflexivity]).
        apply agents_inv in IV. destruct IV as [i0 [Hi0 Hv]]. assert (HD0 := HD i0 Hi0).
        assert (IN0 : forall x, In x (vl cats i0) -> In x (w ++ [v])).
        { intros x Hx. eapply Permutation_in; [exact HP|]. eapply agents_In; eassumption. }
        destruct (exists_last_or_nil (vl cats i0)) as [E0|(u & x & E0)]; [rewrite E0 in Hv; destruct Hv|].
        assert (Ex : x = v).
        { assert (X1 : x <= v) by (assert (Y := last_le _ _ HD0 Hv); rewrite E0, last_last in Y; exact Y).
          assert (X2 : In x (w ++ [v])) by (apply IN0; rewrite E0; apply in_app_iff; right; left; reflexivity).
          apply in_app_iff in X2. destruct X2 as [X2|[X2|[]]]; [specialize (GT x X2); lra|auto]. }
        subst x. assert (Hi0' := Hi0). apply in_split in Hi0'. destruct Hi0' as (J1 & J2 & ->).
        assert (PW : Permutation (agents_of cats J1 ++ u ++ agents_of cats J2) w).
        { apply Permutation_app_inv_r with (l := [v]). eapply perm_trans; [|exact HP]. rewrite agents_app.
          change (i0 :: J2) with ([i0] ++ J2)%list. rewrite agents_app. unfold agents_of at 4. cbn [map concat]. rewrite app_nil_r, E0.
          rewrite <- !app_assoc. apply Permutation_app_head. apply Permutation_app_head. apply Permutation_app_comm. }
        assert (NB : forall i, In i J1 \/ In i J2 -> vl cats1 i = vl cats i).
        { intros i Hi. rewrite H1, beat_values, beaten_no; [reflexivity|]. intros x Hx.
          rewrite (HQ i ltac:(apply in_app_iff; simpl; tauto)), EQ. apply GT. eapply Permutation_in; [exact PW|].
          apply in_app_iff. destruct Hi as [Hi|Hi]; [left|right; apply in_app_iff; right]; eapply agents_In; eassumption. }
        assert (B0 : vl cats1 i0 = u).
        { rewrite H1, beat_values. replace (beaten (cat_at cats i0) (q i0)) with true.
          - rewrite E0. apply removelast_last.
          - symmetry. unfold beaten. rewrite E0. destruct (u ++ [v]) eqn:Eu; [destruct u; discriminate|]. rewrite <- Eu, last_last.
            apply Qle_bool_iff. rewrite (HQ i0 Hi0), EQ. lra. }
        assert (B0' : vl cats1' j' = w).
        { rewrite H1', beat_values. replace (beaten (cat_at cats' j') q') with true.
          - rewrite E. apply removelast_last.
          - symmetry. unfold beaten. rewrite E. destruct (w ++ [v]) eqn:Eu; [destruct w; discriminate|]. rewrite <- Eu, last_last.
            apply Qle_bool_iff. rewrite EQ. lra. }
        unfold strict_group. rewrite B0'. split; [|split; [assumption|split]].
        -- eapply perm_trans; [|exact PW]. rewrite agents_app. change (i0 :: J2) with ([i0] ++ J2)%list. rewrite agents_app.
           rewrite (agents_same cats cats1 J1) by auto. rewrite (agents_same cats cats1 J2) by auto.
           unfold agents_of at 2. cbn [map concat]. rewrite app_nil_r, B0. reflexivity.
        -- intros i Hi. rewrite H1, beat_values. destruct (beaten (cat_at cats i) (q i)); [|auto].
           apply desc_removelast. auto.
        -- intros x Hx. split; [rewrite EQ; auto|]. apply HB. apply in_app_iff. left. assumption.
Qed.
