(** * Proofs about the texts of trades (C89): recipe trees *)

From Coq Require Import String Ascii List Arith Lia QArith.
From Verif Require Import Base Model_Agents Model_Trade Model_RecipeTree Model_TreeAuction Model_IntTree Model_Report
  Spec_RecipeTree Spec_Int Spec_Report Proof_Tree Proof_Tree2 Proof_Tree3 Proof_TA1 Proof_Int1 Proof_Int2 Proof_Report.
Import ListNotations.
Open Scope string_scope.

Lemma deals_explained_node : forall cats prices i ch, ch <> [] -> deals_explained cats prices (Node i ch) =
  (_ <- get prices i ;; rs <- map_result (deals_explained cats prices) ch ;;
   match min_list (map (fun r => snd (fst r)) rs), max_list (map snd rs) with
   | Some kmin, Some kmax => Ok (Nat.min (nsum (map (fun r => fst (fst r)) rs)) (csize (cat_at cats i)), kmin, kmax)
   | _, _ => Raise ValueError
   end).
Proof.
  intros cats prices i ch H.
  assert (X : forall ch, (fix go (ch : list rtree) : result (list (nat * nat * nat)) :=
                   match ch with
                   | [] => Ok []
                   | c :: ch' => r <- deals_explained cats prices c ;; rs <- go ch' ;; Ok (r :: rs)
                   end) ch = map_result (deals_explained cats prices) ch).
  { clear. induction ch as [|c ch IH]; [reflexivity|]. cbn [map_result]. rewrite IH. reflexivity. }
  destruct ch as [|c ch]; [congruence|]. cbn [deals_explained]. rewrite <- (X (c :: ch)). reflexivity.
Qed.

Definition strip4 (r : nat * string * nat * nat) : nat * nat * nat := (fst (fst (fst r)), snd (fst r), snd r).

Lemma distinct_child : forall i ch c, distinct_categories (Node i ch) -> In c ch -> distinct_categories c.
Proof.
  intros i ch c H Hc. unfold distinct_categories in *. cbn in H. inversion H; subst. clear H H2. induction ch as [|x ch IH]; [destruct Hc|].
  cbn in H3. apply NoDup_app_inv in H3. destruct H3 as (N1 & N2 & _). destruct Hc as [->|Hc]; auto.
Qed.

Lemma range_child : forall n i ch c, indices_in_range n (Node i ch) -> In c ch -> indices_in_range n c.
Proof.
  intros n i ch c H Hc. unfold indices_in_range in *. cbn in H. rewrite Forall_forall in *. intros x Hx. apply H. right.
  apply in_concat. exists (node_indices c). split; [apply in_map; exact Hc|exact Hx].
Qed.

Lemma children_names : forall cats ch, map (fun c => cname (cat_at cats (tindex c))) ch = map (fun c => name cats (tindex c)) ch.
Proof. reflexivity. Qed.

Section Generic.
  (** What the two versions share. *)
  Context (show : Q -> string) (word : string) (count : nat -> nat) (most : rtree -> nat -> Prop)
          (cats : list category) (prices : list Q).

  Definition own_text (i d self : nat) (p : Q) : string :=
    if (d =? self)%nat
    then name cats i ++ ": all " ++ decimal (size cats i) ++ " traders selected, price=" ++ show p ++ nl
    else name cats i ++ ": " ++ decimal (d * count i) ++ " out of " ++ decimal (size cats i) ++ " traders selected, price=" ++ show p ++ nl.

  Definition children_text (ch : list rtree) (d total : nat) : string :=
    let names := String.concat " + " (map (fun c => cname (cat_at cats (tindex c))) ch) in
    if (d =? total)%nat
    then names ++ ": all " ++ decimal total ++ " " ++ word ++ " selected" ++ nl
    else names ++ ": " ++ decimal d ++ " out of " ++ decimal total ++ " " ++ word ++ " selected" ++ nl.

  Lemma own_text_line : forall i d p, get prices i = Ok p -> (d <= size cats i / count i)%nat ->
    exists own, own_line show count cats prices i d own /\ own_text i d (size cats i / count i) p = own ++ nl.
  Proof.
    intros i d p HG HD. assert (EP : price prices i = p).
    { unfold price. unfold get in HG. destruct (nth_error prices i) eqn:E; [|discriminate]. injection HG; intros <-. erewrite nth_error_nth; eauto. }
    unfold own_text. destruct (Nat.eqb_spec d (size cats i / count i)) as [E|E].
    - eexists. split; [apply own_all; exact E|]. rewrite EP. now rewrite !sapp_assoc.
    - eexists. split; [apply own_some; lia|]. rewrite EP. now rewrite !sapp_assoc.
  Qed.

  Lemma children_text_line : forall ch d total, (d <= total)%nat ->
    exists below, children_line word cats ch d total below /\ children_text ch d total = below ++ nl.
  Proof.
    intros ch d total HD. unfold children_text. destruct (Nat.eqb_spec d total) as [E|E].
    - eexists. split; [apply children_all; exact E|]. now rewrite !sapp_assoc.
    - eexists. split; [apply children_some; lia|]. now rewrite !sapp_assoc.
  Qed.

  Lemma report_solid : forall t ls, renders show -> solid (" " ++ word ++ " selected") ->
    report show word count most cats prices t ls -> Forall solid ls /\ ls <> [].
  Proof.
    intros t. induction t as [i ch IH] using rtree_ind'. intros ls HS HW H.
    inversion H as [? ? Hm Hd E1 E2|? ? parts ds d own below Hne HR HM Hm Ho Hb E1 E2]; subst.
    - split; [constructor; [|constructor]|discriminate]. repeat apply solid_app. apply HS.
    - split; [|intros F; apply app_eq_nil in F; destruct F; discriminate]. apply Forall_app. split.
      + apply Forall_concat. clear -IH HR HS HW. induction HR as [|c part ch parts Hc HR IHR]; [constructor|]. inversion IH; subst.
        constructor; [apply H1; assumption|auto].
      + constructor; [destruct Ho; repeat apply solid_app; apply HS|]. constructor; [|constructor].
        destruct Hb; do 2 (apply solid_app); repeat (first [exact HW|apply solid_app]).
  Qed.
End Generic.

(** ** Trees without counts *)
Lemma most_ok : forall cats t, distinct_categories t -> most_deals cats t (tree_num_of_deals cats t).
Proof. intros cats t H. split; [apply num_of_deals_max; exact H|apply num_of_deals_max]. Qed.

Lemma explained_node : forall show cats prices i ch, ch <> [] -> explained show cats prices false (Node i ch) =
  (p <- get prices i ;; rs <- map_result (explained show cats prices false) ch ;;
   match min_list (map (fun r => snd (fst r)) rs), max_list (map (fun r => snd r) rs) with
   | Some kmin, Some kmax =>
       let total := nsum (map (fun r => fst (fst (fst r))) rs) in
       let d := Nat.min total (csize (cat_at cats i)) in
       Ok (d, String.concat "" (map (fun r => snd (fst (fst r))) rs) ++ own_text show (fun _ => 1%nat) cats i d (size cats i) p
              ++ children_text "traders" cats ch d total, kmin, kmax)
   | _, _ => Raise ValueError
   end).
Proof.
  intros show cats prices i [|c ch] H; [congruence|]. cbn [explained]. destruct (get prices i) as [p|e|]; [|reflexivity|reflexivity]. cbn [bind].
  destruct (map_result (explained show cats prices false) (c :: ch)) as [rs|e|]; [|reflexivity|reflexivity]. cbn [bind].
  change (fun r0 : nat * string * nat * nat => snd r0) with (@snd (nat * string * nat) nat).
  destruct (min_list _); [|reflexivity]. destruct (max_list _); [|reflexivity]. cbn zeta. cbn [bind]. rewrite sapp_nil.
  unfold own_text. rewrite Nat.mul_1_r. reflexivity.
Qed.

Lemma explained_ok : forall show cats prices t, indices_in_range (length prices) t -> distinct_categories t ->
  exists r ls, explained show cats prices false t = Ok r /\ deals_explained cats prices t = Ok (strip4 r)
    /\ fst (fst (fst r)) = tree_num_of_deals cats t
    /\ report show "traders" (fun _ => 1%nat) (most_deals cats) cats prices t ls /\ snd (fst (fst r)) = unlines ls.
Proof.
  intros show cats prices t. induction t as [i ch IH] using rtree_ind'. intros HR HD.
  assert (Hi : exists p, get prices i = Ok p).
  { exists (nth i prices 0%Q). apply get_lt. unfold indices_in_range in HR. rewrite Forall_forall in HR. apply HR. left. reflexivity. }
  destruct Hi as [p Hp].
  destruct (list_eq_nil_dec ch) as [->|Hne].
  - eexists. exists [name cats i ++ ": " ++ decimal (size cats i / 1) ++ " potential deals, price=" ++ show (price prices i)].
    cbn [explained deals_explained]. rewrite Hp. cbn [bind]. split; [reflexivity|]. split; [reflexivity|]. split; [reflexivity|].
    split; [constructor; [|reflexivity]|].
    + rewrite Nat.div_1_r. apply (most_ok cats (Node i []) HD).
    + cbn [fst snd]. rewrite unlines_cons. change (unlines []) with "". rewrite Nat.div_1_r.
      assert (EP : price prices i = p).
      { unfold price. unfold get in Hp. destruct (nth_error prices i) eqn:E; [|discriminate]. injection Hp; intros <-. erewrite nth_error_nth; eauto. }
      rewrite EP. rewrite !sapp_nil, !sapp_assoc. reflexivity.
  - assert (X : exists rs lss, map_result (explained show cats prices false) ch = Ok rs
      /\ map_result (deals_explained cats prices) ch = Ok (map strip4 rs)
      /\ map (fun r => fst (fst (fst r))) rs = map (tree_num_of_deals cats) ch
      /\ Forall2 (report show "traders" (fun _ => 1%nat) (most_deals cats) cats prices) ch lss
      /\ map (fun r => snd (fst (fst r))) rs = map unlines lss /\ length rs = length ch).
    { assert (HRc : forall c, In c ch -> indices_in_range (length prices) c) by (intros c Hc; eapply range_child; eassumption).
      assert (HDc : forall c, In c ch -> distinct_categories c) by (intros c Hc; eapply distinct_child; eassumption).
      clear -IH HRc HDc. induction ch as [|c ch IHc].
      - exists [], []. repeat split; constructor.
      - inversion IH; subst. destruct IHc as (rs & lss & E1 & E2 & E3 & E4 & E5 & E6); [assumption|intros; apply HRc; right; assumption|intros; apply HDc; right; assumption|].
        destruct H1 as (r & ls & F1 & F2 & F3 & F4 & F5); [apply HRc; left; reflexivity|apply HDc; left; reflexivity|].
        exists (r :: rs), (ls :: lss). cbn [map_result map length]. rewrite F1, F2, E1, E2, E3, E5, F3, F5, E6. cbn [bind].
        repeat split. constructor; assumption. }
    destruct X as (rs & lss & E1 & E2 & E3 & E4 & E5 & E6).
    assert (Hrs : rs <> []) by (destruct rs, ch; cbn in E6; congruence).
    rewrite deals_explained_node by assumption. rewrite Hp, E2. cbn [bind]. rewrite !map_map. cbn [strip4 fst snd].
    assert (M1 : exists kmin, min_list (map (fun r : nat * string * nat * nat => snd (fst r)) rs) = Some kmin).
    { destruct rs as [|r rs]; [congruence|]. cbn. destruct (min_list _); eauto. }
    assert (M2 : exists kmax, max_list (map (fun r : nat * string * nat * nat => snd r) rs) = Some kmax).
    { destruct rs as [|r rs]; [congruence|]. cbn. destruct (max_list _); eauto. }
    destruct M1 as [kmin M1], M2 as [kmax M2]. rewrite M1, M2.
    set (total := nsum (map (tree_num_of_deals cats) ch)). set (d := Nat.min total (csize (cat_at cats i))).
    assert (Dd : d = tree_num_of_deals cats (Node i ch)) by (unfold d, total; symmetry; apply deals_node; assumption).
    destruct (own_text_line show (fun _ => 1%nat) cats prices i d p Hp) as (own & Ho & To).
    { rewrite Nat.div_1_r. unfold d, size, csize. lia. }
    destruct (children_text_line "traders" cats ch d total) as (below & Hb & Tb); [unfold d; lia|].
    exists (d, unlines (concat lss ++ [own; below]), kmin, kmax), (concat lss ++ [own; below])%list.
    split; [|split; [|split; [|split]]].
    + rewrite explained_node by assumption. rewrite Hp, E1. cbn [bind]. rewrite M1, M2, E3. fold total. fold d. cbn [bind].
      rewrite E5, unlines_concat. f_equal. f_equal. f_equal. f_equal.
      rewrite unlines_app. f_equal. rewrite !unlines_cons. change (unlines []) with "". rewrite sapp_nil.
      rewrite <- sapp_assoc. rewrite <- To, <- Tb. rewrite Nat.div_1_r. reflexivity.
    + unfold strip4. cbn [fst snd]. f_equal. f_equal. f_equal. rewrite E3. reflexivity.
    + cbn [fst snd]. exact Dd.
    + apply (report_node _ _ _ _ _ _ i ch lss (map (tree_num_of_deals cats) ch) d own below); [exact Hne|exact E4| |rewrite Dd; apply most_ok; exact HD|exact Ho|exact Hb].
      assert (HDc : forall c, In c ch -> distinct_categories c) by (intros c Hc; eapply distinct_child; eassumption).
      clear -HDc. induction ch as [|c ch IHc]; cbn; [constructor|]. constructor; [apply most_ok, HDc; left; reflexivity|].
      apply IHc. intros. apply HDc. right. assumption.
    + reflexivity.
Qed.

Lemma explained_overall : forall show cats prices t, explained show cats prices true t =
  (r <- explained show cats prices false t ;;
   Ok (fst (fst (fst r)), snd (fst (fst r)) ++ decimal (fst (fst (fst r))) ++ " deals overall" ++ nl, snd (fst r), snd r)).
Proof.
  intros show cats prices [i ch]. cbn [explained]. destruct (get prices i); [|reflexivity|reflexivity]. cbn [bind].
  match goal with |- context [bind ?x _] => destruct x as [[[[d text] kmin] kmax]|e|] end; [|reflexivity|reflexivity].
  cbn [bind fst snd]. rewrite sapp_nil. reflexivity.
Qed.

Lemma overall_solid : forall d, solid (decimal d ++ " deals overall").
Proof. intros d. apply solid_app. exists " deals overal", "l"%char. split; reflexivity. Qed.

Lemma not_no_trade : forall ls d, "No trade" <> text_of (ls ++ [decimal d ++ " deals overall"]).
Proof.
  intros ls d F. assert (X := text_length (ls ++ [decimal d ++ " deals overall"]) (decimal d ++ " deals overall")).
  rewrite <- F in X. rewrite sapp_length in X. cbn [String.length] in X. assert (Y : (String.length (decimal d) + 14 <= 8)%nat) by (apply X, in_or_app; right; left; reflexivity). lia.
Qed.

Lemma tree_text : forall show cats prices t tr, renders show -> indices_in_range (length prices) t -> distinct_categories t ->
  new_tree_trade cats t prices = Ok tr ->
  (tt_deals tr = 0%nat -> tree_trade_text show tr = Ok "No trade")
  /\ ((0 < tt_deals tr)%nat -> exists ls text, report show "traders" (fun _ => 1%nat) (most_deals cats) cats prices t ls
        /\ tree_trade_text show tr = Ok text /\ text = text_of (ls ++ [decimal (tt_deals tr) ++ " deals overall"])
        /\ most_deals cats t (tt_deals tr) /\ text <> "No trade").
Proof.
  intros show cats prices t tr HS HR HD HN. destruct (explained_ok show cats prices t HR HD) as (r & ls & E1 & E2 & E3 & E4 & E5).
  unfold new_tree_trade in HN. rewrite E2 in HN. cbn [bind] in HN. injection HN; intros <-. unfold strip4. cbn [tt_deals fst snd].
  unfold tree_trade_text. cbn [tt_cats tt_prices tt_tree]. rewrite explained_overall, E1. cbn [bind]. destruct r as [[[d text] kmin] kmax]. cbn [fst snd] in *.
  split.
  - intros ->. reflexivity.
  - intros Hd. destruct (Nat.eqb_spec d 0); [lia|]. exists ls. eexists. split; [exact E4|]. split; [reflexivity|].
    assert (HT : rstrip (text ++ decimal d ++ " deals overall" ++ nl) = text_of (ls ++ [decimal d ++ " deals overall"])).
    { rewrite E5. replace (unlines ls ++ decimal d ++ " deals overall" ++ nl) with (unlines (ls ++ [decimal d ++ " deals overall"])).
      - apply rstrip_unlines.
        + intros F. apply app_eq_nil in F. destruct F; discriminate.
        + apply Forall_app. split; [|constructor; [apply overall_solid|constructor]].
          eapply report_solid; [exact HS| |exact E4]. exists " traders selecte", "d"%char. split; reflexivity.
      - rewrite unlines_app, unlines_cons. change (unlines []) with "". now rewrite sapp_nil, !sapp_assoc. }
    rewrite HT. split; [reflexivity|]. split; [rewrite E3; apply most_ok; exact HD|].
    intros F. symmetry in F. revert F. apply not_no_trade.
Qed.

(** ** Trees with counts *)
Lemma int_most_ok : forall cats counts t, positive_counts counts t -> distinct_categories t ->
  int_most_deals cats counts t (tree_num_of_deals (gcats cats counts) t).
Proof.
  intros cats counts t HP HD. assert (X := int_deals_max cats counts t _ HP (int_deals_ok cats counts t HP)). split; [apply X; exact HD|apply X].
Qed.

Lemma int_explained_text_node : forall show cats counts prices i ch, ch <> [] -> int_explained show cats counts prices false (Node i ch) =
  (self <- size_floor cats counts i ;; p <- get prices i ;; rs <- map_result (int_explained show cats counts prices false) ch ;;
   match max_list (map (fun r => snd r) rs) with
   | Some kmax =>
       let total := nsum (map (fun r => fst (fst (fst r))) rs) in
       let d := Nat.min total self in
       Ok (d, String.concat "" (map (fun r => snd (fst (fst r))) rs) ++ own_text show (count_at counts) cats i d self p
              ++ children_text "deals" cats ch d total, first_positive_min (map (fun r => snd (fst r)) rs), kmax)
   | _ => Raise ValueError
   end).
Proof.
  intros show cats counts prices i [|c ch] H; [congruence|]. cbn [int_explained]. destruct (size_floor cats counts i) as [self|e|]; [|reflexivity|reflexivity].
  cbn [bind]. destruct (get prices i) as [p|e|]; [|reflexivity|reflexivity]. cbn [bind].
  destruct (map_result (int_explained show cats counts prices false) (c :: ch)) as [rs|e|]; [|reflexivity|reflexivity]. cbn [bind].
  change (fun r0 : nat * string * nat * nat => snd r0) with (@snd (nat * string * nat) nat).
  destruct (max_list _); [|reflexivity]. cbn zeta. cbn [bind]. rewrite sapp_nil. unfold own_text. reflexivity.
Qed.

Lemma positive_child : forall counts i ch c, positive_counts counts (Node i ch) -> In c ch -> positive_counts counts c.
Proof.
  intros counts i ch c H Hc j Hj. apply H. cbn. right. apply in_concat. exists (node_indices c). split; [apply in_map; exact Hc|exact Hj].
Qed.

Lemma gsize : forall cats counts i, (0 < count_at counts i)%nat -> csize (cat_at (gcats cats counts) i) = (size cats i / count_at counts i)%nat.
Proof.
  intros cats counts i H. unfold csize. rewrite gcats_at, map_length. apply value_groups_length. exact H.
Qed.

Lemma int_explained_text_ok : forall show cats counts prices t, positive_counts counts t -> indices_in_range (length prices) t -> distinct_categories t ->
  exists r ls, int_explained show cats counts prices false t = Ok r /\ int_deals_explained cats counts prices t = Ok (strip4 r)
    /\ fst (fst (fst r)) = tree_num_of_deals (gcats cats counts) t
    /\ report show "deals" (count_at counts) (int_most_deals cats counts) cats prices t ls /\ snd (fst (fst r)) = unlines ls.
Proof.
  intros show cats counts prices t. induction t as [i ch IH] using rtree_ind'. intros HP HR HD.
  assert (Hc : (0 < count_at counts i)%nat) by (apply HP; left; reflexivity).
  assert (Hi : exists p, get prices i = Ok p).
  { exists (nth i prices 0%Q). apply get_lt. unfold indices_in_range in HR. rewrite Forall_forall in HR. apply HR. left. reflexivity. }
  destruct Hi as [p Hp].
  destruct (list_eq_nil_dec ch) as [->|Hne].
  - eexists. exists [name cats i ++ ": " ++ decimal (size cats i / count_at counts i) ++ " potential deals, price=" ++ show (price prices i)].
    cbn [int_explained int_deals_explained]. rewrite size_floor_ok, gsize by assumption. rewrite Hp. cbn [bind]. split; [reflexivity|]. split; [reflexivity|].
    split; [cbn [fst tree_num_of_deals]; rewrite gsize by assumption; reflexivity|].
    split; [constructor; [|reflexivity]|].
    + assert (X := int_most_ok cats counts (Node i []) HP HD). cbn [tree_num_of_deals] in X. rewrite gsize in X by assumption. exact X.
    + cbn [fst snd]. rewrite unlines_cons. change (unlines []) with "".
      assert (EP : price prices i = p).
      { unfold price. unfold get in Hp. destruct (nth_error prices i) eqn:E; [|discriminate]. injection Hp; intros <-. erewrite nth_error_nth; eauto. }
      rewrite EP. rewrite !sapp_nil, !sapp_assoc. reflexivity.
  - assert (X : exists rs lss, map_result (int_explained show cats counts prices false) ch = Ok rs
      /\ map_result (int_deals_explained cats counts prices) ch = Ok (map strip4 rs)
      /\ map (fun r => fst (fst (fst r))) rs = map (tree_num_of_deals (gcats cats counts)) ch
      /\ Forall2 (report show "deals" (count_at counts) (int_most_deals cats counts) cats prices) ch lss
      /\ map (fun r => snd (fst (fst r))) rs = map unlines lss /\ length rs = length ch).
    { assert (HRc : forall c, In c ch -> indices_in_range (length prices) c) by (intros c Hc'; eapply range_child; eassumption).
      assert (HDc : forall c, In c ch -> distinct_categories c) by (intros c Hc'; eapply distinct_child; eassumption).
      assert (HPc : forall c, In c ch -> positive_counts counts c) by (intros c Hc'; eapply positive_child; eassumption).
      clear -IH HRc HDc HPc. induction ch as [|c ch IHc].
      - exists [], []. repeat split; constructor.
      - inversion IH; subst. destruct IHc as (rs & lss & E1 & E2 & E3 & E4 & E5 & E6);
          [assumption|intros; apply HRc; right; assumption|intros; apply HDc; right; assumption|intros; apply HPc; right; assumption|].
        destruct H1 as (r & ls & F1 & F2 & F3 & F4 & F5); [apply HPc; left; reflexivity|apply HRc; left; reflexivity|apply HDc; left; reflexivity|].
        exists (r :: rs), (ls :: lss). cbn [map_result map length]. rewrite F1, F2, E1, E2, E3, E5, F3, F5, E6. cbn [bind].
        repeat split. constructor; assumption. }
    destruct X as (rs & lss & E1 & E2 & E3 & E4 & E5 & E6).
    assert (Hrs : rs <> []) by (destruct rs, ch; cbn in E6; congruence).
    rewrite Proof_Int2.int_explained_node by assumption. rewrite size_floor_ok, gsize by assumption. cbn [bind]. rewrite Hp, E2. cbn [bind]. rewrite !map_map. cbn [strip4 fst snd].
    assert (M2 : exists kmax, max_list (map (fun r : nat * string * nat * nat => snd r) rs) = Some kmax).
    { destruct rs as [|r rs]; [congruence|]. cbn. destruct (max_list _); eauto. }
    destruct M2 as [kmax M2]. rewrite M2.
    set (total := nsum (map (tree_num_of_deals (gcats cats counts)) ch)). set (d := Nat.min total (size cats i / count_at counts i)).
    assert (Dd : d = tree_num_of_deals (gcats cats counts) (Node i ch)) by (unfold d, total; rewrite deals_node, gsize by assumption; reflexivity).
    destruct (own_text_line show (count_at counts) cats prices i d p Hp) as (own & Ho & To); [unfold d; lia|].
    destruct (children_text_line "deals" cats ch d total) as (below & Hb & Tb); [unfold d; lia|].
    exists (d, unlines (concat lss ++ [own; below]), first_positive_min (map (fun r : nat * string * nat * nat => snd (fst r)) rs), kmax), (concat lss ++ [own; below])%list.
    split; [|split; [|split; [|split]]].
    + rewrite int_explained_text_node by assumption. rewrite size_floor_ok, gsize by assumption. cbn [bind]. rewrite Hp, E1. cbn [bind]. rewrite M2, E3. fold total. fold d. cbn [bind].
      rewrite E5, unlines_concat. f_equal. f_equal. f_equal. f_equal.
      rewrite unlines_app. f_equal. rewrite !unlines_cons. change (unlines []) with "". rewrite sapp_nil.
      rewrite <- sapp_assoc. rewrite <- To, <- Tb. reflexivity.
    + unfold strip4. cbn [fst snd]. f_equal. f_equal. f_equal. rewrite E3. reflexivity.
    + cbn [fst snd]. exact Dd.
    + apply (report_node _ _ _ _ _ _ i ch lss (map (tree_num_of_deals (gcats cats counts)) ch) d own below); [exact Hne|exact E4| |rewrite Dd; apply int_most_ok; assumption|exact Ho|exact Hb].
      assert (HDc : forall c, In c ch -> distinct_categories c) by (intros c Hc'; eapply distinct_child; eassumption).
      assert (HPc : forall c, In c ch -> positive_counts counts c) by (intros c Hc'; eapply positive_child; eassumption).
      clear -HDc HPc. induction ch as [|c ch IHc]; cbn; [constructor|]. constructor; [apply int_most_ok; [apply HPc|apply HDc]; left; reflexivity|].
      apply IHc; intros; [apply HDc|apply HPc]; right; assumption.
    + reflexivity.
Qed.

Lemma int_explained_overall : forall show cats counts prices t, int_explained show cats counts prices true t =
  (r <- int_explained show cats counts prices false t ;;
   Ok (fst (fst (fst r)), snd (fst (fst r)) ++ decimal (fst (fst (fst r))) ++ " deals overall" ++ nl, snd (fst r), snd r)).
Proof.
  intros show cats counts prices [i ch]. cbn [int_explained]. destruct (size_floor cats counts i); [|reflexivity|reflexivity]. cbn [bind].
  destruct (get prices i); [|reflexivity|reflexivity]. cbn [bind].
  match goal with |- context [bind ?x _] => destruct x as [[[[d text] kmin] kmax]|e|] end; [|reflexivity|reflexivity].
  cbn [bind fst snd]. rewrite sapp_nil. reflexivity.
Qed.

Lemma int_text : forall show cats counts prices t tr, renders show -> positive_counts counts t -> indices_in_range (length prices) t ->
  distinct_categories t -> Model_IntAuction.new_int_trade cats counts t prices = Ok tr ->
  (tt_deals tr = 0%nat -> int_trade_text show counts tr = Ok "No trade")
  /\ ((0 < tt_deals tr)%nat -> exists ls text, report show "deals" (count_at counts) (int_most_deals cats counts) cats prices t ls
        /\ int_trade_text show counts tr = Ok text /\ text = text_of (ls ++ [decimal (tt_deals tr) ++ " deals overall"])
        /\ int_most_deals cats counts t (tt_deals tr) /\ text <> "No trade").
Proof.
  intros show cats counts prices t tr HS HP HR HD HN. destruct (int_explained_text_ok show cats counts prices t HP HR HD) as (r & ls & E1 & E2 & E3 & E4 & E5).
  unfold Model_IntAuction.new_int_trade in HN. rewrite E2 in HN. cbn [bind] in HN. injection HN; intros <-. unfold strip4. cbn [tt_deals fst snd].
  unfold int_trade_text. cbn [tt_cats tt_prices tt_tree]. rewrite int_explained_overall, E1. cbn [bind]. destruct r as [[[d text] kmin] kmax]. cbn [fst snd] in *.
  split.
  - intros ->. reflexivity.
  - intros Hd. destruct (Nat.eqb_spec d 0); [lia|]. exists ls. eexists. split; [exact E4|]. split; [reflexivity|].
    assert (HT : rstrip (text ++ decimal d ++ " deals overall" ++ nl) = text_of (ls ++ [decimal d ++ " deals overall"])).
    { rewrite E5. replace (unlines ls ++ decimal d ++ " deals overall" ++ nl) with (unlines (ls ++ [decimal d ++ " deals overall"])).
      - apply rstrip_unlines.
        + intros F. apply app_eq_nil in F. destruct F; discriminate.
        + apply Forall_app. split; [|constructor; [apply overall_solid|constructor]].
          eapply report_solid; [exact HS| |exact E4]. exists " deals selecte", "d"%char. split; reflexivity.
      - rewrite unlines_app, unlines_cons. change (unlines []) with "". now rewrite sapp_nil, !sapp_assoc. }
    rewrite HT. split; [reflexivity|]. split; [rewrite E3; apply int_most_ok; assumption|].
    intros F. symmetry in F. revert F. apply not_no_trade.
Qed.

Lemma material_deals_text : forall show deals, exists texts, Forall2 (deal_text show) deals texts
  /\ material_text show deals = decimal (length deals) ++ " deals: [" ++ String.concat ", " texts ++ "]".
Proof.
  intros show deals. exists (map (tuple_text show) deals). split; [|reflexivity]. induction deals as [|d deals IH]; cbn [map]; constructor; [|exact IH].
  destruct d as [|v [|w l]]; constructor.
Qed.
