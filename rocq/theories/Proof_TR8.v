(** * Trade reduction: corollaries for C17 and C21 *)

From Coq Require Import String List Arith Lia QArith Lqa Permutation.
From Verif Require Import Base Model_Agents Model_Trade Model_Prices Model_Market Model_Ascending Model_TradeReduction
  Spec_Market Spec_Trade Spec_Ascending Spec_TradeReduction Proof_Market Proof_Trade Proof_Ascending Proof_Ascending2
  Proof_Deals Proof_TR3 Proof_TR4 Proof_TR5.
Import ListNotations.
Open Scope Q_scope.

Lemma in_values : forall (P : Q -> Prop) (m : market),
  Forall (fun c => Forall P (cvalues c)) m -> forall c v, In c m -> In v (cvalues c) -> P v.
Proof.
  intros P m H c v Hc Hv. rewrite Forall_forall in H. specialize (H c Hc).
  rewrite Forall_forall in H. auto.
Qed.

Lemma tr_ok_inv : forall M cap m recipe z t, trade_reduction_M M cap m recipe z = Ok t ->
  length recipe = length m /\ has_positive_entry recipe
  /\ new_trade (tcats t) recipe (tprices t) = Ok t
  /\ map cname (tcats t) = map cname m
  /\ match tprices t with
     | Some P => length P = length recipe /\ dot P recipe == 0
     | None => num_of_deals t = 0%nat /\ forall c, In c (tcats t) -> cvalues c = []
     end.
Proof.
  intros M cap m recipe z t H.
  destruct (tr_errors M cap m recipe z) as [[_ [Hl Hp]]|[X _]]; [|congruence].
  split; [assumption|]. split; [assumption|].
  destruct (tr_total M cap m recipe z Hl) as [t' [E [A [B C]]]].
  { destruct Hp as [i [r [Hr Hr']]]. exists i. split; [apply nth_error_Some; congruence|].
    rewrite (nth_error_nth _ _ _ Hr). assumption. }
  assert (t' = t) by congruence. subst t'. auto.
Qed.

Theorem tr_sbb : forall M cap m recipe z t, trade_reduction_M M cap m recipe z = Ok t ->
  match tprices t with
  | Some prices => length prices = length recipe /\ dot prices recipe == 0
  | None => num_of_deals t = 0%nat
  end.
Proof.
  intros M cap m recipe z t H. destruct (tr_ok_inv _ _ _ _ _ _ H) as [_ [_ [_ [_ C]]]].
  destruct (tprices t); tauto.
Qed.

Theorem tr_gain_errors : forall M cap m recipe z a t, values_at_least (- M) m ->
  trade_reduction_M M cap m recipe z = Ok t ->
  (forall e, gain_from_trade t a = Raise e <->
     e = ZeroDivisionError /\ (0 < num_of_deals t)%nat /\ In 0%nat recipe)
  /\ gain_from_trade t a <> Timeout.
Proof.
  intros M cap m recipe z a t HM H.
  destruct (tr_ok_inv _ _ _ _ _ _ H) as [Hl [Hp [Hn [Hnames C]]]].
  destruct (tprices t) as [P|] eqn:EP.
  2:{ destruct C as [C _]. unfold gain_from_trade, num_of_deals in *. rewrite C. simpl. split; [|discriminate].
      intros e. split; [discriminate|]. intros [_ [X _]]. lia. }
  destruct C as [CP _].
  assert (Hlc : length (tcats t) = length recipe).
  { rewrite Hl, <- (map_length cname (tcats t)), Hnames, map_length. reflexivity. }
  destruct (gain_raises (tcats t) recipe P t a Hlc CP Hn) as [G1 G2]. split; [|assumption].
  intros e. rewrite G1. apply deals_max in Hn. destruct Hn as [_ [Hs _]].
  split; intros [He [Hd HE]]; (split; [assumption|]); (split; [lia|]).
  - apply Exists_exists in HE. destruct HE as [c [Hc Hv]].
    apply In_nth_error in Hc. destruct Hc as [i Hi].
    destruct (nth_error recipe i) as [r|] eqn:Er.
    + specialize (Hs i c r Hi Er). unfold csize in Hs. rewrite Hv in Hs. cbn in Hs.
      unfold num_of_deals in Hd. assert (r = 0%nat) by nia. subst. eapply nth_error_In; eassumption.
    + exfalso. apply nth_error_None in Er. assert (i < length (tcats t))%nat by (apply nth_error_Some; congruence). lia.
  - assert (H' := H). unfold trade_reduction_M in H'. destruct (length recipe =? length m)%nat; [|discriminate].
    apply bind_Ok in H'. destruct H' as [[deals rem] [Ho _]].
    destruct (tr_kept M cap m recipe z t deals rem HM H Ho) as [Kl K].
    apply In_nth_error in HE. destruct HE as [i Hi].
    assert (Hlt : (i < length recipe)%nat) by (apply nth_error_Some; congruence).
    destruct (nth_error m i) as [c0|] eqn:E0; [|apply nth_error_None in E0; lia].
    destruct (nth_error (tcats t) i) as [c|] eqn:E1; [|apply nth_error_None in E1; lia].
    destruct (K i c0 c 0%nat E0 E1 Hi) as [_ [_ [Hsz _]]].
    apply Exists_exists. exists c. split; [eapply nth_error_In; eassumption|].
    unfold csize in Hsz. destruct (cvalues c); [reflexivity|cbn in Hsz; lia].
Qed.
