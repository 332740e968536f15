(** * The columns of one iteration of the stock comparison, continued *)

From Coq Require Import String List Arith NArith Lia ZArith QArith Qround Lqa Bool Permutation.
From Verif Require Import Base Model_Agents Model_Trade Model_Prices Model_Market Model_Ascending Model_TradeReduction Model_McAfee
  Model_Experiment Model_CompareStock
  Spec_Market Spec_Trade Spec_Ascending Spec_TradeReduction Spec_McAfee Spec_Experiment Spec_StockData Spec_CompareStock
  Proof_Agents Proof_Market Proof_StockData Proof_Exp1 Proof_Exp2 Proof_Exp3 Proof_CompareStock Proof_CompareStock2.
Import ListNotations.
Open Scope Q_scope.

(** ** The optimum *)
Lemma cap_more : forall cap cap' m recipe, (cap <= cap')%nat -> cap_suffices cap m recipe -> cap_suffices cap' m recipe.
Proof. intros cap cap' m recipe H (i & c & r & A & B & C & D). exists i, c, r. repeat split; auto. nia. Qed.

Lemma caps : (default_max_iterations <= compare_max_iterations)%nat.
Proof. unfold default_max_iterations, compare_max_iterations. lia. Qed.

Lemma Qsum_pos : forall l, l <> [] -> Forall (fun x => 0 < x) l -> 0 < Qsum l.
Proof.
  intros [|x l] H F; [congruence|]. clear H. inversion F as [|? ? Hx F']; subst. cbn [Qsum fold_right]. fold (Qsum l).
  assert (0 <= Qsum l); [|lra]. clear - F'. induction F'; cbn [Qsum fold_right]; [lra|]. fold (Qsum l). lra.
Qed.

Lemma optimum_found : forall recipe m, tame recipe m ->
  exists dF rF dT rT, optimal_trade compare_max_iterations m recipe false = Ok (dF, rF)
    /\ optimal_trade compare_max_iterations m recipe true = Ok (dT, rT)
    /\ optimum recipe m (mt_num_of_deals dF) (mt_num_of_deals dT) (mt_gain_from_trade dF)
    /\ mt_gain_from_trade dT == mt_gain_from_trade dF
    /\ (mt_num_of_deals dF <= mt_num_of_deals dT)%nat
    /\ 0 <= mt_gain_from_trade dF /\ (mt_gain_from_trade dF == 0 -> mt_num_of_deals dF = 0%nat)
    /\ (mt_num_of_deals dF = 0%nat -> mt_gain_from_trade dF == 0).
Proof.
  intros recipe m (L & _ & _ & CAP & _). apply (cap_more _ _ _ _ caps) in CAP.
  destruct (optimal_trade_errors compare_max_iterations m recipe false) as [[[dF rF] [HF _]]|[_ X]]; [|congruence].
  destruct (optimal_trade_errors compare_max_iterations m recipe true) as [[[dT rT] [HT _]]|[_ X]]; [|congruence].
  destruct (zero_flag _ _ _ _ _ _ _ HT HF CAP) as [E Z].
  destruct (optimality _ _ _ _ _ _ HT CAP) as [(DT & ET & OT) MT]. destruct (optimality _ _ _ _ _ _ HF CAP) as [(DF & EF & OF) MF].
  destruct (optimal_trade_acceptable _ _ _ _ _ _ HF) as [AF _].
  assert (LT : length DT = mt_num_of_deals dT) by (rewrite <- ET; unfold mt_num_of_deals; rewrite map_length; reflexivity).
  assert (LF : length DF = mt_num_of_deals dF) by (rewrite <- EF; unfold mt_num_of_deals; rewrite map_length; reflexivity).
  assert (GF : total_gain DF == mt_gain_from_trade dF) by (rewrite <- EF, mt_gain_flat; reflexivity).
  assert (PF : dF <> [] -> 0 < mt_gain_from_trade dF).
  { intros NE. unfold mt_gain_from_trade. apply Qsum_pos; [destruct dF; [congruence|discriminate]|]. rewrite Forall_map. exact AF. }
  exists dF, rF, dT, rT. split; [exact HF|]. split; [exact HT|]. split.
  - split; [exists DF; auto|]. split; [exists DT; auto|]. intros D HD. split; [apply Z; exact HD|].
    rewrite <- GF. destruct HD as [FD MD]. destruct OF as [FF MF']. apply Qle_antisym; auto.
  - split; [exact E|]. split; [specialize (Z DT OT); lia|]. split; [|split].
    + destruct dF as [|d dF]; [change (0 <= 0); lra|]. apply Qlt_le_weak, PF. discriminate.
    + intros X. destruct dF as [|d dF]; [reflexivity|]. exfalso. assert (Y : 0 < mt_gain_from_trade (d :: dF)) by (apply PF; discriminate). lra.
    + intros X. destruct dF; [reflexivity|discriminate].
Qed.

(** ** One auction *)
Lemma meant_outcome : forall recipe f m, recipe <> [] -> Forall (fun r => (0 < r)%nat) recipe -> meant_for recipe f -> tame recipe m ->
  exists o, raw f recipe m o /\ fine o /\ (budget_balanced f -> out_market o == out_total o).
Proof.
  intros recipe f m NE FP MF T. inversion MF as [? [|]|h O TWO]; subst.
  - destruct (ascending_outcome recipe m NE FP T) as (o & A & B & C). eauto 6.
  - destruct (tr_outcome recipe m NE FP T) as (o & A & B & C). eauto 6.
  - destruct (mcafee_outcome h recipe m NE O TWO T) as (o & A & B). exists o. split; [exact A|]. split; [exact B|].
    intros BB. assert (X : exists o', raw (fun m r => mcafee m r h) recipe m o' /\ out_market o' == out_total o').
    { revert BB. generalize (fun (m : market) (r : list nat) => mcafee m r h). intros f [|].
      - destruct (ascending_outcome recipe m NE FP T) as (o' & A' & _ & C). eauto.
      - destruct (tr_outcome recipe m NE FP T) as (o' & A' & _ & C). eauto. }
    destruct X as (o' & A' & C). assert (E : [o] = [o']).
    { eapply (Forall2_det (fun m r => mcafee m r h) recipe [m]); constructor; auto. }
    injection E as <-. exact C.
Qed.

(** The facts about one auction in one iteration. *)
Definition sound (k0 : nat) (opt : Q) (d : nat) (total mkt : Q) : Prop :=
  (d <= k0 <= d + 1)%nat /\ 0 <= mkt /\ mkt <= total /\ total <= opt /\ (Qn k0 - 1) * opt <= Qn k0 * total.

Lemma auction_facts : forall recipe f m k k0 opt, recipe <> [] -> Forall (fun r => (0 < r)%nat) recipe -> meant_for recipe f ->
  tame recipe m -> optimum recipe m k k0 opt ->
  exists t total mkt, f m recipe = Ok t /\ gain_from_trade t true = Ok total /\ gain_from_trade t false = Ok mkt
    /\ sound k0 opt (num_of_deals t) total mkt /\ (budget_balanced f -> mkt == total).
Proof.
  intros recipe f m k k0 opt NE FP MF T (_ & (D0 & O0 & L0) & HO).
  destruct (meant_outcome recipe f m NE FP MF T) as (o & R & F & BB).
  destruct (raw_outcome _ _ _ _ T R) as ((D & OD & LD & GD) & MX & _).
  destruct R as (deals & rem & t & _ & _ & _ & HA & HD & G & G').
  assert (EK : out_k o = k0).
  { assert (X := MX D0 O0). destruct (HO D OD) as [Y _]. lia. }
  assert (EO : out_opt o == opt) by (rewrite <- GD; apply (HO D OD)).
  exists t, (out_total o), (out_market o). split; [exact HA|]. split; [exact G|]. split; [exact G'|]. split; [|exact BB].
  rewrite HD. unfold fine in F. rewrite EK in F. destruct F as (A & B & C & D1 & E). unfold sound. rewrite EO in D1, E. auto.
Qed.

(** ** The bounds, for the columns of one iteration *)
Definition part_bounds (k k0 : nat) (opt formula : Q) (c : results) : Prop :=
  let x := fun p => snd (nth p c (""%string, 0)) in
  0 <= x count <= Qn k0 /\ Qn k0 - 1 <= x count /\ 0 <= x countratio <= 100 /\ 0 <= x totalgft <= opt
  /\ formula <= x totalgftratio <= 100 /\ 0 <= x marketgft <= x totalgft /\ 0 <= x marketgftratio <= x totalgftratio
  /\ x withoutgftzerototalgft == x totalgft /\ x withoutgftzerototalgftratio == x totalgftratio
  /\ x countratio <= x withoutgftzerocountratio.

Lemma all_one_iff : forall recipe, all_equal_one recipe = true <-> Forall (fun r => r = 1%nat) recipe.
Proof.
  intros recipe. unfold all_equal_one. rewrite forallb_forall, Forall_forall. split; intros H x Hx; specialize (H x Hx); apply Nat.eqb_eq; exact H.
Qed.

Lemma formula_ok : forall recipe k, guaranteed recipe k (ratio_formula recipe k).
Proof.
  intros recipe k. unfold guaranteed, ratio_formula. destruct (Nat.ltb_spec 1 k) as [H|H].
  - split; [lia|]. intros _. assert (X : 1 < Qn k) by (change 1 with (Qn 1); unfold Qn; rewrite <- Zlt_Qlt; lia).
    destruct (all_equal_one recipe) eqn:E.
    + apply all_one_iff in E. split; [intros _|tauto]. field. lra.
    + split; [intros F; apply all_one_iff in F; congruence|]. intros _. field. lra.
  - split; [reflexivity|lia].
Qed.

Lemma formula_bounds : forall recipe k, 0 <= ratio_formula recipe k < 100
  /\ ((0 < k)%nat -> ratio_formula recipe k * Qn k <= 100 * (Qn k - 1)).
Proof.
  intros recipe k. unfold ratio_formula. destruct (Nat.ltb_spec 1 k) as [H|H].
  - assert (X : 1 < Qn k) by (change 1 with (Qn 1); unfold Qn; rewrite <- Zlt_Qlt; lia).
    set (q := Qn k) in *. clearbody q. destruct (all_equal_one recipe).
    + assert (E : (q - 1) * 100 / q * q == 100 * (q - 1)) by (field; lra). split; [|intros _; lra].
      split; [apply Qle_shift_div_l; lra|apply Qlt_shift_div_r; lra].
    + assert (Y : 0 <= (q - 1) * 100 / (q + 1)) by (apply Qle_shift_div_l; lra).
      assert (E : (q - 1) * 100 / (q + 1) * (q + 1) == 100 * (q - 1)) by (field; lra). split; [|intros _; lra].
      split; [exact Y|apply Qlt_shift_div_r; lra].
  - split; [split; [lra|reflexivity]|]. intros K. assert (k = 1)%nat by lia. subst k. change (Qn 1) with 1. lra.
Qed.

Lemma pct_ge : forall a x b, 0 < b -> a * b <= 100 * x -> a <= x / b * 100.
Proof. intros a x b B H. assert (E : x / b * 100 == 100 * x / b) by (field; lra). rewrite E. apply Qle_shift_div_l; lra. Qed.

Lemma pct_le : forall a x b, 0 < b -> 100 * x <= a * b -> x / b * 100 <= a.
Proof. intros a x b B H. assert (E : x / b * 100 == 100 * x / b) by (field; lra). rewrite E. apply Qle_shift_div_r; lra. Qed.

Lemma part_ok : forall recipe name k k0 opt opt0 d total mkt, opt0 == opt -> 0 <= opt -> (opt == 0 <-> k = 0%nat) -> (k <= k0)%nat ->
  sound k0 opt d total mkt ->
  part_bounds k k0 opt (ratio_formula recipe k) (auction_columns name k k0 opt opt0 d total mkt)
  /\ (mkt == total -> let x := fun p => snd (nth p (auction_columns name k k0 opt opt0 d total mkt) (""%string, 0)) in
      x marketgft == x totalgft /\ x marketgftratio == x totalgftratio).
Proof.
  intros recipe name k k0 opt opt0 d total mkt E0 P0 Z KK ((A1 & A2) & B & C & D & R).
  destruct (formula_bounds recipe k) as [FB FK].
  assert (N1 := Qn_nonneg d). assert (N2 : Qn d <= Qn k0) by (apply Qn_le; assumption). assert (N3 := Qn_le k0 (d + 1) A2). rewrite Qn_plus in N3. change (Qn 1) with 1 in N3.
  assert (N4 := Qn_le k k0 KK).
  split.
  - unfold part_bounds, count, countratio, totalgft, totalgftratio, marketgft, marketgftratio, withoutgftzerocountratio, withoutgftzerototalgft, withoutgftzerototalgftratio.
    unfold auction_columns. cbn [nth snd]. cbn zeta. split; [split; lra|]. split; [lra|].
    assert (KC : (k = 0)%nat \/ (0 < Qn k /\ (0 < k)%nat)) by (destruct k; [left; reflexivity|right; split; [apply Qn_pos|]; lia]).
    split; [|split; [lra|split; [|split; [lra|split; [|split; [reflexivity|split; [|]]]]]]].
    + destruct (Nat.eqb_spec k 0) as [K|K]; [lra|]. destruct KC as [|[KC _]]; [lia|]. split; [apply pct_ge; lra|apply pct_le; lra].
    + destruct (Qeq_bool opt 0) eqn:EO.
      * apply Qeq_bool_iff, Z in EO. subst k. unfold ratio_formula. cbn. lra.
      * apply Qeq_bool_false in EO. assert (OP : 0 < opt) by (destruct (Qlt_le_dec 0 opt); [assumption|exfalso; apply EO; lra]).
        destruct KC as [->|[KC K]]; [exfalso; apply EO, Z; reflexivity|]. specialize (FK K).
        rewrite E0. split; [|apply pct_le; [assumption|lra]]. apply pct_ge; [assumption|].
        set (F := ratio_formula recipe k) in *. set (q := Qn k) in *. set (q0 := Qn k0) in *.
        assert (G : F * q0 <= 100 * (q0 - 1)).
        { clearbody F q q0. assert (F * (q0 - q) <= 100 * (q0 - q)) by nra. lra. }
        assert (H : F * opt * q0 <= 100 * total * q0) by (clearbody F q q0; nra).
        apply Qmult_le_r in H; [exact H|lra].
    + destruct (Qeq_bool opt 0) eqn:EO; [lra|]. apply Qeq_bool_false in EO. assert (OP : 0 < opt) by (destruct (Qlt_le_dec 0 opt); [assumption|exfalso; apply EO; lra]).
      rewrite E0. split; [apply pct_ge; lra|]. apply Qmult_le_compat_r; [|lra]. apply div_le; assumption.
    + destruct (Qeq_bool opt 0); [reflexivity|]. rewrite E0. reflexivity.
    + destruct (Nat.eqb_spec k 0) as [K|K]; [lra|]. destruct KC as [|[KC _]]; [lia|].
      apply Qmult_le_compat_r; [|lra]. apply Qle_shift_div_l; [assumption|].
      assert (X : Qn d / Qn k0 * Qn k == Qn d * Qn k / Qn k0) by (field; lra). rewrite X. apply Qle_shift_div_r; [lra|]. nra.
  - intros EM. unfold totalgft, totalgftratio, marketgft, marketgftratio, auction_columns. cbn [nth snd]. cbn zeta. split; [exact EM|].
    destruct (Qeq_bool opt 0); [reflexivity|]. rewrite EM. reflexivity.
Qed.
