(** * C76: tied price-vectors (old/SimultaneousAscendingPriceVector.py) *)

From Coq Require Import List Arith Lia QArith Lqa Bool.
From Verif Require Import Base Model_Prices Model_OldPrices Spec_OldPrices Proof_OldPrices.
Import ListNotations.
Open Scope Q_scope.

(** ** C76 *)

(** The constructor accepts a non-empty list of recipes of one length, for which initial prices are found; the collection then
    has these recipes and prices. *)
Theorem C76_constructor : forall lp rs s v, old_new lp rs s = Ok v <->
  rs <> [] /\ (forall r r', In r rs -> In r' rs -> length r = length r')
  /\ exists prices, lp rs s = Some prices /\ v = mkOS rs prices (map (fun _ => None) rs) None.
Proof.
  intros lp rs s v. unfold old_new. destruct rs as [|r0 rs]; [split; [discriminate|intros [H _]; congruence]|].
  destruct (forallb (fun r => (length r =? length r0)%nat) (r0 :: rs)) eqn:E.
  - assert (Hl : forall r, In r (r0 :: rs) -> length r = length r0).
    { intros r Hr. apply Nat.eqb_eq. rewrite forallb_forall in E. apply E. assumption. }
    destruct (lp (r0 :: rs) s) as [prices|].
    + split.
      * intro H. injection H as <-. split; [congruence|]. split; [intros r r' Hr Hr'; rewrite (Hl r Hr), (Hl r' Hr'); reflexivity|]. eauto.
      * intros (_ & _ & p & Hp & ->). injection Hp as ->. reflexivity.
    + split; [discriminate|]. intros (_ & _ & p & Hp & _). discriminate.
  - split; [discriminate|]. intros (_ & Hl & _). exfalso. apply not_true_iff_false in E. apply E. apply forallb_forall.
    intros r Hr. apply Nat.eqb_eq. apply Hl; [assumption|left; reflexivity].
Qed.
Print Assumptions C76_constructor.

(** The map from categories to prices never finds two vectors that disagree: it gives to each category of some recipe its price,
    and no price to the others. *)
Theorem C76_map : forall v, well_formed (os_recipes v) (os_prices v) ->
  exists l, old_map v = Ok l /\ length l = length (os_prices v) /\
   forall j p, nth_error (os_prices v) j = Some p ->
     ((exists r, In r (os_recipes v) /\ (0 < nth j r 0)%nat) -> nth_error l j = Some (Some p))
     /\ (~ (exists r, In r (os_recipes v) /\ (0 < nth j r 0)%nat) -> nth_error l j = Some None).
Proof. exact old_map_spec. Qed.
Print Assumptions C76_map.

(** One call with compatible increases: it returns, it changes only prices of named categories; every recipe then costs the
    lowest of 0 and of the sums that the single increases would give, and no price passes a target.  Only if this lowest sum is
    within the tolerance of 0 but not 0 can the sums differ, and then all are within the tolerance.  True increases never
    lower a price. *)
Theorem C76_increase : forall v incs s,
  well_formed (os_recipes v) (os_prices v) -> common_sum (os_recipes v) (os_prices v) s ->
  length incs = length (os_recipes v) -> compatible (os_recipes v) incs ->
  exists v', old_increase_prices v incs = Ok v' /\ os_recipes v' = os_recipes v
    /\ well_formed (os_recipes v) (os_prices v')
    /\ (forall j, (forall p, ~ In (j, p) incs) -> nth_error (os_prices v') j = nth_error (os_prices v) j)
    /\ exists m, lowest_sum (os_recipes v) (os_prices v) incs m
        /\ (m <= - tolerance -> os_status v' = Some STOPPED_AT_AGENT_VALUE)
        /\ (- tolerance < m -> os_status v' = Some STOPPED_AT_ZERO_SUM)
        /\ (m <= - tolerance \/ m == 0 ->
              common_sum (os_recipes v) (os_prices v') m /\ forall c p, In (c, p) incs -> nth c (os_prices v') 0 <= p)
        /\ (forall r, In r (os_recipes v) -> m <= recipe_price r (os_prices v') <= 0)
        /\ (s <= 0 -> raises (os_prices v) incs -> s <= m /\ forall j, nth j (os_prices v) 0 <= nth j (os_prices v') 0).
Proof. exact old_increase_spec. Qed.
Print Assumptions C76_increase.

(** A call with another number of increases than recipes raises ValueError. *)
Theorem C76_count : forall v incs, length incs <> length (os_recipes v) -> old_increase_prices v incs = Raise ValueError.
Proof. intros v incs H. unfold old_increase_prices. apply Nat.eqb_neq in H. rewrite H. reflexivity. Qed.
Print Assumptions C76_count.

(** Any number of compatible calls, where none follows a call that reported ZERO_SUM: all return; while the status is
    AGENT_VALUE, all the recipes cost exactly the same negative sum; when it is ZERO_SUM, all cost at most 0 and more than
    minus the tolerance. *)
Theorem C76_history : forall calls v s,
  well_formed (os_recipes v) (os_prices v) -> common_sum (os_recipes v) (os_prices v) s -> s <= 0 ->
  (forall incs, In incs calls -> length incs = length (os_recipes v) /\ compatible (os_recipes v) incs) ->
  (forall l1 incs l2 v1, calls = l1 ++ incs :: l2 -> old_history v l1 = Ok v1 ->
     os_status v1 <> Some STOPPED_AT_ZERO_SUM \/ l1 = []) ->
  exists v', old_history v calls = Ok v' /\ os_recipes v' = os_recipes v /\ well_formed (os_recipes v) (os_prices v')
    /\ (calls <> [] -> os_status v' = Some STOPPED_AT_AGENT_VALUE \/ os_status v' = Some STOPPED_AT_ZERO_SUM)
    /\ (os_status v' = Some STOPPED_AT_AGENT_VALUE -> calls <> [] -> exists s', s' <= - tolerance /\ common_sum (os_recipes v) (os_prices v') s')
    /\ (os_status v' = Some STOPPED_AT_ZERO_SUM -> calls <> [] ->
         forall r, In r (os_recipes v) -> - tolerance < recipe_price r (os_prices v') <= 0).
Proof. exact old_history_spec. Qed.
Print Assumptions C76_history.

(** ** Concrete cases *)

(** The doctest of lines 96-105; its initial prices are those of lines 138-146. *)
Definition ex_v : old_vectors := mkOS [[1; 1; 0; 0]; [1; 0; 1; 1]]%nat [-5000; -5000; -2500; -2500] [None; None] None.

Definition ex_calls : list (list (nat * Q)) := [[(0%nat, 10); (0%nat, 10)]; [(1%nat, -80); (2%nat, -80)]; [(1%nat, -80); (3%nat, -80)]].

Definition show (r : result old_vectors) : option (list Q * option price_status) :=
  match r with Ok v => Some (map Qred (os_prices v), os_status v) | _ => None end.

Example C76_doctest :
  show (old_history ex_v (firstn 1 ex_calls)) = Some ([10; -5000; -2500; -2500], Some STOPPED_AT_AGENT_VALUE)
  /\ show (old_history ex_v (firstn 2 ex_calls)) = Some ([10; -2580; -80; -2500], Some STOPPED_AT_AGENT_VALUE)
  /\ show (old_history ex_v ex_calls) = Some ([10; -160; -80; -80], Some STOPPED_AT_AGENT_VALUE).
Proof. repeat split; vm_compute; reflexivity. Qed.

Example C76_doctest_hypotheses :
  well_formed (os_recipes ex_v) (os_prices ex_v) /\ common_sum (os_recipes ex_v) (os_prices ex_v) (-10000)
  /\ forall incs, In incs ex_calls -> length incs = length (os_recipes ex_v) /\ compatible (os_recipes ex_v) incs.
Proof.
  split; [split; [discriminate|]; intros r [<-|[<-|[]]]; reflexivity|].
  split; [intros r [<-|[<-|[]]]; reflexivity|].
  intros incs Hin. simpl in Hin. split; [intuition (subst; reflexivity)|].
  unfold compatible. intros k r c p Hr Hi. split.
  - destruct k as [|[|[|k]]]; simpl in Hr; try discriminate; injection Hr as <-;
    destruct Hin as [<-|[<-|[<-|[]]]]; simpl in Hi; injection Hi as <- <-; simpl; lia.
  - intros k' r' c' p' Hr' Hi' Hpos.
    destruct k as [|[|[|k]]]; simpl in Hr; try discriminate; injection Hr as <-;
    destruct k' as [|[|[|k']]]; simpl in Hr'; try discriminate; injection Hr' as <-;
    destruct Hin as [<-|[<-|[<-|[]]]]; simpl in Hi, Hi'; injection Hi as <- <-; injection Hi' as <- <-; simpl in *; try lia; auto.
Qed.

(** The class documentation says "during price-increases, all price-vectors retain the same sum".  Not so if the category of a
    later increase is also in an earlier recipe: here the sums become 20 and -4990, so one recipe even costs more than 0. *)
Theorem C76_same_sum_refuted : exists v', old_increase_prices ex_v [(1%nat, 10); (0%nat, 10)] = Ok v'
  /\ recipe_price [1; 1; 0; 0]%nat (os_prices v') == 20 /\ recipe_price [1; 0; 1; 1]%nat (os_prices v') == -4990
  /\ os_status v' = Some STOPPED_AT_AGENT_VALUE.
Proof. eexists. split; [vm_compute; reflexivity|]. split; [vm_compute; reflexivity|]. split; [vm_compute; reflexivity|reflexivity]. Qed.
Print Assumptions C76_same_sum_refuted.

(** Nor, for compatible increases, if the lowest sum is within the tolerance of 0: the sums become -1e-12 and 0. *)
Theorem C76_tolerance_refuted : exists v',
  old_increase_prices (mkOS [[1; 1; 0]; [1; 0; 1]]%nat [-1; -1; -1] [None; None] None) [(1%nat, 1 - (1 # 1000000000000)); (2%nat, 10)] = Ok v'
  /\ recipe_price [1; 1; 0]%nat (os_prices v') == - (1 # 1000000000000) /\ recipe_price [1; 0; 1]%nat (os_prices v') == 0
  /\ os_status v' = Some STOPPED_AT_ZERO_SUM.
Proof. eexists. split; [vm_compute; reflexivity|]. split; [vm_compute; reflexivity|]. split; [vm_compute; reflexivity|reflexivity]. Qed.
Print Assumptions C76_tolerance_refuted.

(** A recipe that does not contain the category of its own increase leads to a division by zero. *)
Example C76_zero_division : old_increase_prices ex_v [(2%nat, 0); (2%nat, 10)] = Raise ZeroDivisionError.
Proof. vm_compute. reflexivity. Qed.
