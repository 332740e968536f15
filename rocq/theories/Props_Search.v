(** * C97 including_gft_0 only adds traders; C98 the search programs of stock/ *)

From Coq Require Import String List Arith ZArith QArith Permutation.
From Verif Require Import Base Model_Agents Model_Trade Model_Prices Model_Market Model_Ascending Model_TradeReduction Model_Search
  Spec_Market Spec_Trade Spec_Ascending Spec_Search.
From Verif Require Proof_Flag Proof_Search Proof_Search2.
Import ListNotations.
Open Scope list_scope.
Open Scope Q_scope.

(** ** C97 *)

Theorem C97_flag_adds : forall M cap m recipe t t',
  trade_reduction_M M cap m recipe false = Ok t -> trade_reduction_M M cap m recipe true = Ok t' ->
  (num_of_deals t <= num_of_deals t')%nat /\ cats_sub (tcats t) (tcats t').
Proof. exact Proof_Flag.flag_adds_traders. Qed.
Print Assumptions C97_flag_adds.

Example C97_case : let m := [new_category "buyer" [4; 2; 2]; new_category "seller" [-(1); -(1); -(2); -(2)]] in
  exists t t', trade_reduction_M 1000 100 m [1; 2]%nat false = Ok t /\ trade_reduction_M 1000 100 m [1; 2]%nat true = Ok t'
    /\ num_of_deals t = 0%nat /\ num_of_deals t' = 1%nat
    /\ map cvalues (tcats t) = [[]; [-(1); -(1)]] /\ map cvalues (tcats t') = [[4]; [-(1); -(1)]].
Proof. intros m. do 2 eexists. split; [vm_compute; reflexivity|]. split; [vm_compute; reflexivity|]. repeat (split; [vm_compute; reflexivity|]). vm_compute. reflexivity. Qed.

(** The gain that the trade reports is not monotone in the flag: with more traders in one category than the deals need, the program
    takes an average over the traders. *)
Theorem C97_gain_refuted : ~ (forall M cap m recipe t t' g g', values_at_least (- M) m ->
  trade_reduction_M M cap m recipe false = Ok t -> trade_reduction_M M cap m recipe true = Ok t' ->
  gain_from_trade t true = Ok g -> gain_from_trade t' true = Ok g' -> g <= g').
Proof.
  intros H. set (m := [new_category "buyer" [3; 2; 1]; new_category "seller" [-(1); -(2); -(3)]]).
  destruct (trade_reduction_M 1000 100 m [1; 1]%nat false) as [t| |] eqn:E; [|vm_compute in E; discriminate E|vm_compute in E; discriminate E].
  destruct (trade_reduction_M 1000 100 m [1; 1]%nat true) as [t'| |] eqn:E'; [|vm_compute in E'; discriminate E'|vm_compute in E'; discriminate E'].
  assert (V : values_at_least (- (1000)) m).
  { intros c v Hc Hv. destruct Hc as [<-|[<-|[]]]; cbn in Hv; (repeat (destruct Hv as [<-|Hv]; [vm_compute; discriminate|])); contradiction. }
  destruct (gain_from_trade t true) as [g| |] eqn:G; [|vm_compute in E; injection E as <-; vm_compute in G; discriminate G|vm_compute in E; injection E as <-; vm_compute in G; discriminate G].
  destruct (gain_from_trade t' true) as [g'| |] eqn:G'; [|vm_compute in E'; injection E' as <-; vm_compute in G'; discriminate G'|vm_compute in E'; injection E' as <-; vm_compute in G'; discriminate G'].
  assert (X := H _ _ _ _ _ _ _ _ V E E' G G').
  vm_compute in E. injection E as <-. vm_compute in E'. injection E' as <-. vm_compute in G. injection G as <-. vm_compute in G'. injection G' as <-.
  apply X. reflexivity.
Qed.
Print Assumptions C97_gain_refuted.

(** ** C98 *)

(** removeSeconds(prices, n) with n >= 2 removes the positions 0, n, 2n, ...; with n = 1 it removes everything, with n = 0 it raises
    unless the list is empty. *)
Theorem C98_remove_seconds : forall prices n, (2 <= n)%nat -> exists r, remove_seconds prices n = Ok r
  /\ (length r + (length prices + (n - 1)) / n = length prices)%nat
  /\ forall k, (k < length r)%nat -> nth k r 0 = nth (k + k / (n - 1) + 1) prices 0.
Proof. exact Proof_Search.remove_seconds_spec. Qed.
Print Assumptions C98_remove_seconds.

Theorem C98_remove_all : forall prices, remove_seconds prices 1 = Ok []
  /\ remove_seconds prices 0 = if (length prices =? 0)%nat then Ok [] else Raise ZeroDivisionError.
Proof. intros prices. split; [apply Proof_Search.remove_one|apply Proof_Search.remove_zero]. Qed.
Print Assumptions C98_remove_all.

Example C98_remove_case : remove_seconds [1; 2; 3; 4; 5; 6; 7] 3 = Ok [2; 3; 5; 6].
Proof. reflexivity. Qed.

(** The search for an input on which the ascending auction makes more deals than the optimum never finds one, whatever the shuffles:
    nine rounds, in each of which the auction makes as many deals as the optimum or one less. *)
Theorem C98_bad_search : forall shuffle,
  (forall n, Permutation (fst (shuffle n)) bad_buyers /\ Permutation (snd (shuffle n)) bad_sellers) ->
  exists rows, bad_search [1; 4]%nat shuffle = Ok (10%nat, tl (fst (shuffle 10%nat)), tl (snd (shuffle 10%nat)), rows)
    /\ map (fun r => fst (fst r)) rows = seq 2 9
    /\ Forall (fun r => (snd r - 1 <= snd (fst r) <= snd r)%nat) rows.
Proof. exact Proof_Search.bad_search_spec. Qed.
Print Assumptions C98_bad_search.

Example C98_bad_shuffle : let shuffle := fun n : nat => if Nat.even n then (bad_buyers, rev bad_sellers) else (rev bad_buyers, bad_sellers) in
  forall n, Permutation (fst (shuffle n)) bad_buyers /\ Permutation (snd (shuffle n)) bad_sellers.
Proof. intros shuffle n. unfold shuffle. destruct (Nat.even n); (split; [|]); cbn [fst snd]; try apply Permutation_refl; apply Permutation_sym, Permutation_rev. Qed.

(** A round in which the two numbers differ. *)
Example C98_bad_round : exists b s, bad_round [1; 1]%nat 3 [9; 5; 4; 3; 8; 7] [0; -(2); -(1); 0; -(5); -(6)] = Ok (b, s, 2%nat, 3%nat)
  /\ b = [5; 4; 8; 7] /\ s = [-(2); -(1); -(5); -(6)].
Proof. do 2 eexists. split; [vm_compute; reflexivity|]. split; reflexivity. Qed.

(** The search for a market on which the flag changes both the number of deals and the gain never raises, whatever the draws.  It
    prints one row per round in order; the flag never makes fewer deals; the program stops at the first round that differs, and that
    round's lists are the ones printed at the end; without such a round it does all 9998 rounds. *)
Theorem C98_gft0_search : forall show draw, (forall n, program_draw (draw n)) ->
  exists last found rows, gft0_search show draw = Ok (last, found, rows)
    /\ Forall2 (fun n row => round_report [1; 2]%nat (draw n) row /\ (fst (fst (fst row)) <= snd (fst (fst row)))%nat)
         (seq 2 (length rows)) rows
    /\ (found = false -> length rows = N.to_nat 9998 /\ Forall (fun row => ~ differs row) rows)
    /\ (found = true -> exists early row, rows = early ++ [row] /\ Forall (fun r => ~ differs r) early /\ differs row
          /\ last = Some (draw (2 + length early)%nat)).
Proof. exact Proof_Search2.gft0_search_spec. Qed.
Print Assumptions C98_gft0_search.

Definition example_draw : list Q * list Q :=
  (map inject_Z [2; 2; 2; 2; 2; 2; 2; 2; 2; 4]%Z,
   map inject_Z [-1; -1; -2; -2; -10; -10; -10; -10; -10; -10; -10; -10; -10; -10; -10; -10; -10; -10; -10; -10]%Z).

Example C98_draw : program_draw example_draw.
Proof.
  split; [reflexivity|]. split; [reflexivity|].
  split; intros v Hv; apply in_map_iff in Hv; destruct Hv as (z & <- & Hz); exists z; (split; [reflexivity|]);
    cbn [In] in Hz; (repeat (destruct Hz as [<-|Hz]; [split; discriminate|])); contradiction.
Qed.

(** On these draws the search stops in its first round. *)
Example C98_found : exists g g' b s, gft0_search (fun _ => EmptyString) (fun _ => example_draw) = Ok (Some (b, s), true, [(0%nat, 1%nat, g, g')])
  /\ g == 0 /\ g' == 2.
Proof.
  unfold gft0_search. replace (N.to_nat 9998) with (S (N.to_nat 9997)) by (vm_compute; reflexivity).
  cbn [seq]. generalize (seq 3 (N.to_nat 9997)). intros l.
  do 4 eexists. split; [vm_compute; reflexivity|]. split; reflexivity.
Qed.
