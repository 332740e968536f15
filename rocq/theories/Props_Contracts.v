(** * Property C84: contracts of the constructors of price vectors and trades *)

From Coq Require Import String List Arith Lia QArith Lqa.
From Verif Require Import Base Model_Agents Model_Trade Model_Market Model_Prices Model_RecipeTree Model_TreeAuction Model_IntPrices
  Model_Multibuyer Model_OldMulti Model_OldPrices Spec_OldMulti Spec_OldPrices Proof_Contracts.
Import ListNotations.
Open Scope Q_scope.
Open Scope string_scope.

(** prices.py SimultaneousAscendingPriceVectors: accepts a non-empty list of recipes of one length, refuses any other list with
    ValueError; starts with the initial prices and without a status. *)
Theorem C84_simultaneous_prices : forall rs p0,
  (rs <> [] /\ (forall r r', In r rs -> In r' rs -> length r = length r')
     /\ exists sp, new_sim_prices rs p0 = Ok sp /\ map_category_index_to_price sp = p0
     /\ sp_recipes sp = rs /\ sp_status sp = None)
  \/ ((rs = [] \/ ~ (forall r r', In r rs -> In r' rs -> length r = length r')) /\ new_sim_prices rs p0 = Raise ValueError).
Proof. exact new_sim_prices_spec. Qed.
Print Assumptions C84_simultaneous_prices.

(** prices_integer.py AscendingPriceVector with a number as initial price: that price for every category of the recipe; the
    price-sum is the initial price times the number of agents in the recipe, counted with the agent counts. *)
Theorem C84_integer_vector : forall recipe p counts,
  let iv := new_int_vector recipe p counts in
  length (iv_prices iv) = length recipe /\ Forall (fun q => q = p) (iv_prices iv)
  /\ (counts <> [] -> int_price_sum iv == p * Qn (nsum (map (fun x => (fst x * snd x)%nat) (combine recipe counts))))
  /\ (counts = [] -> int_price_sum iv == p * Qn (nsum recipe)).
Proof. exact new_int_vector_spec. Qed.
Print Assumptions C84_integer_vector.

(** prices_integer.py increase_prices: to raise the price of a category that some recipe uses and whose agent count is 0 is a
    division by zero. *)
Theorem C84_integer_zero_count : forall sp incs b, (forall r, In r (isp_recipes sp) -> length r = length (isp_counts sp)) ->
  (forall i x, In (i, x) incs -> (i < length (isp_counts sp))%nat) ->
  (exists r i x, In r (isp_recipes sp) /\ In (i, x) incs /\ (0 < nth i r 0)%nat /\ nth i (isp_counts sp) 0%nat = 0%nat) ->
  int_increase_prices sp incs b = Raise ZeroDivisionError.
Proof. exact int_zero_count. Qed.
Print Assumptions C84_integer_zero_count.

(** old/SimultaneousAscendingPriceVector.py: price_sum is the common price of all recipes, whenever they have one; in particular
    it is the initial price-sum after construction, if the linear program solves its equations. *)
Theorem C84_old_price_sum : forall v s, os_recipes v <> [] -> common_sum (os_recipes v) (os_prices v) s ->
  exists s', old_price_sum v = Ok s' /\ s' == s.
Proof. exact old_sum_common. Qed.
Print Assumptions C84_old_price_sum.

Theorem C84_old_initial_sum : forall lp rs s v, old_new lp rs s = Ok v ->
  (forall prices, lp rs s = Some prices -> common_sum rs prices s) ->
  exists s', old_price_sum v = Ok s' /\ s' == s.
Proof. exact old_sum_initial. Qed.
Print Assumptions C84_old_initial_sum.

(** The trade object of the multi-buyer auction: as many deals as units are offered and demanded; gain and text exist in exactly
    these cases. *)
Theorem C84_multibuyer_trade : forall buyers seller counts prices,
  let t := new_mb_trade buyers seller counts prices in
  let offered := csize seller in
  let demanded := nsum (map (fun p => csize (fst p) * snd p)%nat (combine buyers counts)) in
  mb_deals t = Nat.min offered demanded
  /\ (mb_gain_from_trade t = Some 0 <-> (offered = 0 \/ demanded = 0)%nat)
  /\ (mb_repr t = Some true <-> (offered = 0 \/ demanded = 0)%nat)
  /\ (mb_repr t = Some false <-> (0 < demanded <= offered)%nat)
  /\ (mb_repr t = None <-> (0 < offered < demanded)%nat).
Proof. exact mb_object. Qed.
Print Assumptions C84_multibuyer_trade.

(** The trade object of the old multi-recipe auction cannot be built if some recipe has no category of its own. *)
Theorem C84_multi_trade_refuses : forall M cats rs prices k, (k < length rs)%nat -> (forall c, ~ unshared rs k c) ->
  new_multi_trade M cats rs prices = Raise ValueError.
Proof. exact no_own_category. Qed.
Print Assumptions C84_multi_trade_refuses.

(** ** Non-vacuity *)

Example C84_integer_witness : exists sp, new_int_sim_prices [[1; 1]; [1; 1]]%nat (-(10)) [1; 0]%nat = Ok sp
  /\ int_increase_prices sp [(1%nat, -(5))] 0 = Raise ZeroDivisionError
  /\ (forall r, In r (isp_recipes sp) -> length r = length (isp_counts sp))
  /\ exists sp', int_increase_prices sp [(0%nat, -(5))] 0 = Ok sp'.
Proof.
  eexists. split; [vm_compute; reflexivity|]. split; [vm_compute; reflexivity|]. split.
  - intros r [<-|[<-|[]]]; reflexivity.
  - eexists. vm_compute. reflexivity.
Qed.

Example C84_vector_witness :
  int_price_sum (new_int_vector [1; 2]%nat (-(10)) [3; 4]%nat) == -(110)
  /\ int_price_sum (new_int_vector [1; 2]%nat (-(10)) []) == -(30)
  /\ iv_prices (new_int_vector [1; 2; 0]%nat 7 [3; 4]%nat) = [7; 7; 7].
Proof. split; [vm_compute; reflexivity|]. split; vm_compute; reflexivity. Qed.

(** A single recipe: the sum is that of the first (and only) vector. *)
Example C84_old_witness : exists v, old_new (fun _ _ => Some [-(4); -(6)]) [[1; 1]]%nat (-(10)) = Ok v
  /\ exists s, old_price_sum v = Ok s /\ s == -(10).
Proof. eexists. split; [vm_compute; reflexivity|]. eexists. split; vm_compute; reflexivity. Qed.

Example C84_multibuyer_witness :
  mb_repr (new_mb_trade [mkCat "buyer" [9; 8]] (mkCat "seller" [-(1)]) [1]%nat [4; -(4)]) = None
  /\ mb_repr (new_mb_trade [mkCat "buyer" [9]] (mkCat "seller" [-(1); -(2)]) [1]%nat [4; -(4)]) = Some false
  /\ mb_repr (new_mb_trade [] (mkCat "seller" [-(1); -(2)]) [] [-(4)]) = Some true.
Proof. repeat split. Qed.

(** Recipes (1,1,0) and (1,1,0): no category belongs to one of them only. *)
Example C84_multi_trade_witness : forall c, ~ unshared [[1; 1]; [1; 1]]%nat 0 c.
Proof.
  intros c [[H1 H2] H3]. assert (X : 1%nat = 0%nat); [|discriminate].
  apply H3. split; [simpl; lia|]. destruct c as [|[|c]]; simpl in *; [lia|lia|destruct c; simpl in H2; lia].
Qed.

(** A trade with deals has no gain, a trade without deals has one. *)
Example C84_multi_gain : exists t t', new_multi_trade MAX_VALUE [mkCat "buyer" [9]; mkCat "seller" [-(4)]] [[1; 1]]%nat [5; -(5)] = Ok t
  /\ mt_deals t = 1%nat /\ multi_gain_implemented t = false
  /\ new_multi_trade MAX_VALUE [mkCat "buyer" []; mkCat "seller" [-(4)]] [[1; 1]]%nat [5; -(5)] = Ok t'
  /\ mt_deals t' = 0%nat /\ multi_gain_implemented t' = true.
Proof. do 2 eexists. split; [vm_compute; reflexivity|]. split; [reflexivity|]. split; [reflexivity|]. split; [vm_compute; reflexivity|]. split; reflexivity. Qed.
