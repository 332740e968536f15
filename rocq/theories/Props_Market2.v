(** * Property C83: the Market object: construction, agents joining, emptiness *)

From Coq Require Import String List Arith QArith Permutation Sorted.
From Verif Require Import Base Model_Agents Model_Trade Model_Market Spec_Market Spec_Market2 Proof_Market2.
Import ListNotations.
Open Scope Q_scope.
Open Scope string_scope.

(** A market needs at least one category; its categories are the ones given. *)
Theorem C83_construction : forall cats,
  (cats = [] /\ new_market cats = Raise ValueError) \/ (cats <> [] /\ new_market cats = Ok cats).
Proof. exact new_market_spec. Qed.
Print Assumptions C83_construction.

(** [append_trader]: the agent joins the category of that number, the others do not change. *)
Theorem C83_append_trader : forall m i v,
  (exists c c', nth_error m i = Some c /\ joined c v c'
     /\ append_trader m i v = Ok (set_nth i c' m) /\ nth_error (set_nth i c' m) i = Some c'
     /\ forall j, j <> i -> nth_error (set_nth i c' m) j = nth_error m j)
  \/ ((length m <= i)%nat /\ append_trader m i v = Raise IndexError).
Proof. exact append_trader_spec. Qed.
Print Assumptions C83_append_trader.

(** [append_PS]: value number i joins category number i; a set of another length is refused. *)
Theorem C83_append_PS : forall m ps,
  (length ps = length m /\ exists m', append_PS m ps = Ok m' /\ length m' = length m
     /\ forall i c v, nth_error m i = Some c -> nth_error ps i = Some v ->
          exists c', nth_error m' i = Some c' /\ joined c v c')
  \/ (length ps <> length m /\ append_PS m ps = Raise ValueError).
Proof. exact append_PS_spec. Qed.
Print Assumptions C83_append_PS.

(** Taking out the best procurement-set and putting it back gives the same market. *)
Theorem C83_put_back : forall m ps m', sorted_market m ->
  get_highest_agents m (repeat 1%nat (length m)) = Ok (Some ps) ->
  market_remove_highest m (repeat 1%nat (length m)) = Ok m' ->
  exists m'', append_PS m' ps = Ok m'' /\ Forall2 same_category m'' m.
Proof. exact put_back. Qed.
Print Assumptions C83_put_back.

Theorem C83_has_empty_category : forall m,
  has_empty_category m = true <-> exists c, In c m /\ cvalues c = [].
Proof. exact has_empty_spec. Qed.
Print Assumptions C83_has_empty_category.

(** With an empty category, a recipe that needs every category allows no deal at all. *)
Theorem C83_empty_no_deals : forall cap m recipe z, length recipe = length m ->
  (forall r, In r recipe -> (0 < r)%nat) -> has_empty_category m = true ->
  exists rem, optimal_trade cap m recipe z = Ok ([], rem) /\ rem = clone_market m.
Proof. exact empty_no_deals. Qed.
Print Assumptions C83_empty_no_deals.

Definition ex_m : market := [mkCat "buyer" [9; 4]; mkCat "seller" [-(3); -(4); -(8)]].

Example C83_nonvacuous :
  sorted_market ex_m
  /\ get_highest_agents ex_m [1; 1]%nat = Ok (Some [9; -(3)])
  /\ market_remove_highest ex_m [1; 1]%nat = Ok [mkCat "buyer" [4]; mkCat "seller" [-(4); -(8)]]
  /\ append_PS [mkCat "buyer" [4]; mkCat "seller" [-(4); -(8)]] [9; -(3)] = Ok ex_m
  /\ append_PS ex_m [7; -(5)] = Ok [mkCat "buyer" [9; 7; 4]; mkCat "seller" [-(3); -(4); -(5); -(8)]]
  /\ append_PS ex_m [7] = Raise ValueError
  /\ has_empty_category ex_m = false
  /\ has_empty_category [mkCat "buyer" [9]; mkCat "seller" []] = true.
Proof.
  split; [|repeat split; vm_compute; reflexivity].
  unfold sorted_market, ex_m. repeat constructor; intro H; vm_compute in H; discriminate H.
Qed.
