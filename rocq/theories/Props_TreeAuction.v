(** * Properties C34 - C41: multi-recipe prices and the tree auction

    [tree_auction M p0 fuel m st] models [budget_balanced_ascending_auction(market, ps_recipe_struct)] of
    ascending_auction_recipetree_protocol.py: [M] is MAX_VALUE, [p0] the result of the linear program of
    prices.calculate_initial_prices, [st] the nested list that describes the tree; [fuel] bounds the number of rounds
    ([Timeout]: not yet finished). *)

From Coq Require Import String List Arith Lia QArith Lqa Permutation Sorted.
From Verif Require Import Base Model_Agents Model_Trade Model_Prices Model_Market Model_RecipeTree Model_TreeAuction
  Spec_Market Spec_RecipeTree Spec_TreeAuction Spec_Ascending
  Proof_TA3 Proof_TA4 Proof_TA5 Proof_TA6 Proof_TA7 Proof_TA8 Proof_TA9.
Import ListNotations.
Open Scope Q_scope.
Open Scope string_scope.

(** ** The example of the module's doctest (lines 96-103): buyers, and then either sellers or producers A and B *)
Definition ex_market : market :=
  [mkCat "buyer" [27; 21; 17; 11; 3]; mkCat "seller" [-(4); -(5); -(11)];
   mkCat "producerA" [-(2); -(3); -(11)]; mkCat "producerB" [-(1); -(2); -(8)]].
Definition ex_struct : pystruct := SList [SInt 0; SList [SInt 1; SNone; SInt 2; SList [SInt 3; SNone]]].
Definition ex_tree : rtree := Node 0 [Node 1 []; Node 2 [Node 3 []]].
Definition ex_recipes : list (list nat) := [[1; 1; 0; 0]; [1; 0; 1; 1]]%nat.
Definition ex_p0 : list Q := [- MAX_VALUE; - (2) * MAX_VALUE; - MAX_VALUE; - MAX_VALUE].

Example ex_built : new_tree (clone_market ex_market) ex_struct = Ok ex_tree /\ recipes 4 ex_tree = Ok ex_recipes.
Proof. split; reflexivity. Qed.
Example ex_distinct : distinct_categories ex_tree.
Proof. unfold distinct_categories; simpl. repeat constructor; simpl; intuition discriminate. Qed.
Example ex_range : indices_in_range 4 ex_tree.
Proof. unfold indices_in_range. repeat constructor. Qed.
Example ex_p0_ok : initial_prices_ok 4 ex_recipes (- MAX_VALUE) ex_p0.
Proof.
  split; [reflexivity|]. split; [repeat constructor; unfold Qle; simpl; lia|].
  exists (- (3) * MAX_VALUE). intros r [<-|[<-|[]]]; reflexivity.
Qed.
Example ex_p0_optimal : initial_prices_optimal 4 ex_recipes (- MAX_VALUE) ex_p0.
Proof.
  apply (optimal_intro _ _ ex_tree); [exact ex_range|exact ex_distinct|reflexivity|exact ex_p0_ok|].
  intros r [<-|[<-|[]]]; reflexivity.
Qed.

Lemma in_values : forall (P : Q -> Prop) (m : market),
  Forall (fun c => Forall P (cvalues c)) m -> forall c v, In c m -> In v (cvalues c) -> P v.
Proof.
  intros P m H c v Hc Hv. rewrite Forall_forall in H. specialize (H c Hc).
  rewrite Forall_forall in H. auto.
Qed.

Example ex_within : values_within 27 ex_market /\ values_within MAX_VALUE ex_market
  /\ values_above (- MAX_VALUE) ex_market /\ values_below MAX_VALUE ex_market.
Proof.
  repeat split; try (match goal with |- - ?b <= ?v => revert H0; revert H; revert c v; apply in_values
    | |- ?v <= ?b => revert H0; revert H; revert c v; apply in_values end; repeat constructor; unfold Qle; simpl; lia);
  unfold values_above, values_below; apply in_values; repeat constructor; unfold Qle; simpl; lia.
Qed.

(** The run of the doctest. *)
Example ex_run : exists r, tree_auction MAX_VALUE ex_p0 20 ex_market ex_struct = Ok r
  /\ tt_tree r = ex_tree /\ tt_deals r = 2%nat /\ tt_gft r == 41
  /\ Forall2 Qeq (tt_prices r) [5; -(5); -(3); -(2)]
  /\ map cvalues (tt_cats r) = [[27; 21; 17; 11]; [-(4)]; [-(2)]; [-(1)]].
Proof. eexists. split; [vm_compute; reflexivity|]. repeat split; repeat constructor. Qed.

(** ** C34: SimultaneousAscendingPriceVectors.increase_prices

    [incs] are the planned increases (category, new price) and [bound] is sum_upper_bound.  The first recipe is
    the one whose price sum the object reports. *)
Theorem C34_increase_prices : forall sp incs bound n S,
  Forall (binary_recipe n) (sp_recipes sp) -> In (pv_recipe (sp_vector sp)) (sp_recipes sp) ->
  length (map_category_index_to_price sp) = n ->
  equal_sums (sp_recipes sp) (map_category_index_to_price sp) S -> S <= bound ->
  NoDup (map fst incs) -> (forall i x, In (i, x) incs -> (i < n)%nat) ->
  ((exists r, In r (sp_recipes sp) /\ categories_in r (map fst incs) <> 1%nat) ->
     increase_prices sp incs bound = Raise ValueError)
  /\ ((forall r, In r (sp_recipes sp) -> categories_in r (map fst incs) = 1%nat) ->
     exists sp' d, increase_prices sp incs bound = Ok sp'
       /\ sp_recipes sp' = sp_recipes sp
       /\ length (map_category_index_to_price sp') = n
       /\ (forall i, nth i (map_category_index_to_price sp') 0
                     == nth i (map_category_index_to_price sp) 0 + (if existsb (Nat.eqb i) (map fst incs) then d else 0))
       /\ equal_sums (sp_recipes sp) (map_category_index_to_price sp') (S + d) /\ S + d <= bound
       /\ (forall i x, In (i, x) incs -> nth i (map_category_index_to_price sp') 0 <= x)
       /\ (S + d == bound \/ exists i x, In (i, x) incs /\ nth i (map_category_index_to_price sp') 0 == x)
       /\ ((sp_status sp' = Some STOPPED_AT_ZERO_SUM <-> S + d == bound)
           /\ (sp_status sp' = Some STOPPED_AT_AGENT_VALUE <-> S + d < bound))).
Proof. exact increase_prices_spec. Qed.
Print Assumptions C34_increase_prices.

(** The doctest of increase_prices. *)
Definition ex_sp : sim_prices :=
  mkSP ex_recipes (mkPV [1; 1; 0; 0]%nat [-(10000); -(20000); -(10000); -(10000)] None) None.
Example C34_hypotheses :
  Forall (binary_recipe 4) (sp_recipes ex_sp) /\ In (pv_recipe (sp_vector ex_sp)) (sp_recipes ex_sp)
  /\ equal_sums (sp_recipes ex_sp) (map_category_index_to_price ex_sp) (-(30000))
  /\ (forall r, In r (sp_recipes ex_sp) -> categories_in r [1; 2]%nat = 1%nat)
  /\ exists r, In r (sp_recipes ex_sp) /\ categories_in r [2; 3]%nat <> 1%nat.
Proof.
  repeat split.
  - unfold ex_sp, ex_recipes; simpl sp_recipes.
    repeat (constructor; [split; [reflexivity|repeat (constructor; [auto|]); constructor]|]). constructor.
  - left; reflexivity.
  - intros r [<-|[<-|[]]]; reflexivity.
  - intros r [<-|[<-|[]]]; reflexivity.
  - exists [1; 1; 0; 0]%nat. split; [left; reflexivity|discriminate].
Qed.
Example C34_witness :
  match increase_prices ex_sp [(1%nat, -(80)); (2%nat, -(80))] 0 with
  | Ok sp => Forall2 Qeq (map_category_index_to_price sp) [-(10000); -(10080); -(80); -(10000)]
             /\ sp_status sp = Some STOPPED_AT_AGENT_VALUE
  | _ => False
  end.
Proof. vm_compute. repeat constructor. Qed.

(** ** C35: the initial linear program

    For every tree with distinct categories the program has an optimal solution, and in every optimal solution the
    common sum is - M times the number of categories of the longest recipe. *)
Theorem C35_initial_prices : forall M n t rs, 0 < M -> indices_in_range n t -> distinct_categories t ->
  recipes n t = Ok rs ->
  (exists p, initial_prices_optimal n rs (- M) p)
  /\ forall p S, initial_prices_optimal n rs (- M) p -> equal_sums rs p S -> S == - M * Qn (height t).
Proof. exact initial_prices_exist. Qed.
Print Assumptions C35_initial_prices.

(** With a repeated category the program can be infeasible: in [0,[1,None,1,[2,None]]] category 2 would need price 0. *)
Theorem C35_repeated_refuted : exists t rs, indices_in_range 3 t /\ recipes 3 t = Ok rs /\
  forall M p, 0 < M -> ~ initial_prices_ok 3 rs (- M) p.
Proof.
  exists (Node 0 [Node 1 []; Node 1 [Node 2 []]]), [[1; 1; 0]; [1; 1; 1]]%nat.
  split; [repeat constructor|]. split; [reflexivity|].
  intros M p HM (HL & HB & S & HS).
  destruct p as [|a [|b [|c [|]]]]; try discriminate HL.
  pose proof (HS _ (or_introl eq_refl)) as H1. pose proof (HS _ (or_intror (or_introl eq_refl))) as H2.
  inversion HB as [|? ? _ HB1]; inversion HB1 as [|? ? _ HB2]; inversion HB2 as [|? ? Hc _]; subst.
  simpl in H1, H2. unfold Qn in H1, H2. simpl in H1, H2. change (inject_Z 1) with 1 in *. change (inject_Z 0) with 0 in *. lra.
Qed.
Print Assumptions C35_repeated_refuted.

(** The program of the example. *)
Example C35_witness : initial_prices_optimal 4 ex_recipes (- MAX_VALUE) ex_p0 /\ height ex_tree = 3%nat.
Proof. split; [exact ex_p0_optimal|reflexivity]. Qed.

(** ** C36: strong budget balance *)
Theorem C36_budget_balance : forall M p0 fuel m st r rs, 0 < M ->
  tree_auction M p0 fuel m st = Ok r -> recipes (length m) (tt_tree r) = Ok rs ->
  initial_prices_ok (length m) rs (- M) p0 -> (0 < tt_deals r)%nat ->
  length (tt_prices r) = length m /\ equal_sums rs (tt_prices r) 0.
Proof. exact tree_sbb. Qed.
Print Assumptions C36_budget_balance.

Example C36_witness : exists r, tree_auction MAX_VALUE ex_p0 20 ex_market ex_struct = Ok r /\ (0 < tt_deals r)%nat
  /\ recipes 4 (tt_tree r) = Ok ex_recipes /\ initial_prices_ok 4 ex_recipes (- MAX_VALUE) ex_p0.
Proof.
  destruct ex_run as (r & H & T & D & _). exists r. rewrite T, D.
  split; [exact H|]. split; [lia|]. split; [reflexivity|exact ex_p0_ok].
Qed.

(** ** C37: individual rationality *)
Theorem C37_individual_rationality : forall M p0 fuel m st r rs, 0 < M ->
  tree_auction M p0 fuel m st = Ok r -> recipes (length m) (tt_tree r) = Ok rs ->
  initial_prices_ok (length m) rs (- M) p0 -> values_above (- M) m ->
  forall i c p v, nth_error (tt_cats r) i = Some c -> nth_error (tt_prices r) i = Some p -> In v (cvalues c) -> p <= v.
Proof. exact tree_ir. Qed.
Print Assumptions C37_individual_rationality.

(** The remaining agents of each category are its best ones, and those who left are worth at most the price. *)
Theorem C37_best_agents_remain : forall M p0 fuel m st r rs, 0 < M ->
  tree_auction M p0 fuel m st = Ok r -> recipes (length m) (tt_tree r) = Ok rs ->
  initial_prices_ok (length m) rs (- M) p0 -> values_above (- M) m ->
  length (tt_cats r) = length m /\ length (tt_prices r) = length m /\
  forall i c0 c p, nth_error m i = Some c0 -> nth_error (tt_cats r) i = Some c -> nth_error (tt_prices r) i = Some p ->
    cname c = cname c0 /\ desc (cvalues c) /\
    exists gone, Permutation (cvalues c ++ gone)%list (cvalues c0)
      /\ (forall x y, In x (cvalues c) -> In y gone -> y <= x)
      /\ (values_below M m -> forall y, In y gone -> y <= p).
Proof. exact tree_weakest. Qed.
Print Assumptions C37_best_agents_remain.

Example C37_witness : values_above (- MAX_VALUE) ex_market /\ values_below MAX_VALUE ex_market.
Proof. destruct ex_within as (_ & _ & A & B). split; assumption. Qed.

(** ** C38: termination *)

(** Trees in which only leaves have siblings (in particular single paths and two-level trees). *)
Theorem C38_broom_terminates : forall M p0 fuel m st t rs, new_tree (clone_market m) st = Ok t ->
  distinct_categories t -> broom t -> tchildren t <> [] -> recipes (length m) t = Ok rs ->
  length p0 = length m -> (exists S, equal_sums rs p0 S) -> values_below M m -> (agents_number m < fuel)%nat ->
  exists r, tree_auction M p0 fuel m st = Ok r.
Proof. exact broom_terminates. Qed.
Print Assumptions C38_broom_terminates.

(** Every tree, when no category is empty, no category contains two equal values, and the values are
    small compared with MAX_VALUE. *)
Theorem C38_moderate_terminates : forall M B p0 fuel m st t rs, 0 < M -> new_tree (clone_market m) st = Ok t ->
  distinct_categories t -> tchildren t <> [] -> recipes (length m) t = Ok rs ->
  initial_prices_ok (length m) rs (- M) p0 ->
  values_within B m -> 2 * B * Qn (height t) <= M -> no_ties m ->
  (forall i, In i (node_indices t) -> (0 < csize (cat_at m i))%nat) -> (agents_number m < fuel)%nat ->
  exists r, tree_auction M p0 fuel m st = Ok r.
Proof. exact moderate_terminates. Qed.
Print Assumptions C38_moderate_terminates.

(** In general there is a dichotomy: the auction ends within (number of agents + 1) rounds or never. *)
Theorem C38_ends_or_never : forall M p0 m st t rs, 0 < M -> new_tree (clone_market m) st = Ok t ->
  distinct_categories t -> tchildren t <> [] -> recipes (length m) t = Ok rs ->
  initial_prices_ok (length m) rs (- M) p0 -> values_within M m ->
  (exists r, tree_auction M p0 (agents_number m + 1) m st = Ok r)
  \/ forall fuel, tree_auction M p0 fuel m st = Timeout.
Proof. exact ends_or_never. Qed.
Print Assumptions C38_ends_or_never.

(** A round that neither ends the auction nor removes an agent is followed by infinitely many rounds. *)
Theorem C38_idle_round_repeats : forall M p0 m st t rs sp s s', 0 < M -> new_tree (clone_market m) st = Ok t ->
  distinct_categories t -> recipes (length m) t = Ok rs -> new_sim_prices rs p0 = Ok sp ->
  initial_prices_ok (length m) rs (- M) p0 -> values_within M m ->
  tree_visited M t (clone_market m, sp) s -> tree_round M t s = Ok (false, s') -> fst s' = fst s ->
  forall fuel, tree_loop M fuel t s' = Timeout.
Proof. exact stuck_auction. Qed.
Print Assumptions C38_idle_round_repeats.

Example C38_broom_witness :
  new_tree (clone_market ex_market) (SList [SInt 0; SList [SInt 2; SList [SInt 1; SNone; SInt 3; SNone]]])
    = Ok (Node 0 [Node 2 [Node 1 []; Node 3 []]])
  /\ broom (Node 0 [Node 2 [Node 1 []; Node 3 []]])
  /\ distinct_categories (Node 0 [Node 2 [Node 1 []; Node 3 []]]).
Proof.
  split; [reflexivity|]. split.
  - apply broom_handle, broom_leaves. repeat constructor.
  - unfold distinct_categories; simpl. repeat constructor; simpl; intuition discriminate.
Qed.

Lemma no_ties_intro : forall m : market,
  Forall (fun c => ForallOrdPairs (fun x y => ~ x == y) (cvalues c)) m -> no_ties m.
Proof.
  intros m H c l1 x l2 y l3 Hc E. rewrite Forall_forall in H. specialize (H c Hc). rewrite E in H. clear - H.
  induction l1 as [|a l1 IH]; simpl in H.
  - inversion H as [|? ? F _]; subst. rewrite Forall_forall in F. apply F, in_or_app. right. left. reflexivity.
  - inversion H; subst. auto.
Qed.

(** The doctest market meets all hypotheses of C38_moderate_terminates and of C38_ends_or_never. *)
Example C38_moderate_witness : no_ties ex_market /\ 2 * 27 * Qn (height ex_tree) <= MAX_VALUE
  /\ (forall i, In i (node_indices ex_tree) -> (0 < csize (cat_at ex_market i))%nat) /\ agents_number ex_market = 14%nat.
Proof.
  split; [|split; [|split]].
  - apply no_ties_intro. unfold ex_market. repeat constructor; simpl; intros F; discriminate F.
  - unfold Qle; simpl; lia.
  - intros i [<-|[<-|[<-|[<-|[]]]]]; vm_compute; lia.
  - reflexivity.
Qed.

(** The auction can loop forever.  First with two empty categories: *)
Definition hang_market : market := [mkCat "a" [-(5)]; mkCat "b" []; mkCat "c" []; mkCat "d" [10]].
Definition hang_struct : pystruct := SList [SInt 0; SList [SInt 1; SList [SInt 2; SNone]; SInt 3; SNone]].
Definition hang_tree : rtree := Node 0 [Node 1 [Node 2 []]; Node 3 []].
Definition hang_recipes : list (list nat) := [[1; 1; 1; 0]; [1; 0; 0; 1]]%nat.
Definition hang_p0 : list Q := [- MAX_VALUE; - MAX_VALUE; - MAX_VALUE; - (2) * MAX_VALUE].

Theorem C38_empty_category_hangs : 
  initial_prices_optimal 4 hang_recipes (- MAX_VALUE) hang_p0 /\ values_within 10 hang_market
  /\ distinct_categories hang_tree /\ new_tree (clone_market hang_market) hang_struct = Ok hang_tree
  /\ recipes 4 hang_tree = Ok hang_recipes
  /\ forall fuel, tree_auction MAX_VALUE hang_p0 fuel hang_market hang_struct = Timeout.
Proof.
  assert (HD : distinct_categories hang_tree) by (unfold distinct_categories; simpl; repeat constructor; simpl; intuition discriminate).
  split; [|split; [|split; [exact HD|split; [reflexivity|split; [reflexivity|]]]]].
  - apply (optimal_intro _ _ hang_tree); [repeat constructor|exact HD|reflexivity| |].
    + split; [reflexivity|]. split; [repeat constructor; unfold Qle; simpl; lia|].
      exists (- (3) * MAX_VALUE). intros r [<-|[<-|[]]]; reflexivity.
    + intros r [<-|[<-|[]]]; reflexivity.
  - unfold values_within. apply in_values. repeat constructor; unfold Qle; simpl; lia.
  - eapply auction_never; [reflexivity|reflexivity|vm_compute; reflexivity|reflexivity|].
    repeat first [apply loop_never_fix; vm_compute; reflexivity | eapply loop_never_step; [vm_compute; reflexivity|]].
Qed.
Print Assumptions C38_empty_category_hangs.

(** And with agents in every category, all values small, but with ties. *)
Definition tie_market : market :=
  [mkCat "buyer" [9; 9]; mkCat "c" [-(1)]; mkCat "d" [-(5); -(5)]; mkCat "g" [-(3)];
   mkCat "c2" [-(1)]; mkCat "d2" [-(5); -(5); -(5)]; mkCat "g2" [-(3)]; mkCat "x" [-(1); -(2)]].
Definition tie_struct : pystruct :=
  SList [SInt 0; SList [SInt 1; SList [SInt 2; SList [SInt 3; SNone]];
                        SInt 4; SList [SInt 5; SList [SInt 6; SNone]]; SInt 7; SNone]].
Definition tie_tree : rtree := Node 0 [Node 1 [Node 2 [Node 3 []]]; Node 4 [Node 5 [Node 6 []]]; Node 7 []].
Definition tie_recipes : list (list nat) :=
  [[1; 1; 1; 1; 0; 0; 0; 0]; [1; 0; 0; 0; 1; 1; 1; 0]; [1; 0; 0; 0; 0; 0; 0; 1]]%nat.
Definition tie_p0 : list Q :=
  [- MAX_VALUE; - MAX_VALUE; - MAX_VALUE; - MAX_VALUE; - MAX_VALUE; - MAX_VALUE; - MAX_VALUE; - (3) * MAX_VALUE].

Theorem C38_ties_hang :
  initial_prices_optimal 8 tie_recipes (- MAX_VALUE) tie_p0 /\ values_within 10 tie_market
  /\ (forall c, In c tie_market -> cvalues c <> [])
  /\ distinct_categories tie_tree /\ new_tree (clone_market tie_market) tie_struct = Ok tie_tree
  /\ recipes 8 tie_tree = Ok tie_recipes
  /\ forall fuel, tree_auction MAX_VALUE tie_p0 fuel tie_market tie_struct = Timeout.
Proof.
  assert (HD : distinct_categories tie_tree) by (unfold distinct_categories; simpl; repeat constructor; simpl; intuition discriminate).
  split; [|split; [|split; [|split; [exact HD|split; [reflexivity|split; [reflexivity|]]]]]].
  - apply (optimal_intro _ _ tie_tree); [repeat constructor|exact HD|reflexivity| |].
    + split; [reflexivity|]. split; [repeat constructor; unfold Qle; simpl; lia|].
      exists (- (4) * MAX_VALUE). intros r [<-|[<-|[<-|[]]]]; reflexivity.
    + intros r [<-|[<-|[<-|[]]]]; reflexivity.
  - unfold values_within. apply in_values. repeat constructor; unfold Qle; simpl; lia.
  - intros c H. repeat (destruct H as [<-|H]; [discriminate|]). destruct H.
  - eapply auction_never; [reflexivity|reflexivity|vm_compute; reflexivity|reflexivity|].
    repeat first [apply loop_never_fix; vm_compute; reflexivity | eapply loop_never_step; [vm_compute; reflexivity|]].
Qed.
Print Assumptions C38_ties_hang.

(** ** C39: truthfulness

    Agent with true value [v] in category [i]; he reports [v'] instead, the other reports staying the same.
    [sel] is any non-negative probability of being selected among the remaining agents, as a function of
    the category and the numbers of remaining agents. *)
Theorem C39_truthful : forall M p0 m st i name pre post v v' pos pos' fuel fuel' r r' rs sel, 0 < M ->
  (i < length m)%nat ->
  possible_position (pre ++ post)%list v pos -> possible_position (pre ++ post)%list v' pos' ->
  values_within M (set_nth i (mkCat name (pre ++ v :: post)%list) m) ->
  values_within M (set_nth i (mkCat name (pre ++ v' :: post)%list) m) ->
  (forall j sizes, 0 <= sel j sizes) ->
  tree_auction M p0 fuel (set_nth i (mkCat name (pre ++ v :: post)%list) m) st = Ok r ->
  tree_auction M p0 fuel' (set_nth i (mkCat name (pre ++ v' :: post)%list) m) st = Ok r' ->
  recipes (length m) (tt_tree r) = Ok rs -> initial_prices_ok (length m) rs (- M) p0 ->
  tree_utility sel r' i pos' v <= tree_utility sel r i pos v.
Proof. exact tree_truthful. Qed.
Print Assumptions C39_truthful.

(** Buyer 17 of the example reports 100 or 2: both runs end, and his utility is not increased. *)
Example C39_witness :
  let run v := tree_auction MAX_VALUE ex_p0 20 (set_nth 0 (mkCat "buyer" ([27; 21] ++ v :: [11; 3])%list) ex_market) ex_struct in
  (exists r, run 17 = Ok r /\ tree_utility (fun _ _ => 1) r 0 2 17 == 12)
  /\ (exists r, run 100 = Ok r /\ tree_utility (fun _ _ => 1) r 0 0 17 == 12)
  /\ (exists r, run 2 = Ok r /\ tree_utility (fun _ _ => 1) r 0 4 17 == 0).
Proof. cbv zeta. repeat split; (eexists; split; [vm_compute; reflexivity|vm_compute; reflexivity]). Qed.

(** ** C40: at most the optimum *)
Theorem C40_at_most_optimal : forall M p0 fuel m st r rs opt k g, 0 < M ->
  tree_auction M p0 fuel m st = Ok r -> recipes (length m) (tt_tree r) = Ok rs ->
  distinct_categories (tt_tree r) ->
  initial_prices_ok (length m) rs (- M) p0 -> values_above (- M) m ->
  tree_optimal_trade (clone_market m) (tt_tree r) = Ok (opt, k, g) ->
  (tt_deals r <= k)%nat /\ 0 <= tt_gft r /\ tt_gft r <= g
  /\ exists D, tree_feasible (tt_cats r) (tt_tree r) D /\ length D = tt_deals r /\ tree_gain D == tt_gft r.
Proof. exact tree_at_most_optimal. Qed.
Print Assumptions C40_at_most_optimal.

Example C40_witness : match tree_optimal_trade (clone_market ex_market) ex_tree with
  | Ok (_, k, g) => k = 4%nat /\ g == 59 | _ => False end.
Proof. vm_compute. split; reflexivity. Qed.

(** ** C41: exceptions *)
Theorem C41_no_exception : forall M p0 fuel m st t rs, new_tree (clone_market m) st = Ok t ->
  distinct_categories t -> recipes (length m) t = Ok rs -> length p0 = length m -> (exists S, equal_sums rs p0 S) ->
  ~ (tchildren t = [] /\ (0 < csize (cat_at m (tindex t)))%nat) ->
  forall e, tree_auction M p0 fuel m st <> Raise e.
Proof. exact tree_no_raise. Qed.
Print Assumptions C41_no_exception.

Theorem C41_single_node : forall M p0 fuel m st i, new_tree (clone_market m) st = Ok (Node i []) -> length p0 = length m ->
  ((0 < csize (cat_at m i))%nat -> tree_auction M p0 fuel m st = Raise TypeError)
  /\ (csize (cat_at m i) = 0%nat -> (0 < fuel)%nat -> exists r, tree_auction M p0 fuel m st = Ok r /\ tt_deals r = 0%nat).
Proof. exact single_node. Qed.
Print Assumptions C41_single_node.

(** A tree that fails to be built raises the exception of its construction (see C29). *)
Theorem C41_bad_struct : forall M p0 fuel m st e, new_tree (clone_market m) st = Raise e ->
  tree_auction M p0 fuel m st = Raise e.
Proof. intros M p0 fuel m st e H. unfold tree_auction. rewrite H. reflexivity. Qed.
Print Assumptions C41_bad_struct.

(** With a repeated category the auction can raise ValueError, although the linear program is feasible. *)
Theorem C41_repeated_refuted : exists m st t rs p0, new_tree (clone_market m) st = Ok t
  /\ recipes (length m) t = Ok rs /\ initial_prices_ok (length m) rs (- MAX_VALUE) p0 /\ values_within 10 m
  /\ tchildren t <> [] /\ tree_auction MAX_VALUE p0 20 m st = Raise ValueError.
Proof.
  exists [mkCat "a" [9]; mkCat "b" [-(1); -(2); -(3)]; mkCat "c" [-(1); -(2)]; mkCat "d" [-(1)]],
    (SList [SInt 0; SList [SInt 1; SList [SInt 2; SNone]; SInt 2; SList [SInt 3; SNone]]]),
    (Node 0 [Node 1 [Node 2 []]; Node 2 [Node 3 []]]), [[1; 1; 1; 0]; [1; 0; 1; 1]]%nat,
    [- MAX_VALUE; - MAX_VALUE; - MAX_VALUE; - MAX_VALUE].
  split; [reflexivity|]. split; [reflexivity|]. split; [|split; [|split]].
  - split; [reflexivity|]. split; [repeat constructor; unfold Qle; simpl; lia|].
    exists (- (3) * MAX_VALUE). intros r [<-|[<-|[]]]; reflexivity.
  - unfold values_within. apply in_values. repeat constructor; unfold Qle; simpl; lia.
  - discriminate.
  - vm_compute. reflexivity.
Qed.
Print Assumptions C41_repeated_refuted.

Example C41_witness : new_tree (clone_market ex_market) (SList [SInt 2; SNone]) = Ok (Node 2 [])
  /\ tree_auction MAX_VALUE ex_p0 20 ex_market (SList [SInt 2; SNone]) = Raise TypeError
  /\ new_tree (clone_market ex_market) (SList [SInt 2]) = Raise ValueError.
Proof. repeat split. Qed.
