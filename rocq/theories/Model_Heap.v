(** * Heap models: category objects are mutable and shared

    The other models are functional: a changed category is a new value.  Here the AgentCategory objects live in a heap, a
    Market or a trade holds references to them, and the methods change them in place, also when an exception is raised
    later.  Read-only methods are those of the functional models, applied to the objects read from the heap. *)

From Coq Require Import String List Arith QArith.
From Verif Require Import Base Model_Agents Model_Trade Model_Prices Model_Market Model_Ascending Model_TradeReduction Model_McAfee
  Model_RecipeTree Model_TreeAuction Model_IntPrices Model_IntTree Model_IntAuction.
Import ListNotations.
Open Scope Q_scope.

(** The AgentCategory objects; a reference is a position.  ([self.values] is copied by the constructor, agents.py:42, so no two
    objects share it, and it is part of the object here.) *)
Definition heap : Type := list category.
Definition ref : Type := nat.

(** A program reads and changes the heap; the changes stay when it raises. *)
Definition prog (A : Type) : Type := heap -> heap * result A.

Definition hlift {A} (r : result A) : prog A := fun h => (h, r).
Definition hret {A} (a : A) : prog A := hlift (Ok a).
Definition hbind {A B} (p : prog A) (f : A -> prog B) : prog B := fun h =>
  match p h with
  | (h', Ok a) => f a h'
  | (h', Raise e) => (h', Raise e)
  | (h', Timeout) => (h', Timeout)
  end.
Notation "x <~ m ;; k" := (hbind m (fun x => k)) (at level 61, m at next level, right associativity).

Definition hread (r : ref) : prog category := fun h => (h, get h r).
Definition hwrite (r : ref) (c : category) : prog unit := fun h => (set_nth r c h, Ok tt).
Definition hnew (c : category) : prog ref := fun h => (h ++ [c], Ok (length h))%list.
(** Reading several objects (for read-only methods). *)
Definition hread_all (rs : list ref) : prog (list category) := fun h => (h, map_result (get h) rs).

(** [[f(x) for x in l]]. *)
Fixpoint hmap {A B} (f : A -> prog B) (l : list A) : prog (list B) :=
  match l with
  | [] => hret []
  | x :: l' => b <~ f x ;; bs <~ hmap f l' ;; hret (b :: bs)
  end.

(** [for x in l: f(x)]. *)
Fixpoint hfor {A} (f : A -> prog unit) (l : list A) : prog unit :=
  match l with
  | [] => hret tt
  | x :: l' => _ <~ f x ;; hfor f l'
  end.

(** ** agents.py *)

(** agents.py:110-111 [clone], 40-43 [__init__]. *)
Definition h_clone (r : ref) : prog ref := c <~ hread r ;; hnew (new_category (cname c) (cvalues c)).

(** agents.py:57-67 [append]. *)
Definition h_append (r : ref) (v : Q) : prog unit := c <~ hread r ;; hwrite r (append c v).

(** agents.py:88-93 [remove_highest_agent]. *)
Definition h_remove_highest_agent (r : ref) : prog unit :=
  c <~ hread r ;; c' <~ hlift (remove_highest_agent c) ;; hwrite r c'.

(** agents.py:95-101 [remove_highest_agents]: one pop after another. *)
Fixpoint h_remove_highest_agents (r : ref) (count : nat) : prog unit :=
  match count with
  | O => hret tt
  | S n => _ <~ h_remove_highest_agent r ;; h_remove_highest_agents r n
  end.

(** agents.py:103-108 [remove_lowest_agent]. *)
Definition h_remove_lowest_agent (r : ref) : prog unit :=
  c <~ hread r ;; c' <~ hlift (remove_lowest_agent c) ;; hwrite r c'.

(** ** markets.py *)

(** A market: references to its categories (the Market constructor keeps the caller's list, markets.py:33). *)
Definition h_market : Type := list ref.

(** markets.py:227-228 [clone]. *)
Definition h_clone_market (m : h_market) : prog h_market := hmap h_clone m.

(** markets.py:38-44 [append_trader]. *)
Definition h_append_trader (m : h_market) (i : nat) (v : Q) : prog unit := r <~ hlift (get m i) ;; h_append r v.

(** markets.py:87-95 [remove_highest_agents]. *)
Fixpoint h_market_remove_highest (m : h_market) (recipe : list nat) : prog unit :=
  match m with
  | [] => hret tt
  | r :: m' =>
      match recipe with
      | [] => hlift (Raise IndexError)
      | k :: recipe' => _ <~ h_remove_highest_agents r k ;; h_market_remove_highest m' recipe'
      end
  end.

(** markets.py:106-114 [empty_agent_categories]. *)
Definition h_empty_agent_categories (m : h_market) : prog (list ref) :=
  hmap (fun r => c <~ hread r ;; hnew (new_category (cname c) [])) m.

(** markets.py:165-174. *)
Fixpoint h_optimal_loop (iterations : nat) (m : h_market) (recipe : list nat) (include_zero : bool) (acc : material_trade)
  : prog material_trade :=
  match iterations with
  | O => hret acc
  | S it =>
      cats <~ hread_all m ;;
      h <~ hlift (get_highest_agents cats recipe) ;;
      match h with
      | None => hret acc
      | Some ps =>
          let gft := Qsum ps in
          if Qlt_bool gft 0 || (Qeq_bool gft 0 && negb include_zero) then hret acc
          else _ <~ h_market_remove_highest m recipe ;; h_optimal_loop it m recipe include_zero (acc ++ [ps])%list
      end
  end.

(** markets.py:116-176 [optimal_trade]: the trade and the remaining market. *)
Definition h_optimal_trade (max_iterations : nat) (m : h_market) (recipe : list nat) (include_zero : bool)
  : prog (material_trade * h_market) :=
  if (length recipe =? length m)%nat then
    remaining <~ h_clone_market m ;;
    deals <~ h_optimal_loop max_iterations remaining recipe include_zero [] ;;
    hret (sort_by Qsum deals, remaining)
  else hlift (Raise ValueError).

(** ** ascending_auction_protocol.py *)

(** Lines 115-133: one round. *)
Definition h_ascending_round (recipe : list nat) (remaining : h_market) (pv : price_vector) : prog (bool * price_vector) :=
  cats <~ hread_all remaining ;;
  main <~ hlift (argmax (fractional_potential_ps cats recipe) (relevant_indices recipe)) ;;
  main_category <~ hlift (get remaining main) ;;
  c <~ hread main_category ;;
  if (csize c =? 0)%nat then hret (true, pv)
  else
    low <~ hlift (lowest_agent_value c) ;;
    pv' <~ hlift (increase_price_up_to_balance pv main low 0) ;;
    match pv_status pv' with
    | Some STOPPED_AT_ZERO_SUM => hret (true, pv')
    | _ => _ <~ h_remove_lowest_agent main_category ;; hret (false, pv')
    end.

Fixpoint h_ascending_loop (fuel : nat) (recipe : list nat) (remaining : h_market) (pv : price_vector) : prog price_vector :=
  match fuel with
  | O => hlift Timeout
  | S fuel' =>
      r <~ h_ascending_round recipe remaining pv ;;
      if fst r then hret (snd r) else h_ascending_loop fuel' recipe remaining (snd r)
  end.

(** Lines 24-136: the trade, and the references it holds (line 136 gives it remaining_market.categories).  Line 105 computes the
    optimal trade for the log. *)
Definition h_ascending_auction (M : Q) (fuel : nat) (iterations : nat) (m : h_market) (recipe : list nat) : prog (trade * list ref) :=
  if (length recipe =? length m)%nat then
    _ <~ h_optimal_trade iterations m recipe true ;;
    remaining <~ h_clone_market m ;;
    pv <~ h_ascending_loop fuel recipe remaining (new_price_vector recipe (- M)) ;;
    cats <~ hread_all remaining ;;
    t <~ hlift (new_trade cats recipe (Some (pv_prices pv))) ;;
    hret (t, remaining)
  else hlift (Raise ValueError).

(** ** trade_reduction_protocol.py *)

(** Lines 218-220 (and mcafee_protocol.py:134-136). *)
Definition h_add_dummies (M : Q) (m : h_market) : prog unit :=
  hfor (fun r => c <~ hread r ;; if (csize c =? 0)%nat then h_append r (- M) else hret tt) m.

(** Lines 246, 261, 282. *)
Definition h_tr_keep (recipe : list nat) (traders : list ref) (pivot_index : nat) (v : Q) : prog unit :=
  ci <~ hlift (get (pivot_categories recipe) pivot_index) ;;
  h_append_trader traders ci v.

(** Lines 243-276, for the latest_prices [lp]; the result is the new value of latest_prices. *)
Definition h_tr_pivot (recipe : list nat) (including_gft_0 : bool) (remaining traders : h_market) (ps : list Q)
    (lp : option (list Q)) (pivot_index : nat) : prog (option (list Q)) :=
  v <~ hlift (get ps pivot_index) ;;
  match lp with
  | Some _ => _ <~ h_tr_keep recipe traders pivot_index v ;; hret lp
  | None =>
      let ci := convert_category_index recipe pivot_index in
      cats <~ hread_all remaining ;;
      best <~ hlift (best_containing_PS cats ci v) ;;
      let g := dot best recipe in
      if Qlt_bool 0 g || (including_gft_0 && Qeq_bool g 0) then
        prices <~ hlift (calculate_prices ci v best recipe) ;;
        _ <~ h_tr_keep recipe traders pivot_index v ;;
        hret (Some prices)
      else
        _ <~ h_append_trader remaining ci v ;;
        hret lp
  end.

(** A loop [for x in l] with one local variable. *)
Fixpoint hfold {A S} (f : S -> A -> prog S) (l : list A) (s : S) : prog S :=
  match l with
  | [] => hret s
  | x :: l' => s' <~ f s x ;; hfold f l' s'
  end.

(** Lines 239-282: one procurement set. *)
Definition h_tr_ps (recipe : list nat) (including_gft_0 : bool) (remaining traders : h_market) (lp : option (list Q)) (ps : list Q)
  : prog (option (list Q)) :=
  hfold (h_tr_pivot recipe including_gft_0 remaining traders ps) (pivot_indexes recipe) lp.

(** Lines 34-286. *)
Definition h_trade_reduction (M : Q) (iterations : nat) (m : h_market) (recipe : list nat) (including_gft_0 : bool)
  : prog (trade * list ref) :=
  if (length recipe =? length m)%nat then
    ot <~ h_optimal_trade iterations m recipe true ;;
    let (deals, remaining) := ot in
    match deals with
    | [] =>
        traders <~ h_empty_agent_categories m ;;
        cats <~ hread_all traders ;;
        t <~ hlift (new_trade cats recipe (Some (repeat 0 (length recipe)))) ;;
        hret (t, traders)
    | _ =>
        rcats <~ hread_all remaining ;;
        h <~ hlift (get_highest_agents rcats recipe) ;;
        list_ps <~ (match h with
                    | Some (x :: l) => _ <~ h_market_remove_highest remaining recipe ;; hret ((x :: l) :: deals)
                    | _ => hret deals
                    end) ;;
        _ <~ h_add_dummies M remaining ;;
        traders <~ h_empty_agent_categories m ;;
        lp <~ hfold (h_tr_ps recipe including_gft_0 remaining traders) list_ps None ;;
        cats <~ hread_all traders ;;
        t <~ hlift (new_trade cats recipe lp) ;;
        hret (t, traders)
    end
  else hlift (Raise ValueError).

(** ** mcafee_protocol.py *)

(** Lines 158-161, inner loop. *)
Fixpoint h_mcafee_add_ps (i : nat) (n : nat) (ps : list Q) (traders : list ref) : prog unit :=
  match n with
  | O => hret tt
  | S n' =>
      v <~ hlift (get ps i) ;;
      _ <~ h_append_trader traders i v ;;
      h_mcafee_add_ps (S i) n' ps traders
  end.

(** Lines 44-185. *)
Definition h_mcafee (M : Q) (iterations : nat) (m : h_market) (recipe : list nat) (heuristic : bool) : prog (trade * list ref) :=
  if negb (length recipe =? length m)%nat then hlift (Raise ValueError)
  else if negb (forallb (fun r => r =? 1)%nat recipe) then hlift (Raise ValueError)
  else
    ot <~ h_optimal_trade iterations m recipe true ;;
    let (deals, remaining) := ot in
    _ <~ h_add_dummies M remaining ;;
    rcats <~ hread_all remaining ;;
    h <~ hlift (get_highest_agents rcats recipe) ;;
    cand <~ hlift (if heuristic then
                     match h with
                     | None => Raise TypeError
                     | Some ps => c <- price_candidate ps ;; Ok (Some c)
                     end
                   else Ok None) ;;
    traders <~ h_empty_agent_categories m ;;
    match deals with
    | [] =>
        cats <~ hread_all traders ;;
        t <~ hlift (new_trade cats recipe (Some (repeat 0 (length m)))) ;;
        hret (t, traders)
    | last_positive :: others =>
        let accepted := match cand with
                        | Some c => is_price_good_for_ps c last_positive
                        | None => false
                        end in
        prices <~ hlift (if accepted then
                     match cand with
                     | Some c => Ok (map (fun x => if Qlt_bool x 0 then c * (-1) else c * 1)
                                         (firstn (length m) last_positive))
                     | None => Raise TypeError
                     end
                   else Ok last_positive) ;;
        _ <~ hfor (fun ps => h_mcafee_add_ps 0 (length m) ps traders) (if accepted then deals else others) ;;
        cats <~ hread_all traders ;;
        t <~ hlift (new_trade cats recipe (Some prices)) ;;
        hret (t, traders)
    end.

(** ** ascending_auction_recipetree_protocol.py and ascending_auction_recipetree_integer_protocol.py *)

(** Lines 185-191 (integer: 189-195). *)
Fixpoint h_remove_beaten (m : h_market) (prices : list Q) : prog unit :=
  match m with
  | [] => hret tt
  | r :: m' =>
      match prices with
      | [] => hlift (Raise IndexError)
      | p :: prices' =>
          c <~ hread r ;;
          _ <~ (if (0 <? csize c)%nat then
                  low <~ hlift (lowest_agent_value c) ;;
                  if Qle_bool low p then h_remove_lowest_agent r else hret tt
                else hret tt) ;;
          h_remove_beaten m' prices'
      end
  end.

(** Lines 158-191: one round. *)
Definition h_tree_round (M : Q) (t : rtree) (m : h_market) (sp : sim_prices) : prog (bool * sim_prices) :=
  cats <~ hread_all m ;;
  match largest_categories cats t with
  | (_, combined_category_size, indices) =>
      if (combined_category_size =? 0)%nat then hret (true, sp)
      else
        increases <~ hlift (planned_increases M cats indices) ;;
        sp' <~ hlift (increase_prices sp increases 0) ;;
        match sp_status sp' with
        | Some STOPPED_AT_ZERO_SUM => hret (true, sp')
        | _ => _ <~ h_remove_beaten m (map_category_index_to_price sp') ;; hret (false, sp')
        end
  end.

Fixpoint h_tree_loop (M : Q) (fuel : nat) (t : rtree) (m : h_market) (sp : sim_prices) : prog sim_prices :=
  match fuel with
  | O => hlift Timeout
  | S fuel' =>
      r <~ h_tree_round M t m sp ;;
      if fst r then hret (snd r) else h_tree_loop M fuel' t m (snd r)
  end.

(** Lines 73-191. *)
Definition h_tree_auction (M : Q) (p0 : list Q) (fuel : nat) (m : h_market) (struct : pystruct) : prog (tree_trade * list ref) :=
  remaining <~ h_clone_market m ;;
  cats <~ hread_all remaining ;;
  t <~ hlift (new_tree cats struct) ;;
  rs <~ hlift (recipes (length cats) t) ;;
  _ <~ hlift (tree_optimal_trade cats t) ;;
  sp <~ hlift (new_sim_prices rs p0) ;;
  sp' <~ h_tree_loop M fuel t remaining sp ;;
  cats' <~ hread_all remaining ;;
  r <~ hlift (new_tree_trade cats' t (map_category_index_to_price sp')) ;;
  hret (r, remaining).

(** Integer version, lines 161-195: one round. *)
Definition h_int_round (M : Q) (counts : list nat) (t : rtree) (m : h_market) (sp : int_sim_prices) : prog (bool * int_sim_prices) :=
  cats <~ hread_all m ;;
  l <~ hlift (int_largest_categories cats counts t) ;;
  let combined_category_size := snd (fst l) in
  let indices := snd l in
  if Qeq_bool combined_category_size 0 then hret (true, sp)
  else
    increases <~ hlift (planned_increases M cats indices) ;;
    sp' <~ hlift (int_increase_prices sp increases 0) ;;
    match isp_status sp' with
    | Some STOPPED_AT_ZERO_SUM => hret (true, sp')
    | _ => _ <~ h_remove_beaten m (iv_prices (isp_vector sp')) ;; hret (false, sp')
    end.

Fixpoint h_int_loop (M : Q) (counts : list nat) (fuel : nat) (t : rtree) (m : h_market) (sp : int_sim_prices) : prog int_sim_prices :=
  match fuel with
  | O => hlift Timeout
  | S fuel' =>
      r <~ h_int_round M counts t m sp ;;
      if fst r then hret (snd r) else h_int_loop M counts fuel' t m (snd r)
  end.

(** Integer version, recipetree_integer.py:363-365: the values of every category of the tree are sorted in place when the combined
    values are computed (by the optimal trade of line 154 and by the trade's constructor). *)
Definition h_sort_values (r : ref) : prog unit := c <~ hread r ;; hwrite r (mkCat (cname c) (sort_desc (cvalues c))).
Fixpoint preorder (t : rtree) : list nat := match t with Node i ch => i :: concat (map preorder ch) end.
Definition h_sort_tree (m : h_market) (t : rtree) : prog unit :=
  hfor (fun i => r <~ hlift (get m i) ;; h_sort_values r) (preorder t).

(** Integer version, lines 75-195. *)
Definition h_int_auction (M : Q) (fuel : nat) (m : h_market) (struct : pystruct) (counts : list nat) : prog (tree_trade * list ref) :=
  remaining <~ h_clone_market m ;;
  cats <~ hread_all remaining ;;
  t <~ hlift (new_int_tree cats counts struct) ;;
  rs <~ hlift (int_recipes (length cats) counts t) ;;
  _ <~ h_sort_tree remaining t ;;
  sp <~ hlift (new_int_sim_prices rs (- M) []) ;;
  sp' <~ h_int_loop M counts fuel t remaining sp ;;
  _ <~ h_sort_tree remaining t ;;
  cats' <~ hread_all remaining ;;
  r <~ hlift (new_int_trade cats' counts t (iv_prices (isp_vector sp'))) ;;
  hret (r, remaining).
