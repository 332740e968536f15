(** * Model of old/ascending_auction_multirecipe_protocol.py (with the current prices.py, which it imports) *)

From Coq Require Import List Arith ZArith QArith Qround.
From Verif Require Import Base Model_Agents Model_Trade Model_Prices Model_Market Model_RecipeTree Model_TreeAuction Model_Ascending.
Import ListNotations.
Open Scope Q_scope.

(** old/ascending_auction_multirecipe_protocol.py:275: the indices of the recipes that contain a category. *)
Definition containing (ps_recipes : list (list nat)) (category_index : nat) : list nat :=
  filter (fun recipe_index => 0 <? nth category_index (nth recipe_index ps_recipes []) 0)%nat (seq 0 (length ps_recipes)).

(** Line 279: [len(containing_recipe_indices) == 1], and it is the given recipe. *)
Definition only_in (ps_recipes : list (list nat)) (recipe_index category_index : nat) : bool :=
  match containing ps_recipes category_index with [r] => (r =? recipe_index)%nat | _ => false end.

(** Lines 279-282: the category is contained in all recipes, and in more than one. *)
Definition in_all (ps_recipes : list (list nat)) (category_index : nat) : bool :=
  let k := length (containing ps_recipes category_index) in
  negb (k =? 0)%nat && negb (k =? 1)%nat && (k =? length ps_recipes)%nat.

(** Lines 244-285 [_analyze_recipes]: the common categories, and the unique categories of each recipe, as lists in increasing
    order (Python's are sets).  The first component of the Python result, used for printing only, is [containing]. *)
Definition analyze_recipes (num_categories : nat) (ps_recipes : list (list nat)) : result (list nat * list (list nat)) :=
  if forallb (fun c => (length (containing ps_recipes c) <=? 1)%nat || in_all ps_recipes c) (seq 0 num_categories)
  then Ok (filter (in_all ps_recipes) (seq 0 num_categories),
           map (fun r => filter (only_in ps_recipes r) (seq 0 num_categories)) (seq 0 (length ps_recipes)))
  else Raise ValueError.

(** Lines 36-62: a [TradeWithMultipleRecipes] object. *)
Record multi_trade : Type := mkMT {
  mt_cats : list category;
  mt_recipes : list (list nat);
  mt_prices : list Q;
  mt_deals : nat
}.

(** Python's [min] of the sizes of the given categories. *)
Definition min_size (cats : list category) (indices : list nat) : result nat :=
  sizes <- map_result (fun i => c <- get cats i ;; Ok (csize c)) indices ;;
  match min_list sizes with None => Raise ValueError | Some n => Ok n end.

(** Lines 41-62 [__init__]; [M] is MAX_VALUE. *)
Definition new_multi_trade (M : Q) (cats : list category) (ps_recipes : list (list nat)) (prices : list Q)
  : result multi_trade :=
  a <- analyze_recipes (length cats) ps_recipes ;;
  supported_by_unique <- map_result (min_size cats) (snd a) ;;
  let total := nsum supported_by_unique in
  match fst a with
  | [] => Ok (mkMT cats ps_recipes prices (if Qlt_bool M (Qn total) then Z.to_nat (Qfloor M) else total))
  | common => n <- min_size cats common ;; Ok (mkMT cats ps_recipes prices (Nat.min total n))
  end.

(** Lines 67-78 [gain_from_trade]: only the trade without deals has one. *)
Definition multi_gain_implemented (t : multi_trade) : bool := (mt_deals t =? 0)%nat.

(** Lines 172-173 [fractional_potential_ps]: the size of a category. *)
Definition size_key (cats : list category) (i : nat) : Q := Qn (nth i (map csize cats) 0%nat).

(** Lines 210-224: the loop over the recipes.  [inl]: the planned increases; [inr r]: recipe [r] has only empty categories. *)
Fixpoint plan_unique (cats : list category) (recipe_index : nat) (mains : list nat) : result (list (nat * Q) + nat) :=
  match mains with
  | [] => Ok (inl [])
  | i :: mains' =>
      c <- get cats i ;;
      if (csize c =? 0)%nat then Ok (inr recipe_index)
      else
        low <- lowest_agent_value c ;;
        rest <- plan_unique cats (S recipe_index) mains' ;;
        Ok (match rest with inl l => inl ((i, low) :: l) | inr r => inr r end)
  end.

(** What a round of the loop does: go on, leave out a recipe and start again, or end the auction. *)
Inductive multi_step : Type :=
| Continue (s : tree_state)
| Drop (recipe_index : nat)
| Finish (s : tree_state).

(** Lines 175-241: one round of the [while True] loop.  [iter] is the order in which Python iterates over a set of ints, given
    as the increasing list of its elements. *)
Definition multi_round (iter : list nat -> list nat) (common : list nat) (uniques : list (list nat)) (s : tree_state)
  : result multi_step :=
  let (cats, sp) := s in
  largest_common <- match common with
                    | [] => Ok None
                    | _ => i <- argmax (size_key cats) (iter common) ;; c <- get cats i ;; Ok (Some (i, c))
                    end ;;
  let largest_common_size := match largest_common with None => 0%nat | Some (_, c) => csize c end in
  mains <- map_result (fun u => argmax (size_key cats) (iter u)) uniques ;;
  match mains with
  | [] => Raise ValueError
  | _ =>
    sizes <- map_result (fun i => c <- get cats i ;; Ok (csize c)) mains ;;
    let unique_categories_size := nsum sizes in
    if (unique_categories_size =? 0)%nat then Ok (Finish s)
    else
      plan <- (if (unique_categories_size <=? largest_common_size)%nat then
                 match largest_common with
                 | None => Raise TypeError  (* [categories[None]]; not reached, the size would be 0 *)
                 | Some (i, c) => low <- lowest_agent_value c ;; Ok (inl (repeat (i, low) (length (sp_recipes sp))))
                 end
               else plan_unique cats 0 mains) ;;
      match plan with
      | inr r => Ok (Drop r)
      | inl increases =>
          sp' <- increase_prices sp increases 0 ;;
          match sp_status sp' with
          | Some STOPPED_AT_ZERO_SUM => Ok (Finish (cats, sp'))
          | _ => cats' <- remove_beaten cats (map_category_index_to_price sp') ;; Ok (Continue (cats', sp'))
          end
      end
  end.

(** Lines 175-241: the loop, with fuel. *)
Fixpoint multi_loop (fuel : nat) (iter : list nat -> list nat) (common : list nat) (uniques : list (list nat)) (s : tree_state)
  : result multi_step :=
  match fuel with
  | O => Timeout
  | S fuel' =>
      r <- multi_round iter common uniques s ;;
      match r with
      | Continue s' => multi_loop fuel' iter common uniques s'
      | _ => Ok r
      end
  end.

(** [del l[i]]. *)
Fixpoint del_nth {A} (i : nat) (l : list A) : list A :=
  match l, i with
  | [], _ => []
  | _ :: l', O => l'
  | a :: l', S i' => a :: del_nth i' l'
  end.

(** Lines 140-153: the checks of the recipes. *)
Definition recipes_checked (num_categories : nat) (ps_recipes : list (list nat)) : bool :=
  negb (length ps_recipes =? 0)%nat
  && forallb (fun r => (length r =? num_categories)%nat && forallb (fun x => (x =? 0) || (x =? 1))%nat r) ps_recipes.

(** Lines 97-241 [budget_balanced_ascending_auction].  [lp] stands for [calculate_initial_prices] (scipy's linear programming),
    [M] for MAX_VALUE.  The result is paired with the caller's list [ps_recipes] after the call: line 217 deletes from it.
    [depth] bounds the recursion of line 219 (the number of recipes is enough, since each call has one recipe less). *)
Fixpoint multi_auction (depth : nat) (M : Q) (lp : list (list nat) -> result (list Q)) (iter : list nat -> list nat)
    (fuel : nat) (m : market) (ps_recipes : list (list nat)) : result multi_trade * list (list nat) :=
  match depth with
  | O => (Timeout, ps_recipes)
  | S depth' =>
      if recipes_checked (length m) ps_recipes then
        match (a <- analyze_recipes (length m) ps_recipes ;;
               p0 <- lp ps_recipes ;;
               sp <- new_sim_prices ps_recipes p0 ;;
               multi_loop fuel iter (fst a) (snd a) (clone_market m, sp)) with
        | Ok (Finish s) => (new_multi_trade M (fst s) ps_recipes (map_category_index_to_price (snd s)), ps_recipes)
        | Ok (Drop r) =>
            let rest := del_nth r ps_recipes in
            match rest with
            | [] => (Raise TypeError, rest) (* lines 221-224; not reached, see C73 *)
            | _ => multi_auction depth' M lp iter fuel m rest
            end
        | Ok (Continue _) => (Timeout, ps_recipes) (* not a result of the loop *)
        | Raise e => (Raise e, ps_recipes)
        | Timeout => (Timeout, ps_recipes)
        end
      else (Raise ValueError, ps_recipes)
  end.
