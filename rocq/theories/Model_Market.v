(** * Model of markets.py *)

From Coq Require Import List Arith NArith QArith.
From Verif Require Import Base Model_Agents Model_Trade Model_Prices.
Import ListNotations.
Open Scope Q_scope.

(** markets.py:17-35: a [Market] object is its list of categories
    ([num_categories] is its length; [size_of_smallest_category] is never read). *)
Definition market : Type := list category.

(** markets.py:27-35 [Market.__init__]: [min] of an empty list raises ValueError. *)
Definition new_market (cats : list category) : result market :=
  match cats with [] => Raise ValueError | _ => Ok cats end.

(** markets.py:38-44 [append_trader]. *)
Definition append_trader (m : market) (i : nat) (v : Q) : result market :=
  c <- get m i ;; Ok (set_nth i (append c v) m).

(** markets.py:53-54: the loop [for i in range(len(ps)): self.append_trader(i, ps[i])]. *)
Fixpoint append_all (m : market) (i : nat) (ps : list Q) : result market :=
  match ps with
  | [] => Ok m
  | v :: ps' => m' <- append_trader m i v ;; append_all m' (S i) ps'
  end.

(** markets.py:46-54 [append_PS]. *)
Definition append_PS (m : market) (ps : list Q) : result market :=
  if (length ps =? length m)%nat then append_all m 0 ps else Raise ValueError.

(** markets.py:56-57 [has_empty_category]. *)
Definition has_empty_category (m : market) : bool := existsb (fun c => csize c =? 0)%nat m.

(** markets.py:59-85 [get_highest_agents]: [Ok None] is Python's [None];
    a recipe shorter than the market raises IndexError when reached. *)
Fixpoint get_highest_agents (m : market) (recipe : list nat) : result (option (list Q)) :=
  match m with
  | [] => Ok (Some [])
  | c :: m' =>
      match recipe with
      | [] => Raise IndexError
      | r :: recipe' =>
          if (csize c <? r)%nat then Ok None
          else
            rest <- get_highest_agents m' recipe' ;;
            Ok (match rest with
                | None => None
                | Some ps => Some (highest_agent_values c r ++ ps)
                end)
      end
  end.

(** markets.py:87-95 [remove_highest_agents]. *)
Fixpoint market_remove_highest (m : market) (recipe : list nat) : result market :=
  match m with
  | [] => Ok []
  | c :: m' =>
      match recipe with
      | [] => Raise IndexError
      | r :: recipe' =>
          c' <- remove_highest_agents c r ;;
          rest <- market_remove_highest m' recipe' ;;
          Ok (c' :: rest)
      end
  end.

(** markets.py:106-114 [empty_agent_categories]. *)
Definition empty_agent_categories (m : market) : list category :=
  map (fun c => new_category (cname c) []) m.

(** markets.py:227-228 [clone]. *)
Definition clone_market (m : market) : market := map clone m.

(** markets.py:116 default value of [max_iterations]. *)
Definition default_max_iterations : nat := N.to_nat 2000000.

(** markets.py:165-174: the [for iteration in range(max_iterations)] loop. *)
Fixpoint optimal_loop (iterations : nat) (m : market) (recipe : list nat) (include_zero : bool)
    (acc : material_trade) : result (material_trade * market) :=
  match iterations with
  | O => Ok (acc, m)
  | S it =>
      h <- get_highest_agents m recipe ;;
      match h with
      | None => Ok (acc, m)
      | Some ps =>
          let gft := Qsum ps in
          if Qlt_bool gft 0 || (Qeq_bool gft 0 && negb include_zero) then Ok (acc, m)
          else
            m' <- market_remove_highest m recipe ;;
            optimal_loop it m' recipe include_zero (acc ++ [ps])
      end
  end.

(** markets.py:116-176 [optimal_trade]. *)
Definition optimal_trade (max_iterations : nat) (m : market) (recipe : list nat) (include_zero : bool)
  : result (material_trade * market) :=
  if (length recipe =? length m)%nat then
    r <- optimal_loop max_iterations (clone_market m) recipe include_zero [] ;;
    Ok (sort_by Qsum (fst r), snd r)
  else Raise ValueError.

(** markets.py:194-199: the loop filling [best_PS], from category number [i] on. *)
Fixpoint best_containing_from (i : nat) (m : market) (category_index : nat) (value : Q)
  : result (list Q) :=
  match m with
  | [] => Ok []
  | c :: m' =>
      v <- (if (i =? category_index)%nat then Ok value else highest_agent_value c) ;;
      rest <- best_containing_from (S i) m' category_index value ;;
      Ok (v :: rest)
  end.

(** markets.py:179-200 [best_containing_PS]. *)
Definition best_containing_PS (m : market) (category_index : nat) (value : Q) : result (list Q) :=
  best_containing_from 0 m category_index value.

(** markets.py:203-220 [calculate_prices_by_external_competition]: the pivot category's price
    balances the others (division by the pivot's recipe count), the others keep the best value.
    [sum([best[i]*recipe[i] for i in range(len(best))])] is [dot best recipe] (equal lengths in all callers). *)
Definition calculate_prices (pivot_index : nat) (pivot_value : Q) (best : list Q)
    (recipe : list nat) : result (list Q) :=
  r <- get recipe pivot_index ;;
  if (r =? 0)%nat then Raise ZeroDivisionError
  else Ok (set_nth pivot_index ((pivot_value * Qn r - dot best recipe) / Qn r) best).
