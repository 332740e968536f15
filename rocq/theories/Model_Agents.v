(** * Model of agents.py *)

From Coq Require Import String List Arith QArith.
From Verif Require Import Base.
Import ListNotations.
Open Scope Q_scope.

(** agents.py:14 [MAX_VALUE=100000000] (the same constant is repeated in
    mcafee_protocol.py:21 and trade_reduction_protocol.py:22). *)
Definition MAX_VALUE : Q := 100000000 # 1.

(** agents.py:16-43: an [AgentCategory] object: a name and the list [values]. *)
Record category : Type := mkCat { cname : string; cvalues : list Q }.

(** agents.py:40-43 [__init__]: copies the values and sorts them in descending order. *)
Definition new_category (name : string) (values : list Q) : category :=
  mkCat name (sort_desc values).

(** agents.py:45-49 [size], [__len__]. *)
Definition csize (c : category) : nat := length (cvalues c).

(** agents.py:57-67 [append] with a single number. *)
Definition append (c : category) (v : Q) : category :=
  mkCat (cname c) (sort_desc (cvalues c ++ [v])).

(** agents.py:57-67 [append] with a list of numbers. *)
Definition append_list (c : category) (l : list Q) : category :=
  mkCat (cname c) (sort_desc (cvalues c ++ l)).

(** agents.py:70-74 [highest_agent_value]: [values[0]]. *)
Definition highest_agent_value (c : category) : result Q :=
  match cvalues c with [] => Raise IndexError | v :: _ => Ok v end.

(** agents.py:76-80 [highest_agent_values]: [values[0:count]]. *)
Definition highest_agent_values (c : category) (count : nat) : list Q :=
  firstn count (cvalues c).

(** agents.py:82-86 [lowest_agent_value]: [values[-1]]. *)
Definition lowest_agent_value (c : category) : result Q :=
  match cvalues c with [] => Raise IndexError | v :: l => Ok (last (v :: l) 0) end.

(** agents.py:88-93 [remove_highest_agent]: [values.pop(0)]. *)
Definition remove_highest_agent (c : category) : result category :=
  match cvalues c with [] => Raise IndexError | _ :: l => Ok (mkCat (cname c) l) end.

(** agents.py:95-101 [remove_highest_agents]: [count] times [values.pop(0)]. *)
Fixpoint remove_highest_agents (c : category) (count : nat) : result category :=
  match count with
  | O => Ok c
  | S n => c' <- remove_highest_agent c ;; remove_highest_agents c' n
  end.

(** agents.py:103-108 [remove_lowest_agent]: [values.pop(-1)]. *)
Definition remove_lowest_agent (c : category) : result category :=
  match cvalues c with [] => Raise IndexError | l => Ok (mkCat (cname c) (removelast l)) end.

(** agents.py:110-111 [clone]: a new category with the same name and values. *)
Definition clone (c : category) : category := new_category (cname c) (cvalues c).
