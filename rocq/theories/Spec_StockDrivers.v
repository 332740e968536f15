(** * Specification: the stock files and what the programs may do with them (C102) *)

From Coq Require Import String List Arith NArith ZArith QArith Permutation.
From Verif Require Import Base Model_Agents Model_StockData Model_CompareStock Spec_StockData Spec_CompareStock.
Import ListNotations.
Open Scope Q_scope.

(** A file of less than a million days, with prices from 0 to [P]. *)
Definition file_ok (P : Q) (f : stock_file) : Prop :=
  exists n, days n f /\ (N.of_nat n < 1000000)%N /\ Forall (fun x => 0 <= x <= P) (high f ++ close f ++ open_ f ++ low f).

(** [stock] are the lists of values that getPrices makes of the file, see C85 for what they are. *)
Definition prices_of (recipe : list nat) (f : stock_file) (stock : list (list Q)) : Prop :=
  exists cats, get_prices f recipe = Ok cats /\ stock = map (map inject_Z) cats.

(** [l] are the thousandths of all prices of the file, without the digits after the point, in some order. *)
Definition shuffled_prices_of (f : stock_file) (l : list Q) : Prop :=
  exists zs, in_thousandths (high f ++ close f ++ open_ f ++ low f) zs /\ Permutation l (map inject_Z zs).

(** What is kept for a name has the prices of the file of that name. *)
Definition cache_ok (cache : list (string * list Z)) (files : list (string * stock_file)) : Prop :=
  forall name f l, In (name, f) files -> lookup name cache = Some l -> shuffled_prices_of f (map inject_Z l).
