(** * Specification notions for the stock prices (C85) *)

From Coq Require Import List Arith ZArith QArith.
From Verif Require Import Base Model_StockData.
Import ListNotations.
Open Scope Q_scope.

(** The columns of a file have equal lengths [n]. *)
Definition days (n : nat) (f : stock_file) : Prop :=
  length (high f) = n /\ length (close f) = n /\ length (open_ f) = n /\ length (low f) = n.

(** The recipes that the code treats specially. *)
Definition special_recipe (recipe : list nat) : Prop :=
  recipe = [1; 1]%nat \/ recipe = [2; 1]%nat \/ recipe = [1; 2]%nat \/ recipe = [2; 1; 1]%nat
  \/ exists a, recipe = [a; a; a].

(** The number of deals for which there are agents, in a file of [n] days. *)
Definition deals_possible (n : nat) (recipe : list nat) (d : nat) : Prop :=
  (recipe = [1; 1]%nat /\ d = (2 * n)%nat)
  \/ ((recipe = [2; 1]%nat \/ recipe = [1; 2]%nat \/ recipe = [2; 1; 1]%nat) /\ d = n)
  \/ (exists a, recipe = [a; a; a] /\ (a * d <= n < a * (d + 1))%nat)
  \/ (~ special_recipe recipe /\ d = (2 * n)%nat).

(** [z] is [q] without the digits after the decimal point. *)
Definition truncation (q : Q) (z : Z) : Prop :=
  (0 <= q -> (0 <= z)%Z /\ inject_Z z <= q < inject_Z z + 1)
  /\ (q <= 0 -> (z <= 0)%Z /\ inject_Z z - 1 < q <= inject_Z z).

(** The value of a procurement-set whose agents of category [j] all have the value [values j]. *)
Fixpoint set_value (recipe : list nat) (values : list Z) : Z :=
  match recipe, values with
  | r :: recipe', v :: values' => (Z.of_nat r * v + set_value recipe' values')%Z
  | _, _ => 0%Z
  end.

(** All prices of the file are the same. *)
Definition constant_price (p : Q) (f : stock_file) : Prop :=
  Forall (fun x => x == p) (high f ++ close f ++ open_ f ++ low f).

(** The numbers [zs] are the thousandths of [xs], without the digits after the point. *)
Definition in_thousandths (xs : list Q) (zs : list Z) : Prop := Forall2 (fun x z => truncation (1000 * x) z) xs zs.

(** The positions, among [L] sellers, of the sellers dealt to the seller-category [j] of [K]: every [K]-th, in a circle. *)
Definition source (L K j : nat) : list nat := map (fun q => ((q * K + j) mod L)%nat) (seq 0 L).

(** One value from every category. *)
Definition one_each (cats : list (list Z)) (vs : list Z) : Prop := Forall2 (fun cat v => In v cat) cats vs.

(** The thousandths of one price (the truncated number is unique). *)
Definition thousandth (x : Q) (z : Z) : Prop := truncation (1000 * x) z.
