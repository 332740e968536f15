(** * Specification: the flag including_gft_0 and the search programs of stock/ (C97, C98) *)

From Coq Require Import String List Arith QArith.
From Verif Require Import Base Model_Agents Model_Trade Model_TradeReduction Spec_Market.
Import ListNotations.
Open Scope list_scope.
Open Scope Q_scope.

(** Category by category, the same names, and every trader of the first list is (with multiplicity) in the second one. *)
Definition cats_sub (l l' : list category) : Prop :=
  Forall2 (fun c c' => cname c = cname c' /\ sub_bag (cvalues c) (cvalues c')) l l'.

(** No value below the constant that the protocols take for minus infinity. *)
Definition floor_ok (bs : list Q * list Q) : Prop := Forall (fun v => - MAX_VALUE <= v) (fst bs ++ snd bs).

(** What one round of the gft0 search prints for the lists of buyers and sellers [bs]: the numbers of deals without and with the flag,
    and the gains without and with it. *)
Definition round_report (recipe : list nat) (bs : list Q * list Q) (row : nat * nat * Q * Q) : Prop :=
  exists t t',
    trade_reduction [new_category "buyer" (fst bs); new_category "seller" (snd bs)] recipe false = Ok t
    /\ trade_reduction [new_category "buyer" (fst bs); new_category "seller" (snd bs)] recipe true = Ok t'
    /\ fst (fst (fst row)) = num_of_deals t /\ snd (fst (fst row)) = num_of_deals t'
    /\ gain_from_trade t true = Ok (snd (fst row)) /\ gain_from_trade t' true = Ok (snd row).

(** What the search looks for: both the numbers of deals and the gains differ. *)
Definition differs (row : nat * nat * Q * Q) : Prop :=
  fst (fst (fst row)) <> snd (fst (fst row)) /\ ~ snd (fst row) == snd row.

(** The draws of the program: ten buyers in [2, 20] and twenty sellers in [-10, -1], all integers
    (stock/trade_reduction_demo_difference_gft0_simple.py:45-46). *)
Definition program_draw (bs : list Q * list Q) : Prop :=
  length (fst bs) = 10%nat /\ length (snd bs) = 20%nat
  /\ (forall v, In v (fst bs) -> exists z : Z, v = inject_Z z /\ (2 <= z <= 20)%Z)
  /\ (forall v, In v (snd bs) -> exists z : Z, v = inject_Z z /\ (-10 <= z <= -1)%Z).
