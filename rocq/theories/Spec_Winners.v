(** * Specification for the privacy of the agents who trade (C115) *)

From Coq Require Import String List Arith QArith Permutation.
From Verif Require Import Base Model_Agents Model_Market.
Import ListNotations.
Open Scope Q_scope.

(** The same values, in any order. *)
Definition same_values (l l' : list Q) : Prop := exists l0, Permutation l l0 /\ Forall2 Qeq l0 l'.

(** A category [c] in which the agents of [left] are left at the end, and the same category [c'] where these agents have the values [new]
    instead; the new values suit the predicate [good] (at least the price, or more than the price). *)
Definition category_changes_left (good : Q -> Prop) (c left : category) (new : list Q) (c' : category) : Prop :=
  cname c' = cname c /\ length new = csize left /\ Forall good new
  /\ exists others, same_values (cvalues c) (cvalues left ++ others) /\ same_values (cvalues c') (new ++ others).

(** Two markets that differ only in the values of the agents who are left at the end; all of them have new values that are at least the price
    of their category. *)
Definition changes_left (prices : list Q) (m left : market) (new : nat -> list Q) (m' : market) : Prop :=
  length m' = length m
  /\ forall j, (j < length m)%nat ->
       category_changes_left (fun v => nth j prices 0 <= v) (nth j m (mkCat "" [])) (nth j left (mkCat "" [])) (new j) (nth j m' (mkCat "" [])).

(** A market with one category of buyers, whose values are not negative, and one of sellers, whose values are negative. *)
Definition buyers_and_sellers (m : market) : Prop :=
  exists b s, (m = [b; s] \/ m = [s; b]) /\ (forall v, In v (cvalues b) -> 0 <= v) /\ (forall v, In v (cvalues s) -> v < 0).
