(** * Specification notions for the old multi-buyer auction (C75) *)

From Coq Require Import List Arith QArith.
From Verif Require Import Base Model_Agents Model_Market Model_Multibuyer.
Import ListNotations.

(** The units that the buyers want at first: [counts] has one number for each category but the last, the sellers. *)
Definition demand (m : market) (counts : list nat) : nat :=
  nsum (map (fun i => nth i (map csize m) 0 * nth i counts 0)%nat (seq 0 (length m - 1))).

(** The buyer of a recipe: a category other than the last one, which it contains. *)
Definition has_buyer (n : nat) (r : list nat) (i : nat) : Prop := (i < n - 1)%nat /\ (0 < nth i r 0)%nat.

(** A recipe of the documented kind: [n] entries, and at most one buyer, who has the entry 1. *)
Definition multibuyer_recipe (n : nat) (r : list nat) : Prop :=
  length r = n
  /\ (forall i, has_buyer n r i -> nth i r 0%nat = 1%nat)
  /\ (forall i j, has_buyer n r i -> has_buyer n r j -> i = j).

(** No two recipes have the same buyer. *)
Definition distinct_buyers (n : nat) (rs : list (list nat)) : Prop :=
  forall i j k, (j < length rs)%nat -> (k < length rs)%nat -> has_buyer n (nth j rs []) i -> has_buyer n (nth k rs []) i -> j = k.

(** The prices of a trade come from a buyers' and a sellers' price per unit with sum at most 0. *)
Definition trade_prices (counts : list nat) (t : mb_trade) : Prop :=
  exists b s, mb_prices t = (map (fun k => b * Qn k)%Q counts ++ [s])%list /\ (b + s <= 0)%Q.
