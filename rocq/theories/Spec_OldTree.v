(** * Specification notions for recipetree.old.py (C94) *)

From Coq Require Import String List Arith QArith.
From Verif Require Import Base Model_Agents Model_RecipeTree Model_Report Spec_RecipeTree Spec_Report.
Import ListNotations.
Open Scope string_scope.

(** The number of traders of some categories together. *)
Definition traders (cats : list category) (is : list nat) : nat := nsum (map (fun i => length (cvalues (cat_at cats i))) is).

(** The report: as in Spec_Report.v, with the number of deals after the lines of every node. *)
Section OldReport.
  Context (show : Q -> string) (cats : list category) (prices : list Q).

  Inductive old_report : rtree -> list string -> Prop :=
  | old_leaf : forall i d, most_deals cats (Node i []) d -> d = size cats i ->
      old_report (Node i []) [name cats i ++ ": " ++ decimal d ++ " potential deals, price=" ++ show (price prices i);
                              decimal d ++ " deals overall"]
  | old_node : forall i ch parts ds d own below, ch <> [] -> Forall2 old_report ch parts -> Forall2 (most_deals cats) ch ds ->
      most_deals cats (Node i ch) d -> own_line show (fun _ => 1%nat) cats prices i d own ->
      children_line "traders" cats ch d (nsum ds) below ->
      old_report (Node i ch) (concat parts ++ [own; below; decimal d ++ " deals overall"]).
End OldReport.

(** A text whose every line ends with a line break. *)
Definition full_lines (lines : list string) : string := String.concat "" (map (fun l => l ++ nl) lines).
