(** * Specification notions for the texts of trades (C89) *)

From Coq Require Import String Ascii List Arith QArith.
From Verif Require Import Base Model_Agents Model_RecipeTree Model_IntTree Model_Report Spec_RecipeTree Spec_Int.
Import ListNotations.
Open Scope string_scope.

(** The rendering of a number is not empty and does not end with white space. *)
Definition renders (show : Q -> string) : Prop :=
  forall q, exists s c, show q = s ++ String c "" /\ is_space c = false.

(** The lines of a text. *)
Definition text_of (lines : list string) : string := String.concat nl lines.

(** ** A single price per category *)

(** The line of a category of which [needed] agents trade, at price [p]. *)
Inductive category_line (show : Q -> string) (c : category) (needed : nat) (p : Q) : string -> Prop :=
| line_all : length (cvalues c) = needed ->
    category_line show c needed p
      (category_text show c ++ ": all " ++ decimal needed ++ " agents trade and pay " ++ show p)
| line_random : (needed < length (cvalues c))%nat ->
    category_line show c needed p
      (category_text show c ++ ": random " ++ decimal needed ++ " out of " ++ decimal (length (cvalues c))
       ++ " agents trade and pay " ++ show p).

(** One line per category that the recipe uses; [d] is the number of deals. *)
Inductive trade_lines (show : Q -> string) (d : nat) : list category -> list nat -> list Q -> list string -> Prop :=
| tl_nil : trade_lines show d [] [] [] []
| tl_unused : forall c cs rs p ps ls, trade_lines show d cs rs ps ls -> trade_lines show d (c :: cs) (0%nat :: rs) (p :: ps) ls
| tl_used : forall c cs r rs p ps l ls, (0 < r)%nat -> category_line show c (r * d) p l -> trade_lines show d cs rs ps ls ->
    trade_lines show d (c :: cs) (r :: rs) (p :: ps) (l :: ls).

(** ** Recipe trees *)

(** [d] is the largest number of deals that can be done in a tree. *)
Definition most_deals (cats : list category) (t : rtree) (d : nat) : Prop :=
  (exists D, tree_feasible cats t D /\ length D = d) /\ forall D, tree_feasible cats t D -> (length D <= d)%nat.

Definition int_most_deals (cats : list category) (counts : list nat) (t : rtree) (d : nat) : Prop :=
  (exists D, int_feasible cats counts t D /\ length D = d) /\ forall D, int_feasible cats counts t D -> (length D <= d)%nat.

(** The report of a tree: the reports of the children, and two lines.  [most t d] says that [d] is the largest number of deals
    in the tree [t] alone; a deal takes [count i] agents of category [i]; [word] is what the children provide. *)
Section Report.
  Context (show : Q -> string) (word : string) (count : nat -> nat) (most : rtree -> nat -> Prop)
          (cats : list category) (prices : list Q).

  Definition size (i : nat) : nat := length (cvalues (cat_at cats i)).
  Definition name (i : nat) : string := cname (cat_at cats i).
  Definition price (i : nat) : Q := nth i prices 0.

  (** [d] of the [total] deals that the category [i] has agents for. *)
  Inductive own_line (i d : nat) : string -> Prop :=
  | own_all : d = (size i / count i)%nat ->
      own_line i d (name i ++ ": all " ++ decimal (size i) ++ " traders selected, price=" ++ show (price i))
  | own_some : (d < size i / count i)%nat ->
      own_line i d (name i ++ ": " ++ decimal (d * count i) ++ " out of " ++ decimal (size i) ++ " traders selected, price=" ++ show (price i)).

  Inductive children_line (ch : list rtree) (d total : nat) : string -> Prop :=
  | children_all : d = total ->
      children_line ch d total (String.concat " + " (map (fun c => name (tindex c)) ch) ++ ": all " ++ decimal total ++ " " ++ word ++ " selected")
  | children_some : (d < total)%nat ->
      children_line ch d total (String.concat " + " (map (fun c => name (tindex c)) ch) ++ ": " ++ decimal d ++ " out of " ++ decimal total
                                ++ " " ++ word ++ " selected").

  Inductive report : rtree -> list string -> Prop :=
  | report_leaf : forall i d, most (Node i []) d -> d = (size i / count i)%nat ->
      report (Node i []) [name i ++ ": " ++ decimal d ++ " potential deals, price=" ++ show (price i)]
  | report_node : forall i ch parts ds d own below, ch <> [] -> Forall2 report ch parts -> Forall2 most ch ds ->
      most (Node i ch) d -> own_line i d own -> children_line ch d (nsum ds) below ->
      report (Node i ch) (concat parts ++ [own; below]).
End Report.

(** ** Material trades: a deal is printed as a Python tuple, which has a trailing comma if there is a single element. *)
Inductive deal_text (show : Q -> string) : list Q -> string -> Prop :=
| deal_none : deal_text show [] "()"
| deal_one : forall v, deal_text show [v] ("(" ++ show v ++ ",)")
| deal_many : forall v w l, deal_text show (v :: w :: l) ("(" ++ String.concat ", " (map show (v :: w :: l)) ++ ")").
