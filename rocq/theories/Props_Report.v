(** * C89: the texts of trades say what the trades do *)

From Coq Require Import String Ascii List Arith Lia ZArith QArith DecimalString.
From Verif Require Import Base Model_Agents Model_Trade Model_RecipeTree Model_TreeAuction Model_IntTree Model_IntAuction Model_Report
  Spec_Market Spec_RecipeTree Spec_Int Spec_Report Proof_Report Proof_Report2.
Import ListNotations.
Open Scope string_scope.

(** C89.  TradeWithSinglePrice: "No trade" if and only if there are no deals; otherwise one line for every category that the
    recipe uses, which says how many agents trade (all, or fewer than there are) and at what price. *)
Theorem C89_single_price : forall show cats recipe prices t, renders show -> new_trade cats recipe (Some prices) = Ok t ->
  length cats = length recipe -> length prices = length recipe ->
  (num_of_deals t = 0%nat -> trade_text show t = Ok "No trade")
  /\ ((0 < num_of_deals t)%nat -> exists lines text, trade_lines show (num_of_deals t) cats recipe prices lines
        /\ trade_text show t = Ok text /\ text = text_of lines /\ text <> "No trade").
Proof. exact single_price_text. Qed.
Print Assumptions C89_single_price.

(** C89.  A trade without prices cannot be printed unless it is empty. *)
Theorem C89_no_price : forall show cats recipe t, new_trade cats recipe None = Ok t -> length cats = length recipe ->
  (num_of_deals t = 0%nat -> trade_text show t = Ok "No trade") /\ ((0 < num_of_deals t)%nat -> trade_text show t = Raise TypeError).
Proof. exact no_price_text. Qed.
Print Assumptions C89_no_price.

(** C89.  TradeWithMultipleRecipes: "No trade", or the report of the tree and the number of deals, which is the largest
    possible. *)
Theorem C89_tree : forall show cats prices t tr, renders show -> indices_in_range (length prices) t -> distinct_categories t ->
  new_tree_trade cats t prices = Ok tr ->
  (tt_deals tr = 0%nat -> tree_trade_text show tr = Ok "No trade")
  /\ ((0 < tt_deals tr)%nat -> exists ls text, report show "traders" (fun _ => 1%nat) (most_deals cats) cats prices t ls
        /\ tree_trade_text show tr = Ok text /\ text = text_of (ls ++ [decimal (tt_deals tr) ++ " deals overall"])
        /\ most_deals cats t (tt_deals tr) /\ text <> "No trade").
Proof. exact tree_text. Qed.
Print Assumptions C89_tree.

(** C89.  The same with agent counts. *)
Theorem C89_integer_tree : forall show cats counts prices t tr, renders show -> positive_counts counts t ->
  indices_in_range (length prices) t -> distinct_categories t -> new_int_trade cats counts t prices = Ok tr ->
  (tt_deals tr = 0%nat -> int_trade_text show counts tr = Ok "No trade")
  /\ ((0 < tt_deals tr)%nat -> exists ls text, report show "deals" (count_at counts) (int_most_deals cats counts) cats prices t ls
        /\ int_trade_text show counts tr = Ok text /\ text = text_of (ls ++ [decimal (tt_deals tr) ++ " deals overall"])
        /\ int_most_deals cats counts t (tt_deals tr) /\ text <> "No trade").
Proof. exact int_text. Qed.
Print Assumptions C89_integer_tree.

(** C89.  MaterialTrade: the number of deals, and every deal, in order. *)
Theorem C89_material : forall show deals, exists texts, Forall2 (deal_text show) deals texts
  /\ material_text show deals = decimal (length deals) ++ " deals: [" ++ String.concat ", " texts ++ "]".
Proof. exact material_deals_text. Qed.
Print Assumptions C89_material.

(** ** Cases *)

(** A rendering of integers. *)
Definition show_int (q : Q) : string := NilZero.string_of_int (Z.to_int (Qnum q)).

(** The doctests of trade.py. *)
Example C89_doctest1 : exists t, new_trade [new_category "buyer" [7; 4; 2]; new_category "seller" [-(1); -(3); -(5)]] [1; 1]%nat (Some [2; -(1)]) = Ok t
  /\ trade_text show_int t = Ok (text_of ["buyer: [7, 4, 2]: all 3 agents trade and pay 2"; "seller: [-1, -3, -5]: all 3 agents trade and pay -1"]).
Proof. eexists. split; vm_compute; reflexivity. Qed.
Example C89_doctest2 : exists t, new_trade [new_category "buyer" [7; 4; 3; 2]; new_category "seller" [-(1); -(3); -(5)]] [1; 1]%nat (Some [1; -(1)]) = Ok t
  /\ trade_text show_int t = Ok (text_of ["buyer: [7, 4, 3, 2]: random 3 out of 4 agents trade and pay 1"; "seller: [-1, -3, -5]: all 3 agents trade and pay -1"]).
Proof. eexists. split; vm_compute; reflexivity. Qed.
Example C89_one_agent : material_text show_int [[7]; [6]] = "2 deals: [(7,), (6,)]".
Proof. vm_compute. reflexivity. Qed.
Example C89_doctest3 : material_text show_int [[7; -(1)]; [6; -(3)]; [5; -(4)]] = "3 deals: [(7, -1), (6, -3), (5, -4)]".
Proof. vm_compute. reflexivity. Qed.

(** A doctest of recipetree.py: buyer -> seller, buyer -> producerA -> producerB. *)
Definition doc_cats : list category :=
  [new_category "buyer" [60; 40; 20; -(30)]; new_category "seller" [-(10); -(30); -(50)]; new_category "producerA" [-(1); -(3); -(5)];
   new_category "producerB" [-(2); -(4); -(6); -(8)]].
Example C89_doctest4 : exists tr, new_tree_trade doc_cats (Node 0 [Node 1 []; Node 2 [Node 3 []]]) [1; 2; 3; 4] = Ok tr
  /\ tree_trade_text show_int tr = Ok (text_of
       ["seller: 3 potential deals, price=2"; "producerB: 4 potential deals, price=4"; "producerA: all 3 traders selected, price=3";
        "producerB: 3 out of 4 traders selected"; "buyer: all 4 traders selected, price=1"; "seller + producerA: 4 out of 6 traders selected";
        "4 deals overall"]).
Proof. eexists. split; vm_compute; reflexivity. Qed.

(** A doctest of recipetree_integer.py. *)
Example C89_doctest5 : exists tr, new_int_trade doc_cats [1; 2; 1; 1]%nat (Node 0 [Node 1 []]) [1; 2; 3; 4] = Ok tr
  /\ int_trade_text show_int [1; 2; 1; 1]%nat tr = Ok (text_of
       ["seller: 1 potential deals, price=2"; "buyer: 1 out of 4 traders selected, price=1"; "seller: all 1 deals selected"; "1 deals overall"]).
Proof. eexists. split; vm_compute; reflexivity. Qed.

Lemma uint_solid : forall u, solid (NilZero.string_of_uint u).
Proof.
  assert (X : forall u, u = Decimal.Nil \/ solid (NilEmpty.string_of_uint u)).
  { induction u as [|u IH|u IH|u IH|u IH|u IH|u IH|u IH|u IH|u IH|u IH]; [left; reflexivity|..]; right; cbn [NilEmpty.string_of_uint];
      (destruct IH as [->|IH];
       [match goal with |- solid (String ?c _) => exists "", c end; split; reflexivity
       |match goal with |- solid (String ?c ?s) => change (solid (String c "" ++ s)); apply solid_app; exact IH end]). }
  intros u. destruct u; try (unfold NilZero.string_of_uint; destruct (X u) as [H|H]; [discriminate|exact H]).
  all: try (match goal with |- solid (NilZero.string_of_uint ?v) => destruct (X v) as [H|H]; [discriminate|exact H] end).
  exists "", "0"%char. split; reflexivity.
Qed.
Example C89_renders : renders show_int.
Proof.
  intros q. unfold show_int. destruct (Z.to_int (Qnum q)) as [u|u]; cbn [NilZero.string_of_int]; [apply uint_solid|].
  change (solid (String "-" "" ++ NilZero.string_of_uint u)). apply solid_app, uint_solid.
Qed.
Example C89_tree_hypotheses : indices_in_range 4 (Node 0 [Node 1 []; Node 2 [Node 3 []]]) /\ distinct_categories (Node 0 [Node 1 []; Node 2 [Node 3 []]])
  /\ positive_counts [1; 2; 1; 1]%nat (Node 0 [Node 1 []]).
Proof.
  split; [repeat constructor|]. split; [repeat constructor; cbn; intuition discriminate|].
  intros i [<-|[<-|[]]]; cbn; lia.
Qed.

(** A line about an inner category is about its own subtree: here it says that all 3 producers are selected, but in every set
    of deals at most one of them trades (there is one buyer). *)
Theorem C89_inner_line_refuted : exists cats t prices tr ls, new_tree_trade cats t prices = Ok tr
  /\ tree_trade_text show_int tr = Ok (text_of ls) /\ In "producer: all 3 traders selected, price=0" ls
  /\ cname (cat_at cats 1) = "producer" /\ forall D, tree_feasible cats t D -> (length (used_in 1 D) <= 1)%nat.
Proof.
  exists [new_category "buyer" [9]; new_category "producer" [-(1); -(2); -(3)]; new_category "supplier" [-(1); -(2); -(3)]].
  exists (Node 0 [Node 1 [Node 2 []]]), [0; 0; 0]. eexists.
  exists ["supplier: 3 potential deals, price=0"; "producer: all 3 traders selected, price=0"; "supplier: all 3 traders selected";
          "buyer: all 1 traders selected, price=0"; "producer: 1 out of 3 traders selected"; "1 deals overall"].
  split; [vm_compute; reflexivity|]. split; [vm_compute; reflexivity|]. split; [right; left; reflexivity|]. split; [reflexivity|].
  intros D [HF HB]. assert (X := HB 0%nat).
  assert (E : length (used_in 1 D) = length (used_in 0 D)).
  { clear HB X. induction HF as [|d D [HP HL] HF IH]; [reflexivity|].
    unfold used_in in *. cbn [map concat]. rewrite !app_length, IH. f_equal.
    assert (HP' : fst d = [0; 1; 2]%nat).
    { inversion HP as [|i ch c p Hc Hp]; subst. destruct Hc as [<-|[]]. inversion Hp as [|i2 ch2 c2 p2 Hc2 Hp2]; subst. destruct Hc2 as [<-|[]].
      inversion Hp2 as [|i3 ch3 c3 p3 Hc3 Hp3]; subst; [reflexivity|destruct Hc3]. }
    rewrite HP' in *. destruct (snd d) as [|x [|y [|z [|]]]]; try discriminate. reflexivity. }
  rewrite E. destruct X as [rest HX]. apply Permutation.Permutation_length in HX. rewrite app_length in HX. cbn in HX. lia.
Qed.
Print Assumptions C89_inner_line_refuted.

(** With agent counts, "all 5 traders selected" is printed although only 4 of the 5 can trade (2 per deal). *)
Theorem C89_integer_all_refuted : exists cats counts t prices tr ls, new_int_trade cats counts t prices = Ok tr
  /\ int_trade_text show_int counts tr = Ok (text_of ls) /\ In "buyer: all 5 traders selected, price=0" ls
  /\ tindex t = 0%nat /\ cname (cat_at cats 0) = "buyer" /\ forall D, int_feasible cats counts t D -> (length (int_used_in 0 D) <= 4)%nat.
Proof.
  exists [new_category "buyer" [9; 9; 9; 9; 9]; new_category "seller" [-(1); -(2); -(3)]], [2; 1]%nat, (Node 0 [Node 1 []]), [0; 0]. eexists.
  exists ["seller: 3 potential deals, price=0"; "buyer: all 5 traders selected, price=0"; "seller: 2 out of 3 deals selected"; "2 deals overall"].
  split; [vm_compute; reflexivity|]. split; [vm_compute; reflexivity|]. split; [right; left; reflexivity|]. split; [reflexivity|]. split; [reflexivity|].
  intros D [HF HB]. destruct (HB 0%nat) as [rest HX]. apply Permutation.Permutation_length in HX. rewrite app_length in HX. cbn [cat_at nth new_category cvalues] in HX.
  assert (E : exists n, length (int_used_in 0 D) = (2 * n)%nat).
  { clear HX HB. induction HF as [|d D [HP HL] HF [n IH]]; [exists 0%nat; reflexivity|]. exists (S n).
    assert (HP' : fst d = [0; 1]%nat).
    { inversion HP as [|i ch c p Hc Hp]; subst. destruct Hc as [<-|[]]. inversion Hp as [|i2 ch2 c2 p2 Hc2 Hp2]; subst; [reflexivity|destruct Hc2]. }
    rewrite HP' in HL. inversion HL as [|? g ? gs Hg HL' E1 E2]; subst. inversion HL' as [|? g' ? gs' Hg' HL'' E3 E4]; subst. inversion HL''; subst.
    unfold int_used_in in *. cbn [map concat]. rewrite app_length, IH. rewrite HP', <- E2. cbn. rewrite app_nil_r. cbn in Hg. lia. }
  destruct E as [n E]. cbn in HX. lia.
Qed.
Print Assumptions C89_integer_all_refuted.
