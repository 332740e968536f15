(** * Properties C50 and C51: tree_calculations.py and the splitting of price data *)

From Coq Require Import String List Arith QArith.
From Verif Require Import Base Model_Agents Model_Prices Model_RecipeTree Model_TreeCalc Spec_Market Spec_RecipeTree Spec_TreeAuction Spec_TreeCalc
  Proof_Tree Proof_TreeCalc.
Import ListNotations.
Open Scope nat_scope.

(** ** C50 *)

(** [struct_of t] is the nested list of which RecipeTree makes the tree [t]. *)
Theorem C50_struct : forall cats t, indices_in_range (length cats) t -> new_tree cats (struct_of t) = Ok t.
Proof. exact struct_new_tree. Qed.
Print Assumptions C50_struct.

(** The depth of the tree and the largest category index in it. *)
Theorem C50_depth : forall t, get_depth_and_agents_size (struct_of t) = Ok (height t, max_of (node_indices t)).
Proof. exact depth_spec. Qed.
Print Assumptions C50_depth.

(** The number of children of each category (1 for a leaf, 0 for a category that is not in the tree). *)
Theorem C50_children_counts : forall t n, indices_in_range n t -> distinct_categories t ->
  exists counts, get_children_counts (struct_of t) n = Ok counts /\ length counts = n
    /\ (forall i ch, subtree t (Node i ch) -> nth i counts 0 = match ch with [] => 1 | _ => length ch end)
    /\ (forall i, ~ In i (node_indices t) -> nth i counts 0 = 0).
Proof. exact children_counts_spec. Qed.
Print Assumptions C50_children_counts.

(** The agent counts: for a tree whose root is category 0 and has children, on every path the counts of the sellers add up to the
    count of the buyer, and every count is positive. *)
Theorem C50_agent_counts : forall ch, distinct_categories (Node 0 ch) -> ch <> [] ->
  exists counts, get_agents_analyze (struct_of (Node 0 ch)) = Ok counts
    /\ length counts = max_of (node_indices (Node 0 ch)) + 1
    /\ nth 0 counts 0 = height (Node 0 ch) - 1
    /\ (forall p, is_path (Node 0 ch) (0 :: p) -> count_sum counts p = nth 0 counts 0)
    /\ (forall i, In i (node_indices (Node 0 ch)) -> 0 < nth i counts 0).
Proof. exact analyze_spec. Qed.
Print Assumptions C50_agent_counts.

(** The condition that the root is category 0 is needed: for the code's own tree recipes_111 = [1, [2, [0, None]]] (line 58, where a
    comment expects [1, 1, 1]) the result is [2, 1, 1]: the root has count 1 and the rest of its only path has 3. *)
Theorem C50_root_not_zero_refuted : exists t counts p,
  distinct_categories t /\ get_agents_analyze (struct_of t) = Ok counts /\ is_path t (tindex t :: p)
  /\ nth (tindex t) counts 0 = 1 /\ count_sum counts p = 3 /\ counts = [2; 1; 1].
Proof.
  exists (Node 1 [Node 2 [Node 0 []]]), [2; 1; 1], [2; 0]. split; [|split; [vm_compute; reflexivity|]].
  - unfold distinct_categories. simpl. repeat constructor; simpl; intuition discriminate.
  - split; [|repeat split]. repeat (first [apply path_leaf | eapply path_down; [left; reflexivity|]]).
Qed.
Print Assumptions C50_root_not_zero_refuted.

(** The struct printed at the end of the file (lines 60-63). *)
Example C50_witness :
  let t := Node 0 [Node 1 [Node 2 []; Node 3 []]; Node 4 [Node 5 []; Node 6 []]] in
  struct_of t = SList [SInt 0; SList [SInt 1; SList [SInt 2; SNone; SInt 3; SNone]; SInt 4; SList [SInt 5; SNone; SInt 6; SNone]]]
  /\ get_depth_and_agents_size (struct_of t) = Ok (3, 6)
  /\ get_children_counts (struct_of t) 7 = Ok [2; 2; 1; 1; 2; 1; 1]
  /\ get_agents_analyze (struct_of t) = Ok [2; 1; 1; 1; 1; 1; 1].
Proof. vm_compute. repeat split. Qed.

(** An unbalanced tree: the short path's seller counts twice. *)
Example C50_witness_unbalanced :
  let t := Node 0 [Node 1 []; Node 2 [Node 3 []]] in
  distinct_categories t /\ get_agents_analyze (struct_of t) = Ok [2; 2; 1; 1].
Proof. split; [|vm_compute; reflexivity]. unfold distinct_categories. simpl. repeat constructor; simpl; intuition discriminate. Qed.

(** ** C51 *)

(** The data are dealt out in consecutive, disjoint pieces: category i gets floor(len(data) * count_i / sum of counts) of them,
    multiplied by its value, negated for the sellers; there is no IndexError. *)
Theorem C51_split : forall data counts values, 0 < nsum counts -> length counts <= length values ->
  exists split pieces, split_prices data counts values = Ok split
    /\ pieces_of data pieces
    /\ map (@length Q) pieces = map (fun c => length data * c / nsum counts) counts
    /\ length split = length counts
    /\ (forall i, i < length counts -> nth i split [] =
         map (fun d => (if (0 <? i) then -(1) else 1) * d * nth i values 0)%Q (nth i pieces [])).
Proof. exact split_prices_spec. Qed.
Print Assumptions C51_split.

(** With counts that are all zero there is a ZeroDivisionError. *)
Theorem C51_zero_counts : forall data counts values, counts <> [] -> nsum counts = 0 ->
  split_prices data counts values = Raise ZeroDivisionError.
Proof. intros data [|c counts] values H E; [congruence|]. unfold split_prices. rewrite E. reflexivity. Qed.
Print Assumptions C51_zero_counts.

Example C51_witness : split_prices [10; 20; 30; 40; 50; 60; 70]%Q [2; 1; 0; 1] [1; 2; 1; 1]%Q =
  Ok [[1 * 10 * 1; 1 * 20 * 1; 1 * 30 * 1]; [-(1) * 40 * 2]; []; [-(1) * 50 * 1]]%Q.
Proof. reflexivity. Qed.
