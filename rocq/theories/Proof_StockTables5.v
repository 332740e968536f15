(** * The whole table of stock/experiment_compare_sbb_shufled_stock.py (C92) *)

From Coq Require Import String List Arith NArith Lia ZArith QArith Qround Lqa Bool Permutation.
From Verif Require Import Base Model_Agents Model_Trade Model_Prices Model_Market Model_Ascending Model_TradeReduction Model_McAfee
  Model_Experiment Model_CompareStock Model_StockTables
  Spec_Market Spec_Trade Spec_Ascending Spec_TradeReduction Spec_McAfee Spec_Experiment Spec_StockData Spec_CompareStock Spec_StockTables
  Proof_Agents Proof_Market Proof_StockData Proof_Exp1 Proof_Exp2 Proof_Exp3 Proof_CompareStock Proof_CompareStock2 Proof_CompareStock3
  Proof_CompareStock4 Proof_CompareStock5 Proof_CompareStock9 Proof_StockTables Proof_StockTables2 Proof_StockTables3 Proof_StockTables4.
Import ListNotations.
Open Scope Q_scope.

(** ** The row of a stock *)
Lemma divided_scaled : forall its w cs ds, same_columns ds (scaled w cs) -> same_columns (divided its ds) (scaled (w / Qn its) cs).
Proof.
  intros its w cs. induction cs as [|[l v] cs IH]; intros ds H; inversion H as [|[l' v'] y ds' b [H1 H2] H3]; subst; cbn [divided scaled map]; constructor.
  - cbn [fst snd] in *. split; [exact H1|]. rewrite H2. unfold Qdiv. ring.
  - apply IH. exact H3.
Qed.

Lemma bounds_scaled : forall auctions w cs a, 0 <= w -> w <= 1 -> shuffled_bounds cs auctions -> same_columns a (scaled w cs) -> shuffled_bounds a auctions.
Proof.
  intros auctions w cs a W0 W1 (B0 & B1 & B2) S.
  assert (E : forall p, col a p == w * col cs p) by (intros p; rewrite (same_col _ _ p S); apply scaled_col).
  unfold shuffled_bounds, scol in *. rewrite !E. split; [split; nra|]. split; [nra|]. intros i A HA. rewrite !E.
  destruct (B2 i A HA) as ((C0 & C1) & C2 & (C3 & C4) & (C5 & C6) & (C7 & C8)).
  split; [split; nra|]. split; [nra|]. split; [split; nra|]. split; [split; nra|split; nra].
Qed.

Lemma guarantee_same : forall auctions cs a, shuffled_guarantee cs auctions -> same_columns a (scaled 1 cs) -> shuffled_guarantee a auctions.
Proof.
  intros auctions cs a G S. assert (E : forall p, col a p == col cs p) by (intros p; rewrite (same_col _ _ p S), scaled_col; ring).
  unfold shuffled_guarantee, scol in *. intros i A HA BB. rewrite !E. apply G with (A := A); assumption.
Qed.

Lemma labels_length : forall auctions, length (column_names auctions) = (3 + 4 * length auctions)%nat.
Proof.
  intros auctions. unfold column_names. rewrite app_length. cbn [length]. f_equal. induction auctions as [|a l IH]; [reflexivity|].
  cbn [flat_map length app]. rewrite IH. lia.
Qed.

Lemma bounds_nonneg : forall auctions a p, shuffled_bounds a auctions -> map fst a = column_names auctions -> 0 <= col a p.
Proof.
  intros auctions a p (B0 & B1 & B2) L. apply (f_equal (@length _)) in L. rewrite map_length, labels_length in L.
  destruct (Nat.lt_ge_cases p (length a)) as [C|C]; [|unfold col; rewrite nth_overflow by exact C; cbn [snd]; lra].
  destruct p as [|[|[|p]]]; [lra|lra|lra|].
  assert (D := Nat.div_mod p 4 ltac:(lia)). assert (M := Nat.mod_upper_bound p 4 ltac:(lia)). set (i := (p / 4)%nat) in *. set (r := (p mod 4)%nat) in *.
  destruct (nth_error auctions i) as [A|] eqn:EA; [|apply nth_error_None in EA; lia].
  destruct (B2 i A EA) as (C0 & _ & C3 & C5 & C7). replace (S (S (S p))) with (3 + 4 * i + r)%nat by lia.
  change (0 <= scol a i r). destruct r as [|[|[|[|r]]]]; [apply C0|apply C3|apply C5|apply C7|lia].
Qed.

Lemma recorded_row : forall recipe auctions prices its i n T p ds, (0 < its)%nat -> NoDup (column_names auctions) ->
  recorded recipe auctions prices its n (T n) -> T n = Some (p, ds) ->
  map fst (divided its ds) = column_names auctions /\ ordered_dict (divided its ds) = divided its ds
  /\ shuffled_row_facts recipe auctions its i prices n (mkShuf (Some i) p (ordered_dict (divided its ds))).
Proof.
  intros recipe auctions prices its i n T p ds ITS ND (cs & ds' & (m & CM & SC & LB & SB & SG) & E & S) E'.
  rewrite E' in E. injection E as -> <-. set (cap := (length prices / nsum recipe)%nat) in *.
  assert (QP : 0 < Qn its) by (apply Qn_pos; exact ITS). assert (Q1 : 1 <= Qn its) by (change 1 with (Qn 1); apply Qn_le; lia).
  assert (S' : same_columns (divided its ds) (scaled (if (n <=? cap)%nat then 1 else 1 / Qn its) cs)).
  { eapply scaled_compat; [|apply divided_scaled; exact S]. destruct (n <=? cap)%nat; [field; lra|reflexivity]. }
  assert (LD : map fst (divided its ds) = column_names auctions) by (rewrite (same_labels _ _ S'), scaled_labels; exact LB).
  assert (OD : ordered_dict (divided its ds) = divided its ds) by (apply dict_same; rewrite LD; exact ND).
  split; [exact LD|]. split; [exact OD|]. rewrite OD. unfold shuffled_row_facts. fold cap. cbn [sh_stock sh_possible sh_columns].
  split; [reflexivity|]. split; [reflexivity|]. exists m, cs. split; [exact CM|]. split; [exact SC|]. split; [exact S'|]. split.
  - eapply bounds_scaled; [| |exact SB|exact S'].
    + destruct (n <=? cap)%nat; [lra|]. apply Qle_shift_div_l; lra.
    + destruct (n <=? cap)%nat; [lra|]. apply Qle_shift_div_r; lra.
  - intros LE. apply Nat.leb_le in LE. rewrite LE in S'. eapply guarantee_same; [exact SG|exact S'].
Qed.

(** ** The stocks *)
Definition accum (auctions : list auction) (ts : list table) (n : nat) (e : entry) : Prop :=
  match rows_for n ts with
  | [] => e = None
  | r :: _ => exists ds, e = Some (sh_possible r, ds) /\ map fst ds = column_names auctions
      /\ forall p, col ds p == Qsum (map (fun r => col (sh_columns r) p) (rows_for n ts))
  end.

Definition table_facts (recipe : list nat) (auctions : list auction) (its : nat) (nums : list nat) (i : nat) (prices : list Q) (t : table) : Prop :=
  map fst t = with_row (length prices / nsum recipe) nums
  /\ Forall (fun x => shuffled_row_facts recipe auctions its i prices (fst x) (snd x) /\ map fst (sh_columns (snd x)) = column_names auctions) t.

Lemma Qsum_app : forall l l', Qsum (l ++ l') == Qsum l + Qsum l'.
Proof. intros l l'. unfold Qsum. induction l as [|x l IH]; cbn [app fold_right]; [ring|]. rewrite IH. ring. Qed.

Lemma rows_for_app : forall n a b, rows_for n (a ++ b) = (rows_for n a ++ rows_for n b)%list.
Proof. intros n a b. unfold rows_for. apply flat_map_app. Qed.

Lemma accum_add : forall auctions done t n e e' row,
  accum auctions done n e -> rows_for n [t] = [row] -> map fst (sh_columns row) = column_names auctions ->
  e' = add_entry e (sh_possible row, sh_columns row) -> accum auctions (done ++ [t]) n e'.
Proof.
  intros auctions done t n e e' row H R L ->. unfold accum in *. rewrite rows_for_app, R. destruct (rows_for n done) as [|r rs].
  - subst e. cbn [app add_entry map Qsum fold_right]. exists (sh_columns row). split; [reflexivity|]. split; [exact L|]. intros p. cbn. ring.
  - destruct H as (ds & -> & LD & HC). cbn [app add_entry snd]. destruct (add_columns_spec _ ds (sh_columns row) LD L) as [A B].
    exists (add_columns ds (sh_columns row)). split; [reflexivity|]. split; [exact A|]. intros p. rewrite B, HC.
    change (r :: (rs ++ [row]))%list with ((r :: rs) ++ [row])%list. rewrite map_app, Qsum_app. cbn [map Qsum fold_right]. ring.
Qed.

Section Table.
Variables (recipe : list nat) (auctions : list auction) (its : nat) (nums : list nat).
Hypothesis (GR : good_recipe recipe) (ITS : (0 < its)%nat) (NDn : NoDup nums) (NDc : NoDup (column_names auctions)).
Hypothesis AU : Forall (fun a => meant_for recipe (snd a) /\ avoids "mcafee" (fst a)) auctions.
Hypothesis NB : Forall (fun n => (N.of_nat n <= 2000000)%N) nums.
Variable P : Q.
Hypothesis (P0 : 0 <= P) (PS : prices_fit recipe P).

Lemma stocks_ok : forall stocks i bound (A : entries) done, Forall (Forall (fun p => 0 <= p <= P)) stocks ->
  (forall n, In n nums -> accum auctions done n (A n)) ->
  exists tables A', shuffled_stocks recipe auctions its nums i stocks bound A = Ok (concat (map (map snd) tables), A')
    /\ length tables = length stocks
    /\ (forall j prices t, nth_error stocks j = Some prices -> nth_error tables j = Some t -> table_facts recipe auctions its nums (i + j) prices t)
    /\ forall n, In n nums -> accum auctions (done ++ tables) n (A' n).
Proof.
  induction stocks as [|prices stocks IH]; intros i bound A done F HA; cbn [shuffled_stocks].
  - exists [], A. split; [reflexivity|]. split; [reflexivity|]. split; [intros [|j] ? ? X; discriminate X|]. intros n I. rewrite app_nil_r. apply HA. exact I.
  - inversion F as [|? ? HP F']; subst. set (E0 := (fun _ => None) : entries).
    destruct (nums_ok recipe auctions prices its GR ITS AU P P0 HP PS nums bound E0 NDn NB (fun _ => eq_refl)) as (l & b & T & EQ & HT).
    match goal with |- context[shuffled_nums recipe auctions prices its nums ?s] =>
      replace (shuffled_nums recipe auctions prices its nums s) with (Ok (l, b, T) : result shuffled_state) by (symmetry; exact EQ) end.
    cbn [bind]. clear EQ E0.
    set (cap := (length prices / nsum recipe)%nat) in *.
    destruct (rows_ok i its nums T A NDn) as (A1 & EQ & H1). rewrite EQ. cbn [fst snd]. set (t := stock_table i its nums T) in *.
    assert (FR : Forall (fun x => shuffled_row_facts recipe auctions its i prices (fst x) (snd x) /\ map fst (sh_columns (snd x)) = column_names auctions) t).
    { apply Forall_forall. intros x Hx. unfold t, stock_table in Hx. apply in_flat_map in Hx. destruct Hx as (n & In1 & Hx).
      destruct (T n) as [[p ds]|] eqn:E; [|destruct Hx]. destruct Hx as [<-|[]]. cbn [fst snd sh_columns].
      destruct (HT n In1) as [R1 R2]. destruct (in_dec Nat.eq_dec n (with_row cap nums)) as [I|I]; [|rewrite (R2 I) in E; discriminate].
      specialize (R1 I). destruct (recorded_row recipe auctions prices its i n T p ds ITS NDc R1 E) as (X1 & X2 & X3). split; [exact X3|rewrite X2; exact X1]. }
    assert (HA1 : forall n, In n nums -> accum auctions (done ++ [t]) n (A1 n)).
    { intros n I. destruct (H1 n) as [_ X]. specialize (X I). assert (R := rows_for_table i its nums T n NDn I). fold t in R.
      destruct (T n) as [[p ds]|] eqn:E.
      - destruct (HT n I) as [R1 R2]. destruct (in_dec Nat.eq_dec n (with_row cap nums)) as [J|J]; [|rewrite (R2 J) in E; discriminate].
        specialize (R1 J). destruct (recorded_row recipe auctions prices its i n T p ds ITS NDc R1 E) as (X1 & X2 & X3).
        eapply accum_add; [apply HA; exact I|exact R|cbn [sh_columns]; rewrite X2; exact X1|]. cbn [sh_columns sh_possible]. rewrite X2. exact X.
      - unfold accum. rewrite rows_for_app, R, app_nil_r. rewrite X. apply (HA n I). }
    destruct (IH (S i) b A1 (done ++ [t])%list F' HA1) as (ts & A' & EQ2 & LT & FT & AC). rewrite EQ2. cbn [bind fst snd].
    exists (t :: ts), A'. split; [reflexivity|]. split; [cbn [length]; congruence|]. split.
    + intros [|j] q u Hq Hu; cbn [nth_error] in Hq, Hu.
      * injection Hq as <-. injection Hu as <-. rewrite Nat.add_0_r. split; [|exact FR]. apply table_fst; [exact NDn|]. intros n I.
        destruct (HT n I) as [R1 R2]. split; [|exact R2]. intros J. destruct (R1 J) as (? & ? & _ & -> & _). discriminate.
      * replace (i + S j)%nat with (S i + j)%nat by lia. apply FT; assumption.
    + intros n I. specialize (AC n I). rewrite <- app_assoc in AC. exact AC.
Qed.
End Table.

(** ** The averages *)
Lemma round1_near : forall q, within (1 # 20) q (py_round1 q).
Proof.
  intros q. unfold within, py_round1. assert (X := py_round_near (q * 10)). assert (E : forall a, a / 10 == a * (1 # 10)) by (intros; field).
  rewrite E. split; lra.
Qed.

Lemma cut_near : forall q, 0 <= q -> let x := inject_Z (py_int (q * 1000)) / 1000 in 0 <= x <= q /\ q < x + (1 # 1000).
Proof.
  intros q H. cbn zeta. assert (T := py_int_truncation (q * 1000)). destruct T as [T _]. destruct (T ltac:(lra)) as [A B]. rewrite d1000.
  assert (0 <= inject_Z (py_int (q * 1000))) by (change 0 with (inject_Z 0); rewrite <- Zle_Qle; exact A). split; [split|]; lra.
Qed.

Definition average_table (N : nat) (nums : list nat) (A : entries) : table :=
  flat_map (fun n => match A n with Some (p, cs) => [(n, mkShuf None p (ordered_dict (map (average_column N) cs)))] | None => [] end) nums.

Lemma average_rows_table : forall N nums A, NoDup nums -> average_rows N nums A = map snd (average_table N nums A).
Proof.
  intros N. induction nums as [|n nums IH]; intros A ND; [reflexivity|]. inversion ND as [|? ? NI ND']; subst.
  unfold average_table in *. cbn [average_rows flat_map]. destruct (A n) as [[p cs]|] eqn:E; [|apply IH; exact ND'].
  cbn [app map snd]. f_equal. cbn zeta. rewrite IH by exact ND'. f_equal. apply flat_map_ext_in. intros x Hx. rewrite set_other by (intros ->; contradiction). reflexivity.
Qed.

Lemma average_labels : forall N cs, map fst (map (average_column N) cs) = map fst cs.
Proof. intros N cs. rewrite map_map. apply map_ext. intros c. reflexivity. Qed.

Lemma Qsum_nonneg : forall l, Forall (fun x => 0 <= x) l -> 0 <= Qsum l.
Proof. intros l H. unfold Qsum. induction H as [|x l Hx H IH]; cbn [fold_right]; lra. Qed.

Lemma average_row_ok : forall auctions tables n p cs N, NoDup (column_names auctions) -> (0 < N)%nat -> length tables = N ->
  (forall r q, In r (rows_for n tables) -> 0 <= col (sh_columns r) q) ->
  accum auctions tables n (Some (p, cs)) ->
  average_row_facts auctions tables n (mkShuf None p (ordered_dict (map (average_column N) cs))).
Proof.
  intros auctions tables n p cs N ND NP LT NN H. unfold accum in H. unfold average_row_facts. cbn [sh_stock sh_possible sh_columns].
  destruct (rows_for n tables) as [|r rs] eqn:ER; [discriminate|]. destruct H as (ds & E & LD & HC). injection E as -> ->.
  assert (LA : map fst (map (average_column N) ds) = column_names auctions) by (rewrite average_labels; exact LD).
  rewrite dict_same by (rewrite LA; exact ND). split; [reflexivity|]. split; [exists r, rs; auto|]. split; [exact LA|].
  intros q label x Hx. cbn zeta. rewrite LT.
  rewrite nth_error_map in Hx. destruct (nth_error ds q) as [[l v]|] eqn:EN; [|discriminate]. cbn [option_map average_column fst snd] in Hx. injection Hx as <- <-.
  assert (EV : v == Qsum (map (fun r => col (sh_columns r) q) (r :: rs))).
  { rewrite <- HC. unfold col. rewrite (nth_error_nth _ _ _ EN). reflexivity. }
  assert (QN : 0 < Qn N) by (apply Qn_pos; exact NP).
  assert (VN : 0 <= v).
  { rewrite EV. apply Qsum_nonneg. apply Forall_forall. intros y Hy. apply in_map_iff in Hy. destruct Hy as (s & <- & Hs). apply NN. exact Hs. }
  set (S := Qsum (map (fun r => col (sh_columns r) q) (r :: rs))) in *.
  assert (EA : v / Qn N == S / Qn N) by (rewrite EV; reflexivity).
  assert (VA : 0 <= v / Qn N) by (apply Qle_shift_div_l; lra).
  split; intros HR.
  - apply contains_iff in HR. rewrite HR. destruct (cut_near (v / Qn N) VA) as [[X1 X2] X3]. rewrite EA in X2 at 2. rewrite EA in X3 at 1.
    split; [split; assumption|exact X3].
  - destruct (py_contains "ratio" l) eqn:EC; [apply contains_iff in EC; contradiction|]. assert (X := round1_near (v / Qn N)).
    destruct X as [X1 X2]. rewrite EA in X1 at 1. rewrite EA in X2 at 2. split; assumption.
Qed.

(** ** The experiment *)
Theorem shuffled_experiment_ok : forall recipe auctions its nums stocks, shuffled_input recipe auctions its nums stocks ->
  exists (tables : list table) (averages : table),
    shuffled_experiment recipe auctions its nums stocks = Ok (map snd (concat tables ++ averages))
    /\ length tables = length stocks
    /\ (forall i prices t, nth_error stocks i = Some prices -> nth_error tables i = Some t ->
          map fst t = with_row (length prices / nsum recipe) nums
          /\ Forall (fun x => shuffled_row_facts recipe auctions its i prices (fst x) (snd x)) t)
    /\ map fst averages = filter (fun n => match rows_for n tables with [] => false | _ => true end) nums
    /\ Forall (fun x => average_row_facts auctions tables (fst x) (snd x)) averages.
Proof.
  intros recipe auctions its nums stocks (GR & ITS & NDn & NDc & AU & NB & (P & P0 & HP & PS)).
  destruct (stocks_ok recipe auctions its nums GR ITS NDn NDc AU NB P P0 PS stocks 0%nat None (fun _ => None) [] HP) as (ts & A & EQ & LT & FT & AC).
  { intros n _. reflexivity. }
  cbn [app] in AC. exists ts, (average_table (length stocks) nums A). split; [|split; [|split; [|split]]].
  - unfold shuffled_experiment. unfold entries, entry in *. rewrite EQ. cbn [bind fst snd]. rewrite average_rows_table by exact NDn.
    rewrite map_app, concat_map. reflexivity.
  - exact LT.
  - intros i prices t Hi Ht. destruct (FT i prices t Hi Ht) as [X1 X2]. split; [exact X1|]. eapply Forall_impl; [|exact X2]. intros x [X _]. exact X.
  - clear - AC. unfold average_table.
    assert (X : forall l, (forall n, In n l -> In n nums) -> map fst (flat_map (fun n => match A n with
       | Some (p, cs) => [(n, mkShuf None p (ordered_dict (map (average_column (length stocks)) cs)))] | None => [] end) l)
       = filter (fun n => match rows_for n ts with [] => false | _ => true end) l); [|apply X; auto].
    induction l as [|n l IH]; intros HL; [reflexivity|]. cbn [flat_map filter]. rewrite map_app, IH by (intros x Hx; apply HL; right; exact Hx).
    specialize (AC n (HL n (or_introl eq_refl))). unfold accum in AC. destruct (rows_for n ts) as [|r rs].
    + rewrite AC. reflexivity.
    + destruct AC as (ds & -> & _). reflexivity.
  - apply Forall_forall. intros x Hx. unfold average_table in Hx. apply in_flat_map in Hx. destruct Hx as (n & I & Hx).
    destruct (A n) as [[p cs]|] eqn:E; [|destruct Hx]. destruct Hx as [<-|[]]. cbn [fst snd].
    specialize (AC n I). rewrite E in AC.
    assert (NN : forall r q, In r (rows_for n ts) -> 0 <= col (sh_columns r) q).
    { intros r q Hr. unfold rows_for in Hr. apply in_flat_map in Hr. destruct Hr as (t & It & Hr). apply in_map_iff in Hr. destruct Hr as (y & <- & Hy).
      apply filter_In in Hy. destruct Hy as [Hy _]. apply In_nth_error in It. destruct It as (i & Hi).
      destruct (nth_error stocks i) as [prices|] eqn:ES; [|apply nth_error_None in ES; assert (i < length ts)%nat by (apply nth_error_Some; congruence); lia].
      destruct (FT i prices t ES Hi) as [_ X]. rewrite Forall_forall in X. destruct (X y Hy) as [(_ & _ & m & ds & _ & _ & _ & SB & _) LB].
      eapply bounds_nonneg; [exact SB|exact LB]. }
    apply average_row_ok; try assumption.
    destruct ts as [|t ts]; [|cbn [length] in LT; lia]. exfalso. unfold accum in AC. cbn in AC. discriminate.
Qed.

(** ** A first auction whose name contains mcafee *)
Theorem mcafee_first : forall before after f auctions recipe its n nums prices stocks P,
  good_recipe recipe -> (0 < its)%nat -> (N.of_nat n <= 2000000)%N ->
  0 <= P -> Forall (fun p => 0 <= p <= P) prices -> prices_fit recipe P ->
  shuffled_experiment recipe (((before ++ "mcafee" ++ after)%string, f) :: auctions) its (n :: nums) (prices :: stocks) = Raise UnboundLocalError.
Proof.
  intros before after f auctions recipe its n nums prices stocks P GR ITS HN P0 HP PS. destruct GR as [NE FP]. destruct recipe as [|b0 rec]; [congruence|].
  assert (SP : (0 < nsum (b0 :: rec))%nat) by (apply nsum_pos; assumption).
  set (recipe := b0 :: rec) in *. set (cap := (length prices / nsum recipe)%nat).
  assert (L : (Nat.min n cap * nsum recipe <= length prices)%nat).
  { assert (X := Nat.mul_div_le (length prices) (nsum recipe) ltac:(lia)). fold cap in X. nia. }
  assert (CM := shuffled_consecutive b0 rec (Nat.min n cap) prices FP L). fold recipe in CM.
  assert (T : tame recipe (shuffled_market (nsum recipe) b0 (Nat.min n cap) prices 0 recipe)).
  { apply consecutive_tame with (n := Nat.min n cap) (prices := prices) (P := P); auto; [split; assumption|lia]. }
  destruct (optimum_found recipe _ T) as (dF & rF & dT & rT & EF & ET & _).
  assert (C : py_contains "mcafee" (before ++ "mcafee" ++ after)%string = true) by (apply contains_iff; exists before, after; reflexivity).
  set (name := (before ++ "mcafee" ++ after)%string) in *.
  assert (IT : shuffled_iteration recipe ((name, f) :: auctions) (shuffled_market (nsum recipe) b0 (Nat.min n cap) prices 0 recipe) None = Raise UnboundLocalError).
  { unfold shuffled_iteration. rewrite EF. cbn [bind]. rewrite ET. cbn [bind]. cbn zeta. cbn [shuffled_auctions]. rewrite C. reflexivity. }
  unfold shuffled_experiment. cbn [shuffled_stocks shuffled_nums]. destruct its as [|k]; [lia|]. cbn [shuffled_iterations].
  destruct (Nat.eqb_spec (nsum recipe) 0) as [Z|_]; [lia|]. cbn [andb]. fold cap. cbn zeta. unfold recipe at 1. rewrite IT. reflexivity.
Qed.
