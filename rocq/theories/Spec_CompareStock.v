(** * Specification notions for the comparison of the auctions on stock prices (C86 - C88) *)

From Coq Require Import String Ascii List Arith NArith ZArith QArith Permutation.
From Verif Require Import Base Model_Agents Model_Trade Model_Market Model_Ascending Model_TradeReduction Model_McAfee
  Model_CompareStock Spec_Market Spec_Trade Spec_StockData.
Import ListNotations.
Open Scope Q_scope.

(** ** The markets *)

(** [l'] is the list [l], doubled as often as necessary to have [need] elements. *)
Definition copies (k : nat) (l : list Q) : list Q := concat (repeat l k).
Definition doubled (need : nat) (l l' : list Q) : Prop :=
  exists e, l' = copies (2 ^ e) l /\ (need <= length l')%nat
    /\ forall e', (need <= length (copies (2 ^ e') l))%nat -> (e <= e')%nat.

(** How much an agent of category [i] values the stock: the first category (buyers) buys for all other agents of a deal,
    shared among its [recipe[0]] agents; the others are sellers of one share. *)
Definition agent_value (recipe : list nat) (i : nat) (price v : Q) : Prop :=
  exists z, v = inject_Z z
    /\ truncation (if (i =? 0)%nat then price * (Qn (nsum (tl recipe)) / Qn (hd 0%nat recipe)) else - price) z.

(** A market for [n] deals made from different entries of the list [l]: category [i] has [n * recipe[i]] agents. *)
Definition drawn_market (recipe : list nat) (n : nat) (l : list Q) (m : market) : Prop :=
  exists (used : list (list Q)) (rest : list Q),
    Permutation (concat used ++ rest) l /\ length used = length recipe /\ length m = length recipe
    /\ forall i r u c, nth_error recipe i = Some r -> nth_error used i = Some u -> nth_error m i = Some c ->
         length u = (n * r)%nat
         /\ exists vs, Forall2 (agent_value recipe i) u vs /\ Permutation (cvalues c) vs /\ desc (cvalues c).

(** The [j]-th number of agents: the prices have been doubled for the largest number so far. *)
Definition stock_market (recipe nums : list nat) (prices : list Q) (j : nat) (m : market) : Prop :=
  exists n l, nth_error nums j = Some n
    /\ doubled (list_max (firstn (S j) nums) * nsum recipe) prices l /\ drawn_market recipe n l m.

(** The random markets: buyers between f and 100000 f, where f is the number of sellers per buyer; sellers between -100000
    and -1; rounded. *)
Definition random_stock_market (recipe nums : list nat) (j : nat) (m : market) : Prop :=
  exists n draws, nth_error nums j = Some n /\ length draws = length recipe
    /\ m = map (Model_Experiment.uniformly_random "agent") draws
    /\ forall i r d, nth_error recipe i = Some r -> nth_error draws i = Some d ->
         length d = (n * r)%nat
         /\ forall x, In x d -> if (i =? 0)%nat
              then let f := Qn (nsum (tl recipe)) / Qn (hd 0%nat recipe) in f <= x <= 100000 * f
              else -(100000) <= x <= -(1).

(** ** The columns of one iteration *)

Definition percent_of (x y : Q) : Q := 100 * x / y.

(** [k], [k0]: the smallest and the largest number of deals of an optimal trade; [opt] the optimal gain. *)
Definition optimum (recipe : list nat) (m : market) (k k0 : nat) (opt : Q) : Prop :=
  (exists D, optimal m recipe D /\ length D = k) /\ (exists D, optimal m recipe D /\ length D = k0)
  /\ (forall D, optimal m recipe D -> (k <= length D <= k0)%nat /\ total_gain D == opt).

(** The share of the optimal gain that the theory guarantees, as a percentage. *)
Definition guaranteed (recipe : list nat) (k : nat) (x : Q) : Prop :=
  ((k <= 1)%nat -> x == 0)
  /\ ((1 < k)%nat -> (Forall (fun r => r = 1%nat) recipe -> x == 100 * (1 - 1 / Qn k))
                  /\ (~ Forall (fun r => r = 1%nat) recipe -> x == 100 * ((Qn k - 1) / (Qn k + 1)))).

(** Same labels, equal numbers. *)
Definition same_columns (a b : results) : Prop := Forall2 (fun x y => fst x = fst y /\ snd x == snd y) a b.

Definition columns_of_auction (recipe : list nat) (m : market) (k k0 : nat) (opt : Q) (a : auction) (cs : results) : Prop :=
  exists t total traders,
    snd a m recipe = Ok t /\ gain_from_trade t true = Ok total /\ gain_from_trade t false = Ok traders
    /\ let name := fst a in
       let d := Qn (num_of_deals t) in
       same_columns cs
        [((name ++ "count")%string, d);
         ((name ++ "countratio")%string, if (k =? 0)%nat then 0 else percent_of d (Qn k0));
         ((name ++ "totalgft")%string, total);
         ((name ++ "totalgftratio")%string, if Qeq_bool opt 0 then 0 else percent_of total opt);
         ((name ++ "marketgft")%string, traders);
         ((name ++ "marketgftratio")%string, if Qeq_bool opt 0 then 0 else percent_of traders opt);
         ((name ++ "withoutgftzerocountratio")%string, if (k =? 0)%nat then 0 else percent_of d (Qn k));
         ((name ++ "withoutgftzerototalgft")%string, total);
         ((name ++ "withoutgftzerototalgftratio")%string, if Qeq_bool opt 0 then 0 else percent_of total opt)].

Definition columns_of (recipe : list nat) (auctions : list auction) (m : market) (cs : results) : Prop :=
  exists k k0 opt formula parts, optimum recipe m k k0 opt /\ guaranteed recipe k formula
    /\ same_columns (firstn 5 cs)
         [("optimalcount", Qn k); ("gftratioformula", formula); ("optimalcountwithgftzero", Qn k0); ("optimalgft", opt);
          ("optimalgftwithgftzero", opt)]%string
    /\ skipn 5 cs = concat parts /\ Forall2 (columns_of_auction recipe m k k0 opt) auctions parts.

(** ** Rows *)

(** Every column of the row is the average of that column over the iterations [L]. *)
Definition averages (L : list results) (row : results) : Prop :=
  (forall cs, In cs L -> map fst cs = map fst row)
  /\ forall p, (p < length row)%nat -> snd (nth p row (""%string, 0)) == average (map (fun cs => snd (nth p cs (""%string, 0))) L).

(** The value of column number [p] of a row, and of column number [p] of auction number [a]. *)
Definition col (row : results) (p : nat) : Q := snd (nth p row (""%string, 0)).
Definition acol (row : results) (a p : nat) : Q := col row (5 + 9 * a + p).

Definition optimalcount := 0%nat.
Definition gftratioformula := 1%nat.
Definition optimalcountwithgftzero := 2%nat.
Definition optimalgft := 3%nat.
Definition optimalgftwithgftzero := 4%nat.
Definition count := 0%nat.
Definition countratio := 1%nat.
Definition totalgft := 2%nat.
Definition totalgftratio := 3%nat.
Definition marketgft := 4%nat.
Definition marketgftratio := 5%nat.
Definition withoutgftzerocountratio := 6%nat.
Definition withoutgftzerototalgft := 7%nat.
Definition withoutgftzerototalgftratio := 8%nat.

(** The auctions that the experiments compare, on recipes they are meant for. *)
Inductive budget_balanced : (market -> list nat -> result trade) -> Prop :=
| bb_ascending : budget_balanced ascending_auction
| bb_reduction : budget_balanced (fun m recipe => trade_reduction m recipe true).

Inductive meant_for (recipe : list nat) : (market -> list nat -> result trade) -> Prop :=
| mf_balanced : forall f, budget_balanced f -> meant_for recipe f
| mf_mcafee : forall h, Forall (fun r => r = 1%nat) recipe -> (length recipe <= 2)%nat \/ h = false ->
    meant_for recipe (fun m r => mcafee m r h).

(** What the documentation says about the columns of such an auction. *)
Definition row_bounds_stock (row : results) (a : nat) : Prop :=
  0 <= acol row a count <= col row optimalcountwithgftzero
  /\ col row optimalcountwithgftzero - 1 <= acol row a count
  /\ 0 <= acol row a countratio <= 100
  /\ 0 <= acol row a totalgft <= col row optimalgft
  /\ col row gftratioformula <= acol row a totalgftratio <= 100
  /\ 0 <= acol row a marketgft <= acol row a totalgft
  /\ 0 <= acol row a marketgftratio <= acol row a totalgftratio
  /\ acol row a withoutgftzerototalgft == acol row a totalgft
  /\ acol row a withoutgftzerototalgftratio == acol row a totalgftratio
  /\ acol row a countratio <= acol row a withoutgftzerocountratio.

Definition optimum_bounds (row : results) : Prop :=
  0 <= col row optimalcount <= col row optimalcountwithgftzero
  /\ 0 <= col row gftratioformula < 100
  /\ 0 <= col row optimalgft /\ col row optimalgftwithgftzero == col row optimalgft.

(** The row of a number of agents: averages over the iterations [L], with these bounds; the budget-balanced auctions leave
    everything to the traders. *)
Definition row_facts (recipe : list nat) (auctions : list auction) (L : list results) (row : results) : Prop :=
  averages L row /\ optimum_bounds row
  /\ forall a A, nth_error auctions a = Some A -> row_bounds_stock row a
       /\ (budget_balanced (snd A) -> acol row a marketgft == acol row a totalgft /\ acol row a marketgftratio == acol row a totalgftratio).

(** ** Inputs *)
Definition compare_input (recipe : list nat) (auctions : list auction) (nums : list nat) : Prop :=
  recipe <> [] /\ Forall (fun r => (0 < r)%nat) recipe /\ NoDup nums /\ Forall (fun n => (N.of_nat n <= 2000000)%N) nums
  /\ Forall (fun a => meant_for recipe (snd a)) auctions.

(** If the buyers of a deal together have the value [b]: less than the agents of any other category would cost at the bound of the
    auctions (10^8). *)
Definition buyers_fit (recipe : list nat) (b : Q) : Prop := forall r, In r (tl recipe) -> b < Qn r * 100000000.

(** Prices that keep the values within the auctions' bound (10^8); a buyer's value is the price times sellers per buyer. *)
Definition stock_prices_ok (recipe : list nat) (stocks : list (list Q)) : Prop :=
  exists P, 0 <= P /\ Forall (Forall (fun p => 0 <= p <= P)) stocks /\ P <= 100000000 /\ buyers_fit recipe (P * Qn (nsum (tl recipe))).

(** ** The files with the differences *)

(** [o] = (total gain, number of deals) of an auction on a market. *)
Definition gain_and_deals (recipe : list nat) (m : market) (a : auction) (o : Q * nat) : Prop :=
  exists t, snd a m recipe = Ok t /\ gain_from_trade t true = Ok (fst o) /\ num_of_deals t = snd o.

(** Those of the outcomes [os] that belong to auctions whose names contain "SBB". *)
Inductive sbb_outcomes : list auction -> list (Q * nat) -> list (Q * nat) -> Prop :=
| sbb_nil : sbb_outcomes [] [] []
| sbb_take : forall a auctions o os sel, (exists before after, fst a = (before ++ "SBB" ++ after)%string) ->
    sbb_outcomes auctions os sel -> sbb_outcomes (a :: auctions) (o :: os) (o :: sel)
| sbb_skip : forall a auctions o os sel, (~ exists before after, fst a = (before ++ "SBB" ++ after)%string) ->
    sbb_outcomes auctions os sel -> sbb_outcomes (a :: auctions) (o :: os) sel.

(** ** Numerals *)

(** The value of a list of digits, and of the digits after the decimal point. *)
Definition is_digit (c : Ascii.ascii) : Prop := (48 <= Ascii.N_of_ascii c <= 57)%N.
Definition digit (c : Ascii.ascii) : Z := (Z.of_N (Ascii.N_of_ascii c) - 48)%Z.
Definition int_value (ds : list Ascii.ascii) : Z := fold_left (fun acc c => 10 * acc + digit c)%Z ds 0%Z.
Fixpoint frac_value (ds : list Ascii.ascii) : Q :=
  match ds with [] => 0 | c :: ds' => (inject_Z (digit c) + frac_value ds') / 10 end.

(** [s] is a positional numeral for the number [q], without sign; with a sign it is [- q]. *)
Definition unsigned_numeral (s : list Ascii.ascii) (q : Q) : Prop :=
  exists ds fs, Forall is_digit ds /\ Forall is_digit fs
    /\ (s = ds /\ fs = [] \/ s = (ds ++ "."%char :: fs)%list) /\ q == inject_Z (int_value ds) + frac_value fs.
Definition numeral (s : list Ascii.ascii) (q : Q) : Prop :=
  unsigned_numeral s q \/ exists s' q', s = "-"%char :: s' /\ unsigned_numeral s' q' /\ q == - q'.
