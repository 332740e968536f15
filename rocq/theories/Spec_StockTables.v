(** * Specification notions for the tables of the experiments on stock prices (C90 - C92) *)

From Coq Require Import String List Arith NArith ZArith QArith Permutation.
From Verif Require Import Base Model_Agents Model_Trade Model_Prices Model_Market Model_CompareStock Model_StockTables
  Spec_Market Spec_Trade Spec_Experiment Spec_StockData Spec_CompareStock.
Import ListNotations.
Open Scope Q_scope.

(** [x] is [y] up to an error of at most [e]. *)
Definition within (e y x : Q) : Prop := y - e <= x <= y + e.

(** [x] is the percentage [d] of [k], cut after three digits (0 if [k] is 0). *)
Definition share_cut (d k : nat) (x : Q) : Prop :=
  (k = 0%nat -> x == 0) /\ ((0 < k)%nat -> x <= percent_of (Qn d) (Qn k) < x + (1 # 1000)).

(** [x] is the percentage [g] of [opt], rounded to three digits (0 if [opt] is 0). *)
Definition share_rounded (g opt x : Q) : Prop :=
  (opt == 0 -> x == 0) /\ (~ opt == 0 -> within (1 # 2000) (percent_of g opt) x).

(** One list of values per category; the values are so small that a deal in which the agents of one category have the value -10^8
    (the auctions' bound) and all others have their highest value ([U]) is not profitable; and some category allows at
    most 2000000 deals (the bound of [optimal_trade]). *)
Definition stock_input (recipe : list nat) (stock : list (list Q)) : Prop :=
  length stock = length recipe
  /\ (exists U, Forall2 (fun c u => - (100000000) <= u /\ forall v, In v c -> - (100000000) <= v <= u) stock U
       /\ forall l r u, nth_error recipe l = Some r -> nth_error U l = Some u -> dot U recipe < Qn r * (u + 100000000))
  /\ exists i c r, nth_error stock i = Some c /\ nth_error recipe i = Some r /\ (N.of_nat (length c) <= 2000000 * N.of_nat r)%N.

Definition good_recipe (recipe : list nat) : Prop := recipe <> [] /\ Forall (fun r => (0 < r)%nat) recipe.

(** The agents of [m] are the given values, category by category. *)
Definition market_of (stock : list (list Q)) (m : market) : Prop :=
  Forall2 (fun vs c => Permutation (cvalues c) vs /\ desc (cvalues c)) stock m.

(** [x] is the (fractional) number of procurement-sets for which there are enough agents of all categories. *)
Definition sets_possible (stock : list (list Q)) (recipe : list nat) (x : Q) : Prop :=
  (forall i c r, nth_error stock i = Some c -> nth_error recipe i = Some r -> x * Qn r <= Qn (length c))
  /\ exists i c r, nth_error stock i = Some c /\ nth_error recipe i = Some r /\ x * Qn r == Qn (length c).

(** ** C90: the row of one stock *)
Definition stock_row_facts (f : market -> list nat -> result trade) (recipe : list nat) (stock : list (list Q)) (row : stock_row) : Prop :=
  exists m x k k0 opt t total traders,
    market_of stock m /\ optimum recipe m k k0 opt
    /\ f m recipe = Ok t /\ gain_from_trade t true = Ok total /\ gain_from_trade t false = Ok traders
    (* the columns *)
    /\ sets_possible stock recipe x /\ within (1 # 2) x (inject_Z (num_possible_trades row))
    /\ optimal_count row == Qn k0 /\ auction_count row == Qn (num_of_deals t) /\ share_cut (num_of_deals t) k0 (count_ratio row)
    /\ within (1 # 200) opt (optimal_gft row) /\ within (1 # 200) total (auction_gft row) /\ share_rounded total opt (auction_gft_ratio row)
    /\ within (1 # 200) traders (auction_market_gft row) /\ share_rounded traders opt (market_gft_ratio row)
    (* the guarantee of the documentation *)
    /\ (0 < opt -> 100 * (1 - 1 / Qn k0) - (1 # 2000) <= auction_gft_ratio row).

Definition stock_row_bounds (row : stock_row) : Prop :=
  0 <= optimal_count row <= inject_Z (num_possible_trades row)
  /\ optimal_count row - 1 <= auction_count row <= optimal_count row /\ 0 <= auction_count row
  /\ 0 <= count_ratio row <= 100
  /\ 0 <= auction_market_gft row <= auction_gft row /\ auction_gft row <= optimal_gft row
  /\ 0 <= market_gft_ratio row <= auction_gft_ratio row /\ auction_gft_ratio row <= 100
  /\ warned row = false.

(** ** C91: the rows of one stock, for several numbers of agents *)

(** The numbers of agents that get a row, if the first category has [N] agents: all before the second one that exceeds [N]. *)
Definition measured (N : nat) (nums done : list nat) : Prop :=
  exists rest, nums = (done ++ rest)%list /\ (how_many (fun n => N <? n)%nat done <= 1)%nat
    /\ (rest = [] \/ exists n rest', rest = n :: rest' /\ (N < n)%nat /\ how_many (fun n => N <? n)%nat done = 1%nat).

(** The values that take part: the first [n * recipe[j]] of each category; all of them if [n] exceeds [N]. *)
Definition taking_part (recipe : list nat) (stock : list (list Q)) (N n : nat) (part : list (list Q)) : Prop :=
  length part = length stock
  /\ forall j c r p, nth_error stock j = Some c -> nth_error recipe j = Some r -> nth_error part j = Some p ->
       p = if (N <? n)%nat then c else firstn (n * r) c.

Definition auction_part (recipe : list nat) (m : market) (k0 : nat) (opt opt_col : Q) (a : auction) (cs : results) (w : bool) : Prop :=
  exists t total traders d r g s,
    snd a m recipe = Ok t /\ gain_from_trade t true = Ok total /\ gain_from_trade t false = Ok traders
    /\ cs = [((fst a ++ "_auction_count")%string, d); ((fst a ++ "_count_ratio")%string, r);
             ((fst a ++ "_gft")%string, g); ((fst a ++ "_gft_ratio")%string, s)]
    /\ d == Qn (num_of_deals t) /\ share_cut (num_of_deals t) k0 r /\ within (1 # 200) traders g /\ share_rounded traders opt s
    (* bounds *)
    /\ Qn k0 - 1 <= d <= Qn k0 /\ 0 <= d /\ 0 <= r <= 100 /\ 0 <= g <= opt_col /\ 0 <= s <= 100
    /\ (budget_balanced (snd a) -> traders == total /\ (0 < opt -> 100 * (1 - 1 / Qn k0) - (1 # 2000) <= s))
    /\ w = false.

Definition size_row_facts (recipe : list nat) (auctions : list auction) (stock : list (list Q)) (N n : nat) (row : size_row) : Prop :=
  sz_possible row = Nat.min n N
  /\ exists part m k k0 opt c c0 g parts,
       taking_part recipe stock N n part /\ market_of part m /\ optimum recipe m k k0 opt
       /\ sz_columns row = ([("optimal_count", c); ("optimal_count_with_gft_zero", c0); ("optimal_gft", g)]%string ++ concat parts)%list
       /\ c == Qn k /\ c0 == Qn k0 /\ within (1 # 200) opt g /\ 0 <= c <= c0 /\ 0 <= g
       /\ length parts = length auctions /\ length (sz_warned row) = length auctions
       /\ forall j a cs w, nth_error auctions j = Some a -> nth_error parts j = Some cs -> nth_error (sz_warned row) j = Some w ->
            auction_part recipe m k0 opt g a cs w.

(** ** C92: the table with repeated iterations and averages over the stocks *)

(** How much an agent of category [i] values the stock: an agent of the first category buys one share of every other agent of
    the deal, an agent of another category sells [recipe[0]] shares. *)
Definition share_value (recipe : list nat) (i : nat) (price v : Q) : Prop :=
  exists z, v = inject_Z z
    /\ truncation (if (i =? 0)%nat then price * Qn (nsum (tl recipe)) else - (price * Qn (hd 0%nat recipe))) z.

(** The market of the first [n * (r_0 + ... + r_k)] prices of the list, in this order. *)
Definition consecutive_market (recipe : list nat) (n : nat) (prices : list Q) (m : market) : Prop :=
  exists (used : list (list Q)) (rest : list Q),
    (concat used ++ rest)%list = prices /\ length used = length recipe /\ length m = length recipe
    /\ forall i r u c, nth_error recipe i = Some r -> nth_error used i = Some u -> nth_error m i = Some c ->
         length u = (n * r)%nat
         /\ exists vs, Forall2 (share_value recipe i) u vs /\ Permutation (cvalues c) vs /\ desc (cvalues c).

(** The names of the columns. *)
Definition column_names (auctions : list auction) : list string :=
  (["optimalcount"; "optimalcountwithgftzero"; "optimalgft"]%string
   ++ flat_map (fun a => [fst a ++ "auctioncount"; fst a ++ "countratio"; fst a ++ "gft"; fst a ++ "gftratio"]%string) auctions)%list.

(** The columns of one iteration. *)
Definition shuffled_part (recipe : list nat) (m : market) (k0 : nat) (opt : Q) (a : auction) (cs : results) : Prop :=
  exists t total traders, snd a m recipe = Ok t /\ gain_from_trade t true = Ok total /\ gain_from_trade t false = Ok traders
    /\ (budget_balanced (snd a) -> traders == total)
    /\ let d := num_of_deals t in
       same_columns cs
         [((fst a ++ "auctioncount")%string, Qn d);
          ((fst a ++ "countratio")%string, if (k0 =? 0)%nat then 0 else percent_of (Qn d) (Qn k0));
          ((fst a ++ "gft")%string, traders);
          ((fst a ++ "gftratio")%string, if Qeq_bool opt 0 then 0 else percent_of traders opt)].

Definition shuffled_columns_of (recipe : list nat) (auctions : list auction) (m : market) (cs : results) : Prop :=
  exists k k0 opt parts, optimum recipe m k k0 opt
    /\ same_columns (firstn 3 cs) [("optimalcount", Qn k); ("optimalcountwithgftzero", Qn k0); ("optimalgft", opt)]%string
    /\ skipn 3 cs = concat parts /\ Forall2 (shuffled_part recipe m k0 opt) auctions parts.

(** Column number [p] of auction number [a]. *)
Definition scol (row : results) (a p : nat) : Q := col row (3 + 4 * a + p).

Definition shuffled_bounds (row : results) (auctions : list auction) : Prop :=
  0 <= col row 0 <= col row 1 /\ 0 <= col row 2
  /\ forall a A, nth_error auctions a = Some A ->
       0 <= scol row a 0 <= col row 1 /\ col row 1 - 1 <= scol row a 0
       /\ 0 <= scol row a 1 <= 100 /\ 0 <= scol row a 2 <= col row 2 /\ 0 <= scol row a 3 <= 100.

(** The documentation's bound on the ratio of the gain. *)
Definition shuffled_guarantee (row : results) (auctions : list auction) : Prop :=
  forall a A, nth_error auctions a = Some A -> budget_balanced (snd A) -> 0 < col row 2 -> 100 * (1 - 1 / col row 1) <= scol row a 3.

Definition scaled (w : Q) (cs : results) : results := map (fun c => (fst c, w * snd c)) cs.

(** The numbers of agents that get a row, if the prices suffice for [cap] deals: the first one, and all that do not exceed [cap]. *)
Definition with_row (cap : nat) (nums : list nat) : list nat :=
  match nums with [] => [] | n :: nums' => n :: filter (fun n => n <=? cap)%nat nums' end.

(** The row of number [n] for stock [i]: the outcome; but only a share 1/its of it if the prices do not suffice. *)
Definition shuffled_row_facts (recipe : list nat) (auctions : list auction) (its i : nat) (prices : list Q) (n : nat) (row : shuffled_row) : Prop :=
  let cap := (length prices / nsum recipe)%nat in
  sh_stock row = Some i /\ sh_possible row = Nat.min n cap
  /\ exists m cs, consecutive_market recipe (Nat.min n cap) prices m /\ shuffled_columns_of recipe auctions m cs
       /\ same_columns (sh_columns row) (scaled (if (n <=? cap)%nat then 1 else 1 / Qn its) cs)
       /\ shuffled_bounds (sh_columns row) auctions
       /\ ((n <= cap)%nat -> shuffled_guarantee (sh_columns row) auctions).

(** A table: the numbers of agents and their rows. *)
Definition table : Type := list (nat * shuffled_row).
Definition rows_for (n : nat) (tables : list table) : list shuffled_row :=
  flat_map (fun t => map snd (filter (fun x => (fst x =? n)%nat) t)) tables.

(** The row of averages for [n]: the sum over the stocks that have a row for [n], divided by the number of all stocks. *)
Definition average_row_facts (auctions : list auction) (tables : list table) (n : nat) (row : shuffled_row) : Prop :=
  sh_stock row = None
  /\ (exists r rs, rows_for n tables = r :: rs /\ sh_possible row = sh_possible r)
  /\ map fst (sh_columns row) = column_names auctions
  /\ forall p label x, nth_error (sh_columns row) p = Some (label, x) ->
       let a := Qsum (map (fun r => col (sh_columns r) p) (rows_for n tables)) / Qn (length tables) in
       ((exists before after, label = (before ++ "ratio" ++ after)%string) -> 0 <= x <= a /\ a < x + (1 # 1000))
       /\ (~ (exists before after, label = (before ++ "ratio" ++ after)%string) -> within (1 # 20) a x).

Definition avoids (word name : string) : Prop := ~ exists before after, name = (before ++ word ++ after)%string.

(** Prices up to [P] keep the values within the auctions' bound. *)
Definition prices_fit (recipe : list nat) (P : Q) : Prop :=
  P * Qn (hd 0%nat recipe) <= 100000000 /\ buyers_fit recipe (P * Qn (nsum (tl recipe)) * Qn (hd 0%nat recipe)).

Definition shuffled_input (recipe : list nat) (auctions : list auction) (its : nat) (nums : list nat) (stocks : list (list Q)) : Prop :=
  good_recipe recipe /\ (0 < its)%nat /\ NoDup nums /\ NoDup (column_names auctions)
  /\ Forall (fun a => meant_for recipe (snd a) /\ avoids "mcafee" (fst a)) auctions
  /\ Forall (fun n => (N.of_nat n <= 2000000)%N) nums
  /\ exists P, 0 <= P /\ Forall (Forall (fun p => 0 <= p <= P)) stocks
       /\ prices_fit recipe P.
