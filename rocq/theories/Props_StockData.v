(** * C85: the prices read from the stock files *)

From Coq Require Import String List Arith Lia ZArith QArith Lqa Permutation.
From Verif Require Import Base Model_Experiment Model_StockData Spec_StockData Proof_StockData Proof_StockData2 Proof_StockData3 Proof_StockData4.
Import ListNotations.
Open Scope Q_scope.

(** C85.  No category is scarce: with [d] the number of deals for which the file has prices, every category has at least
    [d] times its recipe entry agents, and fewer than [d + 1] times. *)
Theorem C85_sizes : forall f n recipe d, days n f -> recipe <> [] -> Forall (fun r => (0 < r)%nat) recipe ->
  deals_possible n recipe d ->
  exists cats, get_prices f recipe = Ok cats /\
    Forall2 (fun r cat => (r * d <= length cat < r * (d + 1))%nat) recipe cats.
Proof. exact sizes. Qed.
Print Assumptions C85_sizes.

(** C85.  The contents for the special recipes. *)
Theorem C85_special : forall f n, days n f ->
  (exists c0 c1, get_prices f [1; 1]%nat = Ok [c0; c1] /\ in_thousandths (high f ++ close f) c0
     /\ in_thousandths (map Qopp (open_ f ++ low f)) c1)
  /\ (exists c0 c1, get_prices f [2; 1]%nat = Ok [c0; c1] /\ in_thousandths (high f ++ close f) c0
     /\ in_thousandths (map (fun p => - (fst p + snd p)) (combine (open_ f) (low f))) c1)
  /\ (exists c0 c1, get_prices f [1; 2]%nat = Ok [c0; c1]
     /\ in_thousandths (map (fun p => fst p + snd p) (combine (high f) (close f))) c0
     /\ in_thousandths (map Qopp (open_ f ++ low f)) c1)
  /\ (exists c0 c1 c2, get_prices f [2; 1; 1]%nat = Ok [c0; c1; c2] /\ in_thousandths (high f ++ close f) c0
     /\ in_thousandths (map Qopp (open_ f)) c1 /\ in_thousandths (map Qopp (low f)) c2)
  /\ (forall a, exists c0 c1 c2, get_prices f [a; a; a] = Ok [c0; c1; c2]
     /\ in_thousandths (map (fun p => fst p + snd p) (combine (high f) (close f))) c0
     /\ in_thousandths (map Qopp (open_ f)) c1 /\ in_thousandths (map Qopp (low f)) c2).
Proof. exact special_contents. Qed.
Print Assumptions C85_special.

(** C85.  The contents for any other recipe: every high and close price, times the number of sellers in a set, as often as the
    recipe says; and in the seller category [j] the negated prices at the positions [source], as often as the recipe says. *)
Theorem C85_general : forall f n r0 rest, days n f -> ~ special_recipe (r0 :: rest) ->
  exists c0 cs, get_prices f (r0 :: rest) = Ok (c0 :: cs) /\ length cs = length rest
    /\ (exists zs, in_thousandths (map (fun x => x * inject_Z (Z.of_nat (nsum rest))) (high f ++ close f)) zs
          /\ c0 = concat (map (fun z => repeat z r0) zs))
    /\ forall j r, nth_error rest j = Some r -> exists zs,
         in_thousandths (map (fun i => - nth i (open_ f ++ low f) 0) (source (2 * n) (length rest) j)) zs
         /\ nth_error cs j = Some (concat (map (fun z => repeat z r) zs)).
Proof. exact general_contents. Qed.
Print Assumptions C85_general.

(** C85.  When the number of seller categories has no common factor with the number of sellers, every seller category
    gets every seller exactly as often as the recipe says. *)
Theorem C85_coprime : forall f n r0 rest cats j r cat, days n f -> ~ special_recipe (r0 :: rest) ->
  Nat.gcd (length rest) (2 * n) = 1%nat -> get_prices f (r0 :: rest) = Ok cats ->
  nth_error rest j = Some r -> nth_error cats (S j) = Some cat ->
  exists zs, in_thousandths (map Qopp (open_ f ++ low f)) zs /\ Permutation cat (concat (map (fun z => repeat z r) zs)).
Proof. exact coprime_contents. Qed.
Print Assumptions C85_coprime.

(** C85.  With a common factor [g], seller category [j] only gets sellers whose position is [j] modulo [g]: the categories
    do not share sellers.  (For every recipe with an even number of seller categories, [g = 2] qualifies.) *)
Theorem C85_residue : forall f n r0 rest cats j cat z g, days n f -> ~ special_recipe (r0 :: rest) ->
  Nat.divide g (length rest) -> Nat.divide g (2 * n) -> get_prices f (r0 :: rest) = Ok cats ->
  nth_error cats (S j) = Some cat -> In z cat ->
  exists i x, nth_error (open_ f ++ low f) i = Some x /\ (i mod g = j mod g)%nat /\ thousandth (- x) z.
Proof. exact residue_contents. Qed.
Print Assumptions C85_residue.

(** C85.  Over all seller categories together, every seller is used equally often ([r0 : r : ... : r], [k] times [r]). *)
Theorem C85_all_sellers : forall f n r0 r k cats, days n f -> ~ special_recipe (r0 :: repeat r k) ->
  get_prices f (r0 :: repeat r k) = Ok cats ->
  exists zs, in_thousandths (map Qopp (open_ f ++ low f)) zs
    /\ Permutation (concat (tl cats)) (concat (repeat (concat (map (fun z => repeat z r) zs)) k)).
Proof. exact all_contents. Qed.
Print Assumptions C85_all_sellers.

(** C85.  Buyers have values of at least 0 and sellers of at most 0, when no price is negative. *)
Theorem C85_signs : forall f n recipe cats j cat z, days n f -> Forall (fun x => 0 <= x) (high f ++ close f ++ open_ f ++ low f) ->
  get_prices f recipe = Ok cats -> nth_error cats j = Some cat -> In z cat ->
  (j = 0%nat -> (0 <= z)%Z) /\ (j <> 0%nat -> (z <= 0)%Z).
Proof. exact signs. Qed.
Print Assumptions C85_signs.

(** C85.  A stock whose price never moves gives every procurement-set the value 0 in the special recipes; for the other
    recipes the value is [(r0 - 1) * S * P]: 0 only if there is one buyer in a set. *)
Theorem C85_balance : forall f n recipe cats vs p P, days n f -> constant_price p f -> p * 1000 == inject_Z P ->
  get_prices f recipe = Ok cats -> one_each cats vs ->
  (special_recipe recipe -> set_value recipe vs = 0%Z)
  /\ (forall r0 rest, recipe = r0 :: rest -> ~ special_recipe recipe ->
        set_value recipe vs = ((Z.of_nat r0 - 1) * Z.of_nat (nsum rest) * P)%Z).
Proof. exact balance. Qed.
Print Assumptions C85_balance.

(** C85.  An empty recipe is an error. *)
Theorem C85_empty : forall f, get_prices f [] = Raise IndexError.
Proof. reflexivity. Qed.
Print Assumptions C85_empty.

(** C85.  The shuffled prices of a stock are the thousandths of all its prices, in some order, and the name alone decides:
    whatever file and shuffle a later call with the same name has, it returns the same list. *)
Theorem C85_shuffled : forall s1 s2 cache f name, (forall l, Permutation l (s1 l)) -> (forall l, Permutation l (s2 l)) ->
  lookup name cache = None ->
  let r := get_all_prices_shuffled s1 s2 cache f name in
  (exists zs, in_thousandths (high f ++ close f ++ open_ f ++ low f) zs /\ Permutation (fst r) zs)
  /\ forall s1' s2' f', fst (get_all_prices_shuffled s1' s2' (snd r) f' name) = fst r.
Proof. exact shuffled_contents. Qed.
Print Assumptions C85_shuffled.

(** ** Cases *)
Definition flat : stock_file := mkSF [1; 1] [1; 1] [1; 1] [1; 1].
Definition two_days : stock_file := mkSF [12; 14] [11; 13] [10; 12] [(19 # 2); 11].

Example C85_sizes_case : deals_possible 2 [3; 2; 1]%nat 4 /\ deals_possible 2 [2; 2; 2]%nat 1 /\ days 2 two_days.
Proof.
  split; [right; right; right; split; [intros [?|[?|[?|[?|[a ?]]]]]; congruence|reflexivity]|].
  split; [right; right; left; exists 2%nat; split; [reflexivity|lia]|]. repeat split.
Qed.
Example C85_general_case : get_prices two_days [1; 1; 2]%nat
  = Ok [[36000; 42000; 33000; 39000]%Z; [-10000; -9500; -10000; -9500]%Z;
        [-12000; -12000; -11000; -11000; -12000; -12000; -11000; -11000]%Z].
Proof. vm_compute. reflexivity. Qed.
Example C85_coprime_case : Nat.gcd 3 (2 * 2) = 1%nat /\ get_prices two_days [1; 1; 1; 1]%nat
  = Ok [[36000; 42000; 33000; 39000]%Z; [-10000; -11000; -9500; -12000]%Z; [-12000; -10000; -11000; -9500]%Z;
        [-9500; -12000; -10000; -11000]%Z].
Proof. split; vm_compute; reflexivity. Qed.

(** A flat stock is not balanced for [2 : 2]: every set has a positive value. *)
Theorem C85_balance_refuted : exists cats vs, get_prices flat [2; 2]%nat = Ok cats /\ one_each cats vs /\ constant_price 1 flat
  /\ (set_value [2; 2]%nat vs > 0)%Z.
Proof.
  eexists. exists [2000; -1000]%Z. split; [vm_compute; reflexivity|]. split; [repeat constructor|]. split.
  - repeat constructor.
  - vm_compute. reflexivity.
Qed.
Print Assumptions C85_balance_refuted.

(** With [1 : 1 : 2], the two seller categories have no price in common although all prices of the file are different. *)
Theorem C85_coprime_refuted : exists cats c1 c2, get_prices two_days [1; 1; 2]%nat = Ok cats /\ nth_error cats 1 = Some c1
  /\ nth_error cats 2 = Some c2 /\ forall z, In z c1 -> ~ In z c2.
Proof.
  eexists. eexists. eexists. split; [vm_compute; reflexivity|]. split; [reflexivity|]. split; [reflexivity|].
  intros z H H'. simpl in H, H'. intuition lia.
Qed.
Print Assumptions C85_coprime_refuted.
