(** Vocabulary for the properties of the sampling code. *)

From Coq Require Import ZArith List Bool Arith Reals Sorting.Sorted Sorting.Permutation.
From Coquelicot Require Import Coquelicot.
From Verif Require Import Exn CountSpec McModel.
Import ListNotations.
Open Scope R_scope.

(** ** Random words *)

(** A state of the generator: 624 words of 32 bits and a position. *)
Definition good (g : rk) : Prop :=
  length (rk_key g) = 624%nat /\ List.Forall (fun k => (0 <= k < 2 ^ 32)%Z) (rk_key g) /\ (0 <= rk_pos g <= 624)%Z.

(** [ys] are the next numbers from the generator; it ends in state g'. *)
Inductive outputs : rk -> list Z -> rk -> Prop :=
| outputs_nil : forall g, outputs g [] g
| outputs_cons : forall g y g1 ys g2, rk_random g = (g1, Ok y) -> outputs g1 ys g2 -> outputs g (y :: ys) g2.

(** The Mersenne Twister MT19937 of Matsumoto and Nishimura: the recurrence on
    the words and the transformation of a word into a random number. *)
Definition twisted (x : nat -> Z) : Prop :=
  forall k, x (k + 624)%nat =
    let y := (2 ^ 31 * (x k / 2 ^ 31) + x (k + 1)%nat mod 2 ^ 31)%Z in
    Z.lxor (x (k + 397)%nat) (Z.lxor (y / 2) (if Z.odd y then 2567483615 else 0))%Z.
Definition tempered (x : Z) : Z :=
  let y := Z.lxor x (x / 2 ^ 11)%Z in
  let y := Z.lxor y (Z.land (y * 2 ^ 7) 2636928640)%Z in
  let y := Z.lxor y (Z.land (y * 2 ^ 15) 4022730752)%Z in
  Z.lxor y (y / 2 ^ 18)%Z.

(** Two words make a number of 64 bits, the first one on top. *)
Inductive longs (wide : bool) : list Z -> list Z -> Prop :=
| longs_nil : longs wide [] []
| longs_one : forall y ys ls, wide = false -> longs wide ys ls -> longs wide (y :: ys) (y :: ls)
| longs_two : forall a b ys ls, wide = true -> longs wide ys ls -> longs wide (a :: b :: ys) ((2 ^ 32 * a + b)%Z :: ls).

(** ** The table sampler *)

(** [words i] lists the 30-bit numbers that stand for item i. *)
Definition stands_for (words : nat -> list Z) (y : Z) (i : nat) : Prop := In (y / 4)%Z (words i).
(** The items that a sequence of random numbers stands for; numbers that stand
    for none are passed over. *)
Inductive stand_for (words : nat -> list Z) : list Z -> list nat -> Prop :=
| stand_nil : stand_for words [] []
| stand_take : forall y ys i out, stands_for words y i -> stand_for words ys out -> stand_for words (y :: ys) (i :: out)
| stand_skip : forall y ys out, (forall i, ~ stands_for words y i) -> stand_for words ys out -> stand_for words (y :: ys) out.

(** ** Populations *)

Definition weights_ok (w : list R) : Prop := List.Forall (fun x => 0 <= x) w /\ 0 < sumR w.
(** numpy's argsort: a permutation of the positions, in increasing order. *)
Definition sorts (argsort : list R -> list nat) : Prop :=
  forall w, Permutation (argsort w) (seq 0 (length w)) /\ Sorted (fun i j => nth i w 0 <= nth j w 0) (argsort w).
(** rand() of the C library with RAND_MAX + 1 = m. *)
Definition rand_below {C} (rand : C -> C * Z) (m : Z) : Prop := forall c, (0 <= snd (rand c) < m)%Z.
(** [rs] are the next numbers from rand(). *)
Inductive rands {C} (rand : C -> C * Z) : C -> list Z -> C -> Prop :=
| rands_nil : forall c, rands rand c [] c
| rands_cons : forall c r c1 rs c2, rand c = (c1, r) -> rands rand c1 rs c2 -> rands rand c (r :: rs) c2.

(** Sampling without replacement prepared for weights w and sample size n, as
    subset_pps does it: p is the sampler afterwards, idx the order. *)
Definition prepared (argsort : list R -> list nat) (wide : bool) (w : list R) (n : nat) (p : pps) (idx : list Z) : Prop :=
  exists p0 p1 sorted tot cum,
    new_pps w = Ok p0 /\ prepwts argsort wide p0 w = Ok (p1, (idx, sorted, tot)) /\ prepratios p1 n sorted tot = Ok (p, cum).
(** population.py:126: the items at the sampled positions. *)
Definition members (idx : list Z) (sample : list nat) : list Z := map (fun i => nth i idx (-1)%Z) sample.

(** n different items of the population, none of zero weight. *)
Definition right_sample (w : list R) (n : nat) (xs : list Z) : Prop :=
  length xs = n /\ NoDup xs /\ List.Forall (fun x => (0 <= x < Z.of_nat (length w))%Z /\ 0 < nth (Z.to_nat x) w 0) xs.

(** The picks that choose without replacement: the k-th is one of the n - k
    that are left. *)
Fixpoint picks_ok (n : nat) (picks : list nat) : Prop :=
  match picks with [] => True | q :: picks' => (q < n)%nat /\ picks_ok (n - 1) picks' end.
(** The pick made from r out of m by one of n. *)
Fixpoint picks_from (m : Z) (n : nat) (rs : list Z) : list nat :=
  match rs with [] => [] | r :: rs' => Z.to_nat (Z.of_nat n * r / m) :: picks_from m (n - 1) rs' end.
(** Ordered selections of k out of n. *)
Definition selection (n k : nat) (ps : list nat) : Prop := length ps = k /\ NoDup ps /\ List.Forall (fun q => (q < n)%nat) ps.

(** ** Exact uniform randomness *)

(** The mean of f over k independent numbers, each uniform between 0 and 1. *)
Fixpoint mean (k : nat) (f : list R -> R) : R :=
  match k with O => f [] | S k' => RInt (fun u => mean k' (fun us => f (u :: us))) 0 1 end.
(** Take the next number from a list. *)
Definition tape : list R -> list R * res R := fun us =>
  match us with [] => ([], Err OutOfFuel) | u :: us' => (us', Ok u) end.
(** 1 if the run gave a sample with item x, else 0. *)
Definition includes (idx : list Z) (x : nat) (r : res (nat * list nat)) : R :=
  match r with
  | Ok (_, sample) => if existsb (Z.eqb (Z.of_nat x)) (members idx sample) then 1 else 0
  | Err _ => 0
  end.
Definition returns (r : res (nat * list nat)) : R := match r with Ok _ => 1 | Err _ => 0 end.
(** Sampling from uniform numbers, in at most t tries of n numbers each. *)
Definition trial (p : pps) (t : nat) (us : list R) : res (nat * list nat) := snd (samplenr_from (list R) tape tape t p us).

(** ** Population objects *)

(** An object as made from items and weights, possibly used before. *)
Definition usable {A} (o : @popn A) : Prop :=
  o_equi o = false /\ weights_ok (o_weights o) /\ length (o_items o) = length (o_weights o) /\ (Z.of_nat (length (o_weights o)) <= 2 ^ 30)%Z /\
  match o_sampler o with None => True | Some p => new_pps (o_weights o) = Ok p end.
