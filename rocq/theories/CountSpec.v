(** Vocabulary of the statements about counting data. *)

From Coq Require Import ZArith List Bool Arith Reals.
From Verif Require Import Exn CountModel.
Import ListNotations.
Open Scope R_scope.

Definition sumR (l : list R) : R := fold_right Rplus 0 l.
(** The sum of f over a, a+1, ..., a+len-1. *)
Definition sum_over (a len : nat) (f : nat -> R) : R := sumR (map f (seq a len)).

(** The Poisson probability of n events when a are expected. *)
Definition poisson (n : nat) (a : R) : R := a ^ n * exp (- a) / INR (fact n).

(** Unnormalised probability that i of the on-source counts are signal. *)
Definition weight (n_on : nat) (t_on : R) (n_off : nat) (t_off : R) (i : nat) : R :=
  (1 + t_off / t_on) ^ i * INR (fact (n_on + n_off - i)) / INR (fact (n_on - i)).

(** The k-th term of the marginal likelihood of the signal rate s, and the
    whole likelihood, the background having been integrated out. *)
Definition lterm (n_on : nat) (t_on : R) (n_off : nat) (t_off s : R) (k : nat) : R :=
  exp (- (s * t_on)) * (s * (t_on + t_off)) ^ k * INR (fact (n_on + n_off - k))
    / (INR (fact (n_on - k)) * INR (fact k)).
Definition likelihood (n_on : nat) (t_on : R) (n_off : nat) (t_off s : R) : R :=
  sum_over 0 (S n_on) (lterm n_on t_on n_off t_off s).

(** G gives the logs of factorials to within delta. *)
Definition log_fact (G : R -> R) (delta : R) : Prop :=
  forall m : nat, Rabs (G (INR m + 1) - ln (INR (fact m))) <= delta.

(** The state of the Poisson routine after some calls, from the start. *)
Fixpoint after (G : R -> R) (calls : list (nat * R)) (s : pois) : pois :=
  match calls with
  | [] => s
  | (n, a) :: calls' => after G calls' (fst (ppois G n a s))
  end.

(** An OnOff object, and calls on it, in any order. *)
Inductive ocall := CallLike (r : rate) | CallMp (r : rate) | CallPn (n : option Z).
Definition ostep (G : R -> R) (c0 : arr) (c : ocall) (w : oworld) : oworld :=
  match c with
  | CallLike _ => w
  | CallMp r => fst (sigmp G c0 r w)
  | CallPn n => fst (pnsig c0 n w)
  end.
Fixpoint used (G : R -> R) (c0 : arr) (l : list ocall) (w : oworld) : oworld :=
  match l with [] => w | c :: l' => used G c0 l' (ostep G c0 c w) end.
(** A new object; the Poisson routine may have been used before. *)
Definition fresh (G : R -> R) (n_on : nat) (t_on : R) (n_off : nat) (t_off cut : R)
  (junk : arr) (earlier : list (nat * R)) : oworld :=
  OWorld (new_onoff G n_on t_on n_off t_off cut) (after G earlier (pois0 junk)).

(** The probability that i counts are signal, and the posterior density of
    the signal rate. *)
Definition prob (n_on : nat) (t_on : R) (n_off : nat) (t_off : R) (i : nat) : R :=
  weight n_on t_on n_off t_off i / sum_over 0 (S n_on) (weight n_on t_on n_off t_off).
Definition density (n_on : nat) (t_on : R) (n_off : nat) (t_off s : R) : R :=
  sum_over 0 (S n_on) (fun i => prob n_on t_on n_off t_off i * t_on * poisson i (s * t_on)).

(** The state of the log Poisson routine after some calls, each finding some
    contents in the memory of b. *)
Fixpoint lafter (G : R -> R) (calls : list (arr * nat * R)) (s : pois) : pois :=
  match calls with
  | [] => s
  | (junk, n, a) :: calls' => lafter G calls' (fst (lppois G junk n a s))
  end.
Definition log_poisson (n : nat) (a : R) : R := INR n * ln a - a - ln (INR (fact n)).

(** A function with the logs of the factorials at the positive integers. *)
Definition exactG (x : R) : R := ln (INR (fact (Z.to_nat (Int_part x) - 1))).
