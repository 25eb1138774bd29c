(** Trapezoids and Romberg's table. *)

From Coq Require Import List Arith Reals.
From Verif Require Import RgSpec.
Import ListNotations.
Open Scope R_scope.

(** The trapezoidal rule with n intervals *)
Definition trapezoids (f : R -> R) (a b : R) (n : nat) : R :=
  (b - a) / INR n * ((f a + f b) / 2 + Sum (fun k => f (a + INR k * ((b - a) / INR n))) (seq 1 (n - 1))).
(** Column m of row n of the table *)
Fixpoint table (f : R -> R) (a b : R) (m n : nat) : R :=
  match m with
  | O => trapezoids f a b (2 ^ n)
  | S m' => table f a b m' n + (table f a b m' n - table f a b m' (n - 1)) / (4 ^ m - 1)
  end.
