(** Romberg's table with given factors. *)

From Coq Require Import List Arith Reals.
From Verif Require Import RgSpec RoSpec.
Import ListNotations.
Open Scope R_scope.

(** Column m of row n, with the factors r in place of 1 / (4^m - 1) *)
Fixpoint table_with (r : nat -> R) (f : R -> R) (a b : R) (m n : nat) : R :=
  match m with
  | O => trapezoids f a b (2 ^ n)
  | S m' => table_with r f a b m' n + r m * (table_with r f a b m' n - table_with r f a b m' (n - 1))
  end.
