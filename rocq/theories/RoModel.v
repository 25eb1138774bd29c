(** Model of sandbox/integrate/romberg.py.

    Floats are real numbers.  Printing is left out, as is the integral at the end of
    the file. *)

From Coq Require Import List Bool Arith Reals.
From Verif Require Import Instances.
Import ListNotations.
Open Scope R_scope.

(** romberg.py:15-16: the entries of a row after the first, from the one before and
    the row above *)
Fixpoint extrapolate (m : nat) (left : R) (above : list R) : list R :=
  match above with
  | [] => []
  | p :: above => let v := left + (left - p) / (4 ^ m - 1) in v :: extrapolate (S m) v above
  end.
(** romberg.py:11-16: row n from the row above *)
Definition next_row (f : R -> R) (a b : R) (n : nat) (above : list R) : list R :=
  let h := (b - a) / 2 ^ n in
  let first := (1 / 2) * nth 0 above 0 + h * fold_left (fun s k => s + f (a + (2 * INR k - 1) * h)) (seq 1 (2 ^ (n - 1))) 0 in
  first :: extrapolate 1 first above.
(** romberg.py:10-20: the loop; None when the fuel runs out *)
Fixpoint romberg_loop (fuel : nat) (f : R -> R) (a b eps : R) (n : nat) (above : list R) : option R :=
  match fuel with
  | O => None
  | S fuel =>
      let row := next_row f a b n above in
      if Rltb (Rabs (nth (n - 1) row 0 - nth n row 0)) eps then Some (nth n row 0)
      else romberg_loop fuel f a b eps (S n) row
  end.
(** romberg.py:4-20, romberg *)
Definition romberg (fuel : nat) (f : R -> R) (a b eps : R) : option R :=
  romberg_loop fuel f a b eps 1 [(1 / 2) * (b - a) * (f a + f b)].
