(** Model of sandbox/integrate/rombint.m.

    Floats are real numbers; decdigs is a natural number.  Arguments after decdigs are
    part of the function.  An index out of bounds is None. *)

From Coq Require Import List Bool Arith Reals.
From Verif Require Import Instances.
Import ListNotations.
Open Scope R_scope.

(** rombint.m:35-37: the entries of a row after the first; rom(1,k) are the row above *)
Fixpoint rom_row (k : nat) (left : R) (above : list R) : list R :=
  match above with
  | [] => []
  | p :: above => let v := ((4 ^ k) * left - p) / ((4 ^ k) - 1) in v :: rom_row (S k) v above
  end.
(** MATLAB's x(first:step:last) for step > 0, indices from 1 *)
Definition every (x : list R) (first step last : nat) : list R :=
  if last <? first then [] else map (fun j => nth (first + j * step - 1) x 0) (seq 0 ((last - first) / step + 1)).
(** rombint.m:32-40: iterations i to i + n - 1 *)
Fixpoint rombint_loop (n : nat) (decdigs : nat) (romall : list R) (i : nat) (h : R) (rom : list R) : list R :=
  match n with
  | O => rom
  | S n =>
      let st := (2 ^ (decdigs - i + 1))%nat in
      let first := (nth 0 rom 0 + h * fold_left Rplus (every romall (st / 2 + 1) st (2 ^ (decdigs - 1))) 0) / 2 in
      rombint_loop n decdigs romall (S i) (h / 2) (first :: rom_row 1 first rom)
  end.
(** rombint.m:1-42, rombint.  For a = b the range a:0:b of line 29 is empty, and
    romall(1) is out of bounds; so is rom(1,0). *)
Definition rombint (f : R -> R) (a b : R) (decdigs : nat) : option R :=
  if Reqb a b then None else
  match decdigs with
  | O => None
  | S d =>
      let romall := map (fun k => f (a + INR k * ((b - a) / 2 ^ d))) (seq 0 (2 ^ d + 1)) in
      let h := b - a in
      let rom := [h * (nth 0 romall 0 + last romall 0) / 2] in
      nth_error (rombint_loop d decdigs romall 2 h rom) d
  end.
