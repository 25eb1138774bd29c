(** Vocabulary of the statements about searches, steppers and sums of logs. *)

From Coq Require Import ZArith List Bool Arith Reals.
From Verif Require Import MinModel.
Import ListNotations.
Open Scope R_scope.

(** x lies in the closed interval with ends a and b, in either order. *)
Definition inside (a b x : R) : Prop := Rmin a b <= x <= Rmax a b.

(** The values stored in a bracket are those of the function. *)
Definition held (f : R -> R) (b : brak) : Prop :=
  b_f1 b = f (b_x1 b) /\ b_fm b = f (b_xm b) /\ b_f2 b = f (b_x2 b).

(** Strictly decreasing up to m, strictly increasing from m on. *)
Definition unimodal (f : R -> R) (m : R) : Prop :=
  (forall x y, x < y <= m -> f y < f x) /\ (forall x y, m <= x < y -> f x < f y).

(** What is given to a summer: the log of a positive number, or zero. *)
Inductive entry := Log (v : R) | Zero.
(** What each entry stands for, and its square. *)
Definition amount (e : entry) : R := match e with Log v => exp v | Zero => 0 end.
Fixpoint total (l : list entry) : R := match l with [] => 0 | e :: l' => amount e + total l' end.
Fixpoint total_sq (l : list entry) : R := match l with [] => 0 | e :: l' => amount e ^ 2 + total_sq l' end.
(** How many are not zero. *)
Fixpoint positive (l : list entry) : nat :=
  match l with [] => 0%nat | Log _ :: l' => S (positive l') | Zero :: l' => positive l' end.

(** Entries given one after another to a summer. *)
Definition give (e : entry) (s : summer) : summer := match e with Log v => s_add v s | Zero => s_add_zero s end.
Fixpoint feed (l : list entry) (s : summer) : summer :=
  match l with [] => s | e :: l' => feed l' (give e s) end.

(** What a stored log stands for; nothing stored is a sum of zero. *)
Definition meant (l : option R) : R := match l with None => 0 | Some v => exp v end.

(** The interval after k widenings, each at the end where the function is
    smaller in size, by [expand] times the length of the interval. *)
Fixpoint widened (f : R -> R) (expand : R) (k : nat) (ab : R * R) : R * R :=
  match k with
  | O => ab
  | S k' =>
      let '(a, b) := widened f expand k' ab in
      if Rlt_dec (Rabs (f a)) (Rabs (f b)) then (a + expand * (a - b), b) else (a, b + expand * (b - a))
  end.
Definition opposite (f : R -> R) (ab : R * R) : Prop := f (fst ab) * f (snd ab) < 0.
