(** Vocabulary for the properties of piecewise linear densities. *)

From Coq Require Import ZArith List Bool Arith Reals Sorting.Sorted.
From Coquelicot Require Import Coquelicot.
From Verif Require Import Exn CountSpec McModel McSpec PwlModel.
Import ListNotations.
Open Scope R_scope.

Section Values.
Variables (logvals : bool) (cut : R) (vals : list R).
(** The density at point k, from a value or its logarithm. *)
Definition dens (k : nat) : R := if logvals then exp (nth k vals 0) else nth k vals 0.
(** The largest density. *)
Definition peak : R := fold_right Rmax 0 (map dens (seq 0 (length vals))).
(** Above the cutoff. *)
Definition big (k : nat) : Prop := (k < length vals)%nat /\ cut * peak < dens k.
(** With logarithms, densities that are not above the cutoff count as 0. *)
Definition shown (k : nat) : R := if logvals then (if Rlt_dec (cut * peak) (dens k) then dens k else 0) else dens k.
(** The area below the line over the interval from point j to the next. *)
Definition area (absc : list R) (j : nat) : R := (shown j + shown (j + 1)) / 2 * (nth (j + 1) absc 0 - nth j absc 0).
(** The intervals with an end above the cutoff, in order. *)
Definition above (k : nat) : bool := if Rlt_dec (cut * peak) (dens k) then true else false.
Definition intervals : list nat := filter (fun j => above j || above (j + 1)%nat) (seq 0 (length vals - 1)).
Definition total (absc : list R) : R := sumR (map (area absc) intervals).
Definition values_ok : Prop := (2 <= length vals)%nat /\ 0 <= cut < 1 /\
  (logvals = false -> List.Forall (fun v => 0 <= v) vals /\ List.Exists (fun v => 0 < v) vals).
End Values.

(** The abscissas meant. *)
Definition places (d : domain) (n : nat) : list R :=
  match d with
  | Ends lo hi => map (fun i => lo + (hi - lo) * INR i / INR (n - 1)) (seq 0 n)
  | Points a => a
  | Missing => []
  end.
Definition domain_ok (d : domain) (n : nat) : Prop :=
  match d with
  | Ends lo hi => lo < hi
  | Points a => length a = n /\ forall i, (i + 1 < n)%nat -> nth i a 0 < nth (i + 1) a 0
  | Missing => False
  end.

(** Index ranges in increasing order that overlap in end points at most. *)
Inductive in_turn : nat -> list (nat * nat) -> Prop :=
| in_turn_nil : forall b, in_turn b []
| in_turn_cons : forall b lo hi rs, (b <= lo < hi)%nat -> in_turn hi rs -> in_turn b ((lo, hi) :: rs).

(** The straight line through (a,p) and (b,q). *)
Definition line (a b p q x : R) : R := p + (q - p) * (x - a) / (b - a).
Definition between (a : list R) (j : nat) (x : R) : Prop := nth j a 0 <= x <= nth (j + 1) a 0.

(** The height over interval j of the lines between the values, normalised. *)
Definition height (logvals : bool) (cut : R) (vals absc : list R) (j : nat) (x : R) : R :=
  line (nth j absc 0) (nth (j + 1) absc 0) (shown logvals cut vals j) (shown logvals cut vals (j + 1)) x / total logvals cut vals absc.
(** The normalised piecewise linear density. *)
Definition density (logvals : bool) (cut : R) (vals absc : list R) (x : R) : R :=
  sumR (map (fun j => if Rle_dec (nth j absc 0) x then if Rlt_dec x (nth (j + 1) absc 0) then height logvals cut vals absc j x else 0 else 0)
            (intervals logvals cut vals)).

(** Sample x comes from interval j and the number u: up to x is the fraction u of
    the area below the line. *)
Definition fits (logvals : bool) (cut : R) (vals absc : list R) (j : nat) (u x : R) : Prop :=
  In j (intervals logvals cut vals) /\ between absc j x /\
  is_RInt (fun t => line (nth j absc 0) (nth (j + 1) absc 0) (shown logvals cut vals j) (shown logvals cut vals (j + 1)) t) (nth j absc 0) x (u * area logvals cut vals absc j).
(** The number returned, or 0. *)
Definition read (r : res R) : R := match r with Ok v => v | Err _ => 0 end.

(** The chance that the sample is at most y: the interval is taken with its
    weight, then u is uniform between 0 and 1. *)
Definition chance (p : pwl) (y : R) : R :=
  sum_over 0 (length (w_wts p)) (fun i => nth i (w_wts p) 0 *
    mean 1 (fun us => if Rle_dec (invert (nth i (w_intvls p) (0, 0)) (nth i (w_pdf p) (0, 0)) (nth 0 us 0)) y then 1 else 0)).

(** A density object in use: its population is as new, or has been sampled. *)
Definition in_use (d : domain) (vals : list R) (logvals : bool) (cut : R) (p : pwl) (o : @popn nat) : Prop :=
  exists o0, new_pwl d vals SLin logvals cut = Ok (p, o0) /\ usable o /\ o_items o = o_items o0 /\ o_weights o = o_weights o0.
