(** The product-limit (Kaplan-Meier) estimate of a distribution from values,
    some of which are only lower limits. *)

From Coq Require Import List Bool Arith ZArith Reals.
Import ListNotations.
Open Scope R_scope.

Definition Rle_b (a b : R) : bool := if Rle_dec a b then true else false.
Definition Rlt_b (a b : R) : bool := if Rlt_dec a b then true else false.
Definition Req_b (a b : R) : bool := if Req_EM_T a b then true else false.
Definition total (l : list R) : R := fold_right Rplus 0 l.
Definition product (l : list R) : R := fold_right Rmult 1 l.

Section Estimate.
(** The detected values and the lower limits *)
Variables found limits : list R.
Definition data : list R := found ++ limits.
(** Limits that no value exceeds are taken for detections. *)
Definition topmost (c : R) : bool := forallb (fun y => Rle_b y c) data.
Definition events : list R := found ++ filter topmost limits.
(** The points where the estimate has probability *)
Definition points : list R := nodup Req_EM_T events.
(** How many values are at least t, and how many of them are events at t *)
Definition at_risk (t : R) : R := INR (length (filter (fun y => Rle_b t y) data)).
Definition dead (t : R) : R := INR (length (filter (fun y => Req_b y t) events)).
(** The probability of values greater than t, and of values not less than t *)
Definition survival (t : R) : R := product (map (fun u => 1 - dead u / at_risk u) (filter (fun u => Rle_b u t) points)).
Definition survival_before (t : R) : R := product (map (fun u => 1 - dead u / at_risk u) (filter (fun u => Rlt_b u t) points)).
(** Greenwood's formula for its error *)
Definition greenwood (t : R) : R :=
  survival t * sqrt (total (map (fun u => dead u / (at_risk u * (at_risk u - dead u))) (filter (fun u => Rle_b u t) points))).
(** The probability of the value u *)
Definition prob (u : R) : R := survival_before u * (dead u / at_risk u).
(** The probability of values less than t, and the error of it *)
Definition below (t : R) : R := total (map prob (filter (fun u => Rlt_b u t) points)).
Definition greenwood_before (t : R) : R :=
  survival_before t * sqrt (total (map (fun u => dead u / (at_risk u * (at_risk u - dead u))) (filter (fun u => Rlt_b u t) points))).
Definition mean : R := total (map (fun u => u * prob u) points).
(** The expectation of the excess over t, and the variance of the mean *)
Definition excess (t : R) : R := total (map (fun v => Rmax (v - t) 0 * prob v) points).
Definition mean_var : R := total (map (fun u => excess u ^ 2 * dead u / (at_risk u * (at_risk u - dead u))) points).
End Estimate.

(** The increasing sequence of points of a set *)
Definition lists_all (l : list R) (z : nat -> R) (n : nat) : Prop :=
  (forall i, (1 <= i < n)%nat -> z i < z (i + 1)%nat) /\
  (forall t, In t l <-> exists i, (1 <= i <= n)%nat /\ z i = t).

(** The values with a mark of 0, and the others *)
Definition kept (b : bool) (ind : list Z) (x : list R) : list R :=
  map snd (filter (fun p => Bool.eqb (Z.eqb (fst p) 0) b) (combine ind x)).

(** The numbers from 1 to n for which z is in the interval from a to b *)
Definition within (z : nat -> R) (a b : R) (n : nat) : list nat := filter (fun k => Rle_b a (z k) && Rlt_b (z k) b) (seq 1 n).

(** The point (x, y) is on the line through two points *)
Definition on_line (x0 y0 x1 y1 x y : R) : Prop := (x - x0) * (y1 - y0) = (y - y0) * (x1 - x0).
(** The broken line from (0, 1) through the points (u 1, s 1) to (u n, s n) has
    the height ty at x. *)
Definition crossing (u s : nat -> R) (n : nat) (ty x : R) : Prop :=
  s 1%nat < ty /\ on_line 0 1 (u 1%nat) (s 1%nat) x ty \/
  exists k, (1 <= k < n)%nat /\ s (k + 1)%nat <= ty <= s k /\ on_line (u k) (s k) (u (k + 1)%nat) (s (k + 1)%nat) x ty.
