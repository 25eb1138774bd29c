(** Vocabulary of the statements about highest density regions. *)

From Coq Require Import ZArith String List Bool Arith Reals.
From Coquelicot Require Import Coquelicot.
From Verif Require Import Exn MinModel MinSpec HpdModel.
Import ListNotations.
Open Scope R_scope.

(** The straight line with value a at 0 and b at 1. *)
Definition line (a b t : R) : R := a + t * (b - a).
(** The area under it over the part of [0,1] where it is above c. *)
Definition above (a b c : R) : R :=
  RInt (fun t => if Rlt_dec c (line a b t) then line a b t else 0) 0 1.
(** The same for the function interpolating values at 0, 1, 2, ... *)
Fixpoint region (l : list R) (c : R) : R :=
  match l with a :: ((b :: _) as l') => above a b c + region l' c | _ => 0 end.
Fixpoint area (l : list R) : R :=
  match l with a :: ((b :: _) as l') => RInt (line a b) 0 1 + area l' | _ => 0 end.
(** Two dimensions: areas along each row, interpolated across rows. *)
Definition region2 (rows : list (list R)) (c : R) : R := area (map (fun r => region r c) rows).
Definition area2 (rows : list (list R)) : R := area (map area rows).

(** No two neighbours both have the smallest value. *)
Definition no_flat_floor (all l : list R) : Prop :=
  forall i, (S i < length l)%nat -> nth i l 0 = nth (S i) l 0 -> exists x, In x all /\ x < nth i l 0.

Definition level_floor2 (rows : list (list R)) : Prop := forall r, In r rows -> no_flat_floor (List.concat rows) r.

(** The density a grid stands for: that of x, or of log x. *)
Fixpoint dens (lin : bool) (logpdf xs : list R) : list R :=
  match logpdf, xs with
  | v :: logpdf', x :: xs' => (if lin then exp v else x * exp v) :: dens lin logpdf' xs'
  | _, _ => []
  end.
Definition density1 (h : hpd1) : list R := dens (h_lin h) (h_logpdf h) (h_xvals h).
(** Its level a given log ratio below the largest value of the array. *)
Definition level1 (h : hpd1) (logratio : R) : R := exp (h_max h + logratio).
Fixpoint dens2 (xlin ylin : bool) (logpdf : list (list R)) (xs ys : list R) : list (list R) :=
  match logpdf, xs with
  | r :: logpdf', x :: xs' =>
      map (fun d => if xlin then d else x * d) (dens ylin r ys) :: dens2 xlin ylin logpdf' xs' ys
  | _, _ => []
  end.
Definition density2 (h : hpd2) : list (list R) := dens2 (d_xlin h) (d_ylin h) (d_logpdf h) (d_xvals h) (d_yvals h).
Definition level2 (h : hpd2) (logratio : R) : R := exp (d_max h + logratio).

(** The fraction of the area where the density is above that level. *)
Definition frac_of1 (h : hpd1) (lr : R) : R := region (density1 h) (level1 h lr) / area (density1 h).
Definition frac_of2 (h : hpd2) (lr : R) : R := region2 (density2 h) (level2 h lr) / area2 (density2 h).

(** Objects made by a constructor on a proper range. *)
Definition range_ok (step : string) (lo hi : R) : Prop := lo < hi /\ (step_kind step = Ok false -> 0 < lo).
Inductive made1 : hpd1 -> Prop :=
| made1_array logpdf xlo xhi step h : range_ok step xlo xhi ->
    new_hpd1 logpdf xlo xhi step = Ok h -> made1 h
| made1_function log_pdf xlo xhi nx step h : range_ok step xlo xhi ->
    new_hpdgrid1 log_pdf xlo xhi nx step = Ok h -> made1 h.
(** Rows all of the same length. *)
Definition rectangular (rows : list (list R)) : Prop := forall r, In r rows -> length r = length (hd [] rows).
Inductive made2 : hpd2 -> Prop :=
| made2_array logpdf xlo xhi ylo yhi xstep ystep h : range_ok xstep xlo xhi -> range_ok ystep ylo yhi ->
    rectangular logpdf -> new_hpd2 logpdf xlo xhi ylo yhi xstep ystep = Ok h -> made2 h
| made2_function log_pdf xlo xhi nx ylo yhi ny xstep ystep h : range_ok xstep xlo xhi -> range_ok ystep ylo yhi ->
    new_hpdgrid2 log_pdf xlo xhi nx ylo yhi ny xstep ystep = Ok h -> made2 h.

Definition sorted (xs : list R) : Prop := forall i, (S i < length xs)%nat -> nth i xs 0 < nth (S i) xs 0.
(** Cell i of a grid straddles c. *)
Definition straddles (ys : list R) (c : R) (i : nat) : Prop :=
  (S i < length ys)%nat /\ (nth i ys 0 < c < nth (S i) ys 0 \/ nth (S i) ys 0 < c < nth i ys 0).
(** v is where the line through the ends of cell i has the value c. *)
Definition crosses (xs ys : list R) (c : R) (i : nat) (v : R) : Prop :=
  straddles ys c i /\ nth i xs 0 < v < nth (S i) xs 0 /\
  nth i ys 0 + (v - nth i xs 0) / (nth (S i) xs 0 - nth i xs 0) * (nth (S i) ys 0 - nth i ys 0) = c.
Fixpoint increasing (l : list R) : Prop :=
  match l with a :: ((b :: _) as l') => a < b /\ increasing l' | _ => True end.
(** cs lists the crossings, one for each cell that straddles c, in order. *)
Definition lists_crossings (xs ys : list R) (c : R) (cs : list R) : Prop :=
  increasing cs /\ forall v, In v cs <-> exists i, crosses xs ys c i v.

(** Some level is crossed more than ten times. *)
Definition crowded (h : hpd1) : Prop := exists r cs,
  lists_crossings (h_xvals h) (map (fun v => v - h_max h) (h_logpdf h)) r cs /\ (10 < length cs)%nat.

(** What is assumed of brentq: for a function with values of opposite signs
    at the ends it returns a point with a change of sign within the
    tolerance, all inside the interval, or gives up with a RuntimeError. *)
Definition rtol : R := 9 / 10 ^ 16.
Definition root_search (brentq : (R -> R) -> R -> R -> R -> res R) : Prop :=
  forall f a b tol, 0 < tol -> f a * f b < 0 ->
  match brentq f a b tol with
  | Ok r => exists v, inside a b r /\ inside a b v /\ Rabs (v - r) <= tol + rtol * Rabs r /\ f r * f v <= 0
  | Err e => e = RuntimeError
  end.
(** It does not give up. *)
Definition converges (brentq : (R -> R) -> R -> R -> R -> res R) : Prop :=
  forall f a b tol, 0 < tol -> f a * f b < 0 -> exists r, brentq f a b tol = Ok r.

(** The probability asked for. *)
Definition asked (cdf : R -> R -> R) (p snsig : option R) (prob : R) : Prop :=
  (p = Some prob /\ (snsig = None \/ snsig = Some 0)) \/
  (exists s, snsig = Some s /\ s <> 0 /\ (p = None \/ p = Some 0) /\ prob = cdf (s ^ 2) 1).
(** The log ratio the search starts from. *)
Definition starts_at (ppf : R -> R -> R) (p snsig : option R) (lr : R) : Prop :=
  (exists q, p = Some q /\ (snsig = None \/ snsig = Some 0) /\ lr = - (1/2) * sqrt (ppf q 1) ^ 2) \/
  (exists s, snsig = Some s /\ s <> 0 /\ (p = None \/ p = Some 0) /\ lr = - (1/2) * s ^ 2).

(** Objects as they are after any number of calls. *)
Inductive object1 cdf ppf brentq : hpd1 -> Prop :=
| object1_new h : made1 h -> object1 cdf ppf brentq h
| object1_call h p snsig tol : object1 cdf ppf brentq h ->
    object1 cdf ppf brentq (fst (critlevel1 cdf ppf brentq p snsig tol h)).
Inductive object2 cdf ppf brentq : hpd2 -> Prop :=
| object2_new h : made2 h -> object2 cdf ppf brentq h
| object2_call h p snsig tol : object2 cdf ppf brentq h ->
    object2 cdf ppf brentq (fst (critlevel2 cdf ppf brentq p snsig tol h)).
