(** Means, sums of squares and lines for points in the plane. *)

From Coq Require Import List Bool Arith Reals.
Import ListNotations.
Open Scope R_scope.

Definition Sum {A} (f : A -> R) (l : list A) : R := fold_right (fun p s => f p + s) 0 l.
Definition size {A} (l : list A) : R := INR (length l).

Section Points.
Variable pts : list (R * R).
Definition mx : R := Sum fst pts / size pts.
Definition my : R := Sum snd pts / size pts.
Definition Sxx : R := Sum (fun p => (fst p - mx) ^ 2) pts.
Definition Syy : R := Sum (fun p => (snd p - my) ^ 2) pts.
Definition Sxy : R := Sum (fun p => (fst p - mx) * (snd p - my)) pts.
(** The squared distances of the points from the line a + b x: vertical,
    horizontal, perpendicular; and twice the areas of the triangles between the
    points and the line *)
Definition vertical (a b : R) : R := Sum (fun p => (snd p - (a + b * fst p)) ^ 2) pts.
Definition horizontal (a b : R) : R := Sum (fun p => (fst p - (snd p - a) / b) ^ 2) pts.
Definition perpendicular (a b : R) : R := Sum (fun p => (snd p - (a + b * fst p)) ^ 2 / (1 + b ^ 2)) pts.
Definition areas (a b : R) : R := Sum (fun p => Rabs ((snd p - (a + b * fst p)) * (fst p - (snd p - a) / b))) pts.
(** The line x = c *)
Definition upright (c : R) : R := Sum (fun p => (fst p - c) ^ 2) pts.
Definition collinear : Prop := exists u v w, (u <> 0 \/ v <> 0) /\ forall p, In p pts -> u * fst p + v * snd p = w.
(** The least squares slopes, and n times the influence of a point on them *)
Definition slope1 : R := Sxy / Sxx.
Definition slope2 : R := Syy / Sxy.
Definition infl1 (p : R * R) : R := size pts * ((fst p - mx) * (snd p - my - slope1 * (fst p - mx))) / Sxx.
Definition infl2 (p : R * R) : R := size pts * ((snd p - my) * (snd p - my - slope2 * (fst p - mx))) / Sxy.
(** The standard errors of a slope and an intercept by the delta method: b is the
    slope of a line through the mean, calculated from the least squares slopes by a
    function with the partial derivatives d1 and d2. *)
Definition delta_slope (d1 d2 : R) : R := sqrt (Sum (fun p => (d1 * infl1 p + d2 * infl2 p) ^ 2) pts) / size pts.
Definition delta_inter (b d1 d2 : R) : R :=
  sqrt (Sum (fun p => (snd p - my - b * (fst p - mx) - mx * (d1 * infl1 p + d2 * infl2 p)) ^ 2) pts) / size pts.
End Points.

(** The slopes of the other lines as functions of the least squares slopes; s is
    the sign of the slopes. *)
Definition half_way (u v : R) : R := (u * v - 1 + sqrt ((1 + u ^ 2) * (1 + v ^ 2))) / (u + v).
Definition nearest (s u v : R) : R := (v - 1 / u + s * sqrt (4 + (v - 1 / u) ^ 2)) / 2.
Definition geometric (s u v : R) : R := s * sqrt (u * v).
Definition arithmetic (u v : R) : R := (u + v) / 2.
Definition sign_of (c : R) : R := if Rlt_dec c 0 then -1 else 1.

(** A function of the two least squares slopes, its value and its partial
    derivatives *)
Definition from_slopes (g : R -> R -> R) (b1 b2 b d1 d2 : R) : Prop :=
  b = g b1 b2 /\ derivable_pt_lim (fun u => g u b2) b1 d1 /\ derivable_pt_lim (fun v => g b1 v) b2 d2.

(** The sum of squares with weights 1/w; points with their errors *)
Definition weighted (pts : list (R * R * R)) (w : R -> R) (a b : R) : R :=
  Sum (fun p => (snd (fst p) - (a + b * fst (fst p))) ^ 2 / w (snd p)) pts.

Section Weighted.
(** Points with errors, and the variance of the values for each error *)
Variable pts : list (R * R * R).
Variable w : R -> R.
Definition wsum : R := Sum (fun p => / w (snd p)) pts.
Definition wmean : R := Sum (fun p => fst (fst p) / w (snd p)) pts / wsum.
Definition wspread : R := Sum (fun p => (fst (fst p) - wmean) ^ 2 / w (snd p)) pts.
End Weighted.

(** The variance that the errors leave unexplained *)
Definition left_over (pts : list (R * R)) (e : list R) : R :=
  (vertical pts (my pts - slope1 pts * mx pts) (slope1 pts) - Sum (fun e => e ^ 2) e) / size pts.

Definition average {A} (f : A -> R) (l : list A) : R := Sum f l / size l.
(** The covariance of two quantities *)
Definition covariance {A} (f g : A -> R) (l : list A) : R := average (fun d => (f d - average f l) * (g d - average g l)) l.

(** lo is the least of the values less their errors e, and hi the greatest of the
    values plus them. *)
Definition range (x e : list R) (lo hi : R) : Prop :=
  In lo (map (fun p => fst p - snd p) (combine x e)) /\ (forall t, In t (map (fun p => fst p - snd p) (combine x e)) -> lo <= t) /\
  In hi (map (fun p => fst p + snd p) (combine x e)) /\ (forall t, In t (map (fun p => fst p + snd p) (combine x e)) -> t <= hi).
(** The standard error of the mean of a quantity *)
Definition std_err {A} (f : A -> R) (l : list A) : R := sqrt (covariance f f l / size l).
