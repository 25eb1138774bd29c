(** What the theorems about dcuhre say. *)

From Coq Require Import List Bool Arith ZArith Reals Permutation.
From Verif Require Import AdSpec SySpec.
Import ListNotations.
Open Scope R_scope.

(** A box, given by its centre and half widths, with estimates of the integrals
    of components 1, 2, ... over it, error estimates, and the axis along which
    to halve it *)
Record piece := Piece { p_val : nat -> R; p_err : nat -> R; p_axis : nat; p_centre : list R; p_half : list R }.

(** The error of one of the halves of a box: v0 is the estimate for the box, v
    and v' those for the halves, e and e' the errors of the rule *)
Definition two_level (v0 v v' e e' : R) : R :=
  let d := Rabs (v0 - (v + v')) in
  (if Rlt_dec 0 (e + e') then e * (1 + d / (2 * (e + e'))) else e) + d / 4.

Section Pieces.
Variable m : nat.
(** The rule for a box gives values, errors and an axis *)
Variable rule : list R -> list R -> (nat -> R) -> (nat -> R) -> nat -> Prop.

(** No error of another piece is greater than all of those of r *)
Definition worst (r : piece) (rs : list piece) : Prop :=
  forall q j, In q rs -> (1 <= j <= m)%nat -> exists i, (1 <= i <= m)%nat /\ p_err q j <= p_err r i.

(** The two halves of a piece *)
Definition halves (r r1 r2 : piece) : Prop :=
  p_centre r1 = low_centre (p_axis r) (p_centre r) (p_half r) /\ p_half r1 = half_half (p_axis r) (p_half r) /\
  p_centre r2 = high_centre (p_axis r) (p_centre r) (p_half r) /\ p_half r2 = half_half (p_axis r) (p_half r) /\
  exists e1 e2,
    rule (p_centre r1) (p_half r1) (p_val r1) e1 (p_axis r1) /\ rule (p_centre r2) (p_half r2) (p_val r2) e2 (p_axis r2) /\
    (forall j, p_err r1 j = two_level (p_val r j) (p_val r1 j) (p_val r2 j) (e1 j) (e2 j)) /\
    (forall j, p_err r2 j = two_level (p_val r j) (p_val r2 j) (p_val r1 j) (e2 j) (e1 j)).

(** The pieces that come from a box by halving a worst one again and again *)
Inductive pieces (c h : list R) : list piece -> Prop :=
| pieces_start r : p_centre r = c -> p_half r = h -> rule c h (p_val r) (p_err r) (p_axis r) -> pieces c h [r]
| pieces_step rs r rest r1 r2 rs' : pieces c h rs -> Permutation rs (r :: rest) -> worst r rs -> halves r r1 r2 -> Permutation rs' (r1 :: r2 :: rest) -> pieces c h rs'.
End Pieces.

Definition sum_of (g : piece -> R) (rs : list piece) : R := fold_right Rplus 0 (map g rs).

(** The box between two corners that may be in any order, and the sign of an
    integral from one to the other *)
Definition half_between (a b : list R) : list R := map (fun p => Rabs (snd p - fst p) / 2) (combine a b).
Fixpoint orientation (a b : list R) : R :=
  match a, b with x :: a', y :: b' => (if Rlt_dec y x then -1 else 1) * orientation a' b' | _, _ => 1 end.

(** The accuracy asked for *)
Definition accurate (epsabs epsrel v e : R) : Prop := e <= Rmax epsabs (epsrel * Rabs v).

(** The rule that is used: key 0 means 1 in 2 dimensions, 2 in 3 dimensions and 3
    from 4 dimensions on *)
Definition rule_used (n : nat) (key : Z) : Z :=
  if (key =? 0)%Z then (if Nat.eqb n 2 then 1 else if Nat.eqb n 3 then 2 else 3)%Z else key.
(** Its evaluations, the degree of polynomials that it integrates and the degree
    of those for which it finds no error *)
Definition rule_cost (n : nat) (key : Z) : Z :=
  let used := rule_used n key in
  let n := Z.of_nat n in
  if (used =? 1)%Z then 65%Z else if (used =? 2)%Z then 127%Z else
  if (used =? 4)%Z then (1 + 6 * n + 2 * n * (n - 1) + 2 ^ n)%Z else (1 + 8 * n + 6 * n * (n - 1) + 4 * n * (n - 1) * (n - 2) / 3 + 2 ^ n)%Z.
Definition rule_degree (n : nat) (key : Z) : nat :=
  let used := rule_used n key in if (used =? 1)%Z then 13 else if (used =? 2)%Z then 11 else if (used =? 4)%Z then 7 else 9.
Definition null_degree (n : nat) (key : Z) : nat :=
  let used := rule_used n key in if (used =? 1)%Z then 7 else if (used =? 2)%Z then 5 else if (used =? 4)%Z then 3 else 5.
(** Rules 1 and 2 have points and weights that are given with 16 digits: how far
    values and errors can be from what they should be, in terms of the volume
    and of how great the terms of the polynomial can be.  There is no such error
    in rules 3 and 4. *)
Definition value_tol (n : nat) (key : Z) : R :=
  let used := rule_used n key in if (used =? 1)%Z then 2 / 10 ^ 16 else if (used =? 2)%Z then 5 / 10 ^ 17 else 0.
Definition error_tol (n : nat) (key : Z) : R :=
  let used := rule_used n key in if (used =? 1)%Z then 5 / 10 ^ 14 else if (used =? 2)%Z then 4 / 10 ^ 15 else 0.
Definition volume (a b : list R) : R := fold_right Rmult 1 (map (fun p => Rabs (snd p - fst p)) (combine a b)).
Definition reach (p : list (R * list nat)) (a b : list R) : R :=
  fold_right Rplus 0 (map (fun t => Rabs (fst t) * monomial (snd t) (map (fun q => Rmax (Rabs (fst q)) (Rabs (snd q))) (combine a b))) p).
(** Numbers of evaluations for which the work space must do *)
Definition work_needed (n numfun : nat) (key maxpts : Z) : Z :=
  (((maxpts - rule_cost n key) / (2 * rule_cost n key) + 1) * (2 * Z.of_nat n + 2 * Z.of_nat numfun + 2) + 17 * Z.of_nat numfun + 1)%Z.

(** Keys for n dimensions, and arguments that are accepted *)
Definition key_ok (n : nat) (key : Z) : Prop := (key = 0 \/ key = 3 \/ key = 4 \/ (key = 1 /\ n = 2%nat) \/ (key = 2 /\ n = 3%nat))%Z.
Definition acceptable (numfun : nat) (a b : list R) (minpts maxpts : Z) (epsabs epsrel : R) (key nw : Z) : Prop :=
  (2 <= length a <= 15)%nat /\ (1 <= numfun)%nat /\ List.Forall2 (fun x y => x <> y) a b /\ key_ok (length a) key /\
  (3 * rule_cost (length a) key <= maxpts)%Z /\ (minpts <= maxpts)%Z /\ (0 <= epsabs \/ 0 <= epsrel) /\ (work_needed (length a) numfun key maxpts <= nw)%Z.

(** The limits of axis i exchanged *)
Definition exchanged (i : nat) (a b : list R) : list R := map (fun j => if Nat.eqb j i then comp j b else comp j a) (seq 1 (length a)).

(** The first of the places 1, ..., n where g is greatest *)
Definition first_greatest (g : nat -> R) (n d : nat) : Prop := (1 <= d <= n)%nat /\ (forall i, (1 <= i <= n)%nat -> g i <= g d) /\ (forall i, (1 <= i < d)%nat -> g i < g d).

(** The fourth differences of components 1, ..., m along axis i of a box, from
    its centre and points at s and s' times its half width *)
Definition fourths (f : list R -> nat -> R) (m : nat) (s s' : R) (c h : list R) (i : nat) : R :=
  let at_ t := f (along i (t * comp i h) c) in
  let q := (s' / s) ^ 2 in
  fold_right Rplus 0 (map (fun j => Rabs (2 * (1 - q) * f c j - (at_ (- s') j + at_ s' j) + q * (at_ (- s) j + at_ s j))) (seq 1 m)).

(** The corners of a box *)
Definition lower_of (c h : list R) : list R := map (fun p => fst p - snd p) (combine c h).
Definition upper_of (c h : list R) : list R := map (fun p => fst p + snd p) (combine c h).

(** A rule for functions f of n variables with m components.  It gives one
    answer for a box, errors are not negative, components that are polynomials
    of rule_degree have their integrals as values, and no error if the degree is
    at most null_degree, both within the tolerances.  The axis is the first with
    the greatest fourth difference, and the first of the longest ones if there
    are no differences. *)
Definition good_rule (f : list R -> nat -> R) (n m : nat) (key : Z) (rule : list R -> list R -> (nat -> R) -> (nat -> R) -> nat -> Prop) : Prop :=
  exists s s', 0 < s < 1 /\ 0 < s' < 1 /\ s <> s' /\
  forall c h, length c = n -> length h = n -> (forall x, In x h -> 0 <= x) ->
  exists v e d, (forall v' e' d', rule c h v' e' d' <-> v' = v /\ e' = e /\ d' = d) /\
    (forall j, 0 <= e j) /\
    (forall j p, (forall x, in_box c h x -> f x j = poly p x) -> of_degree (rule_degree n key) n p ->
       Rabs (v j - integral (lower_of c h) (upper_of c h) (poly p)) <= value_tol n key * (volume (lower_of c h) (upper_of c h) * reach p (lower_of c h) (upper_of c h))) /\
    (forall j p, (forall x, in_box c h x -> f x j = poly p x) -> of_degree (null_degree n key) n p ->
       e j <= error_tol n key * (volume (lower_of c h) (upper_of c h) * reach p (lower_of c h) (upper_of c h))) /\
    ((exists i, (1 <= i <= n)%nat /\ 0 < fourths f m s s' c h i) -> first_greatest (fourths f m s s' c h) n d) /\
    ((forall i, (1 <= i <= n)%nat -> fourths f m s s' c h i <= 0) -> first_greatest (fun i => comp i h) n d).

(** A point in other units: lengths times s, from another origin *)
Definition moved (s : R) (o : list R) (x : list R) : list R := map (fun i => comp i o + s * comp i x) (seq 1 (length x)).
