(** What the theorems about adapt.py and ADAPT say. *)

From Coq Require Import List Bool Arith ZArith Reals Permutation.
From Verif Require Import Exn.
Import ListNotations.
Open Scope R_scope.

(** A box: its centre and half widths; an estimate of the integral over it,
    the error estimate, and the axis (from 1) along which to halve it *)
Record region := Region { r_err : R; r_val : R; r_axis : nat; r_centre : list R; r_half : list R }.

(** A point moved by t along axis a *)
Definition along (a : nat) (t : R) (x : list R) : list R :=
  map (fun j => nth (j - 1) x 0 + (if Nat.eqb j a then t else 0)) (seq 1 (length x)).
(** Component a of a point *)
Definition comp (a : nat) (x : list R) : R := nth (a - 1) x 0.

(** Halving a box along axis a *)
Definition half_half (a : nat) (h : list R) : list R := along a (- (comp a h / 2)) h.
Definition low_centre (a : nat) (c h : list R) : list R := along a (- (comp a h / 2)) c.
Definition high_centre (a : nat) (c h : list R) : list R := along a (comp a h / 2) c.

(** The value of a computation *)
Definition value {A} (m : res A) (d : A) : A := match m with Ok v => v | Err _ => d end.

(** The estimated fourth derivative of f along axis a of a box *)
Definition fourth (f : list R -> R) (c h : list R) (a : nat) : R :=
  let at_ t := f (along a (t * comp a h) c) in
  Rabs ((at_ (- (1 / 4)) + at_ (1 / 4) - 2 * f c) - (1 / 3) ^ 2 * (at_ (- (3 / 4)) + at_ (3 / 4) - 2 * f c)).

(** The error estimate from the rules of three successive orders, the last
    one first *)
Definition estimate (q q' q'' : R) : R :=
  Rabs (q - q') * Rmax (1 / 10) (Rabs (q - q') / Rmax (Rabs (q - q') / 2) (Rabs (q' - q''))).

(** The values in a region come from the rule of some order from 4 to 12 and
    the two before it, and its axis has the largest fourth derivative *)
Definition measured (f : list R -> res R) (rule : list R -> list R -> nat -> res (R * Z)) (r : region) : Prop :=
  let n := length (r_centre r) in
  (exists o q q' q'' z z' z'', (4 <= o <= 12)%nat /\
     rule (r_centre r) (r_half r) o = Ok (q, z) /\ rule (r_centre r) (r_half r) (o - 1)%nat = Ok (q', z') /\ rule (r_centre r) (r_half r) (o - 2)%nat = Ok (q'', z'') /\
     r_val r = q /\ r_err r = estimate q q' q'') /\
  length (r_half r) = n /\ (1 <= r_axis r <= n)%nat /\
  (forall a, (1 <= a <= n)%nat ->
     fourth (fun x => value (f x) 0) (r_centre r) (r_half r) a <= fourth (fun x => value (f x) 0) (r_centre r) (r_half r) (r_axis r)).

(** One step: a region with the largest error is halved along its axis, and
    the halves are measured *)
Definition step f rule (rs rs' : list region) : Prop :=
  exists r rest r1 r2,
    Permutation rs (r :: rest) /\ (forall q, In q rs -> r_err q <= r_err r) /\
    measured f rule r1 /\ measured f rule r2 /\
    r_centre r1 = low_centre (r_axis r) (r_centre r) (r_half r) /\ r_half r1 = half_half (r_axis r) (r_half r) /\
    r_centre r2 = high_centre (r_axis r) (r_centre r) (r_half r) /\ r_half r2 = half_half (r_axis r) (r_half r) /\
    Permutation rs' (r1 :: r2 :: rest).

(** The regions that can be reached from the first one *)
Inductive reached f rule (r0 : region) : list region -> Prop :=
| reached_start : measured f rule r0 -> reached f rule r0 [r0]
| reached_step rs rs' : reached f rule r0 rs -> step f rule rs rs' -> reached f rule r0 rs'.

Definition total (g : region -> R) (rs : list region) : R := fold_right Rplus 0 (map g rs).

(** The box between two corners *)
Definition centre_of (lower upper : list R) : list R := map (fun p => (fst p + snd p) / 2) (combine lower upper).
Definition half_of (lower upper : list R) : list R := map (fun p => (snd p - fst p) / 2) (combine lower upper).

(** Points of a closed box and of its inside *)
Definition in_box (c h x : list R) : Prop := length x = length c /\ forall a, (1 <= a <= length c)%nat -> Rabs (comp a x - comp a c) <= comp a h.
Definition inside (c h x : list R) : Prop := length x = length c /\ forall a, (1 <= a <= length c)%nat -> Rabs (comp a x - comp a c) < comp a h.

(** A quantity that is the sum of its values for the halves of a box, as an
    integral over it is *)
Definition additive (mu : list R -> list R -> R) : Prop :=
  forall a c h, (1 <= a <= length c)%nat -> length h = length c ->
    mu c h = mu (low_centre a c h) (half_half a h) + mu (high_centre a c h) (half_half a h).

(** The smallest number of evaluations *)
Definition rulcls (n : nat) : Z := (2 ^ Z.of_nat n + 2 * Z.of_nat n ^ 2 + 6 * Z.of_nat n + 1)%Z.

(** The relative error of a list of regions: at most 1, and 1 when the values
    cancel *)
Definition relative (rs : list region) (e : R) : Prop :=
  (total r_val rs = 0 /\ e = 1) \/ (total r_val rs <> 0 /\ e = Rmin 1 (total r_err rs / Rabs (total r_val rs))).

(** No point is inside two of the boxes *)
Definition apart (rs : list region) : Prop :=
  ForallOrdPairs (fun r q => forall x, ~ (inside (r_centre r) (r_half r) x /\ inside (r_centre q) (r_half q) x)) rs.

(** Each of the rules used makes between lo and hi evaluations *)
Definition costs (rule : list R -> list R -> nat -> res (R * Z)) (lo hi : Z) : Prop :=
  forall c h o q z, (4 <= o <= 12)%nat -> rule c h o = Ok (q, z) -> (lo <= z <= hi)%Z.

(** What adapt returns: the regions are reached from the whole box, v is the
    sum of their values, e the relative error, less than relacc, and npts the
    number of evaluations: those of two rules for each region but the first,
    and of the first *)
Definition answer (f : list R -> res R) (rule : list R -> list R -> nat -> res (R * Z)) (lower upper : list R) (relacc v e : R) (npts : Z) : Prop :=
  exists r0 rs, r_centre r0 = centre_of lower upper /\ r_half r0 = half_of lower upper /\ reached f rule r0 rs /\ (length rs <= 50)%nat /\
    v = total r_val rs /\ relative rs e /\ e < relacc /\ (rulcls (length lower) <= npts)%Z /\
    forall lo hi, costs rule lo hi ->
      ((2 * Z.of_nat (length rs) - 1) * (lo + 4 * Z.of_nat (length lower)) <= npts <= (2 * Z.of_nat (length rs) - 1) * (hi + 4 * Z.of_nat (length lower)))%Z.
