(** Vocabulary of the statements about refined grids. *)

From Coq Require Import ZArith List Bool Arith Reals Permutation Sorted.
From Verif Require Import Exn Instances RefModel.
Import ListNotations.
Local Open Scope R_scope.

(** ** The list of maxima *)

(** All reports made to a list, in order; stops at an exception. *)
Definition report_seq {L} (h : list (R * L)) : lml L -> lml L * res unit :=
  for_each h (fun p => lm_update (fst p) (snd p)).

(** [l] holds the best of the reports [h]: at most [nmax], none more than
    [range] below another; what is left out is no higher than what is kept,
    and was left out because the list is full or because it is more than
    [range] below one that is kept. *)
Definition best_of {L} (nmax : option nat) (range : option R) (h l : list (R * L)) : Prop :=
  StronglySorted (fun a b => fst b <= fst a) l
  /\ (forall k, nmax = Some k -> (length l <= k)%nat)
  /\ (forall d, range = Some d -> forall a b, In a l -> In b l -> fst a - fst b <= d)
  /\ exists out, Permutation h (l ++ out)
     /\ (forall a b, In a out -> In b l -> fst a <= fst b)
     /\ (forall a, In a out -> nmax = Some (length l)
           \/ exists d b, range = Some d /\ In b l /\ d < fst b - fst a).

(** ** The list of intervals *)

(** Contiguous intervals of at least two points each, from [lo] to [hi]. *)
Fixpoint tiling (lo hi : R) (l : list ival) : Prop :=
  match l with
  | [] => lo = hi
  | a :: l' => i_lo a = lo /\ i_lo a < i_hi a /\ (2 <= i_n a)%Z /\ tiling (i_hi a) hi l'
  end.

(** Number of points, those shared by neighbours counted once. *)
Definition steps_in (l : list ival) : Z := fold_right Z.add 0%Z (map (fun a => i_n a - 1)%Z l).
Definition count_points (l : list ival) : Z := (1 + steps_in l)%Z.

(** The k-th point of n equally (or logarithmically) spaced ones in [lo,hi]. *)
Definition spaced (lin : bool) (lo hi : R) (n k : Z) : R :=
  if lin then lo + IZR k * ((hi - lo) / (IZR n - 1))
  else lo * exp (IZR k * (ln (hi / lo) / (IZR n - 1))).
(** The points of an interval except the last, and those of all intervals. *)
Definition points_but_last (lin : bool) (a : ival) : list R :=
  map (fun k => spaced lin (i_lo a) (i_hi a) (i_n a) (Z.of_nat k)) (seq 0 (Z.to_nat (i_n a) - 1)).
Definition all_points (lin : bool) (hi : R) (l : list ival) : list R :=
  flat_map (points_but_last lin) l ++ [hi].

(** A sequence of updates, failed ones included. *)
Fixpoint updates (reqs : list (R * R * Z)) (s : rlist) : rlist :=
  match reqs with
  | [] => s
  | (lo, hi, n) :: reqs' => updates reqs' (fst (update lo hi n s))
  end.

Definition overlap (a b : ival) : Prop := Rmax (i_lo a) (i_lo b) < Rmin (i_hi a) (i_hi b).

(** ** Integrals *)

(** The trapezoid sum of y over the points xs. *)
Fixpoint trapezoid (f : R -> R) (xs : list R) : R :=
  match xs with
  | a :: (b :: _) as xs' => (b - a) * (f a + f b) / 2 + trapezoid f xs'
  | _ => 0
  end.

(** f is affine between neighbouring points of xs. *)
Fixpoint affine_between (f : R -> R) (xs : list R) : Prop :=
  match xs with
  | a :: (b :: _) as xs' =>
      (forall x, a <= x <= b -> (b - a) * f x = (b - x) * f a + (x - a) * f b)
      /\ affine_between f xs'
  | _ => True
  end.

(** The points of an evenly (or logarithmically evenly) spaced grid. *)
Definition gpoints (lin : bool) (lo hi : R) (n : Z) : list R :=
  map (fun k => spaced lin lo hi n (Z.of_nat k)) (seq 0 (Z.to_nat n)).
Definition trap_of (f : R -> R) (g : bgrid) : R :=
  trapezoid f (gpoints (g_lin g) (g_lo g) (g_hi g) (g_n g)).
(** A grid, linear or logarithmic, on which f has been evaluated. *)
Definition evaluated (f : R -> R) (g : bgrid) : Prop :=
  exists lo hi n lin peak g0 m m', new_bgrid lo hi n lin peak = Ok g0
    /\ lm_nmax m <> Some O /\ stepfunc f g0 m = (g, m', Ok tt).

(** Some calls of refine, failed ones included. *)
Fixpoint refines (l : list (option R)) (s : grid) : grid :=
  match l with
  | [] => s
  | d :: l' => refines l' (fst (refine d s))
  end.
