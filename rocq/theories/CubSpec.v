(** Vocabulary for the cubature properties: polynomials in two variables,
    their integrals over rectangles and their means under the normal
    distribution. *)

From Coq Require Import List ZArith String Reals.
From Coquelicot Require Import Coquelicot.
From Verif Require Import CountSpec.
Import ListNotations.
Open Scope R_scope.

(** The polynomial with coefficients c a b of x^a y^b for a + b <= d, and the
    same with every term replaced by its size when |x| <= X and |y| <= Y. *)
Definition poly (d : nat) (c : nat -> nat -> R) (x y : R) : R :=
  sum_over 0 (S d) (fun a => sum_over 0 (S d - a) (fun b => c a b * x ^ a * y ^ b)).
Definition size (d : nat) (c : nat -> nat -> R) (X Y : R) : R :=
  sum_over 0 (S d) (fun a => sum_over 0 (S d - a) (fun b => Rabs (c a b) * X ^ a * Y ^ b)).

(** The integral over a rectangle *)
Definition integral (p : R -> R -> R) (xl xu yl yu : R) : R :=
  RInt (fun x => RInt (fun y => p x y) yl yu) xl xu.

(** m is the mean of p (l0 + s0 u) (l1 + s1 v) for independent standard normal
    u and v: the weighted mean over squares, as they grow to the plane. *)
Definition bell (u v : R) : R := exp (- (u ^ 2 + v ^ 2) / 2).
Definition normal_mean (p : R -> R -> R) (l0 l1 s0 s1 m : R) : Prop :=
  is_lim (fun T => integral (fun u v => p (l0 + s0 * u) (l1 + s1 * v) * bell u v) (- T) T (- T) T
                   / integral bell (- T) T (- T) T) p_infty m.

(** The degrees in the names of the rules: <region><weight>_<degree>_<points> *)
Definition named_degree : list (string * nat) :=
  [("e2r2_3_4a", 3%nat); ("e2r2_9_21", 9%nat); ("e2r2_11_28a", 11%nat); ("e2r2_7_12", 7%nat); ("e2_r2_3_4b", 3%nat); ("e2r2_13_36", 13%nat);
   ("e2r2_5_9b", 5%nat); ("e2r2_5_9a", 5%nat); ("e2r2_13_41", 13%nat); ("e2r2_9_19a", 9%nat); ("e2r2_11_28c", 11%nat)]%string.

(** The degree each rule attains and the accuracy of its moments *)
Definition sound_rules : list (string * nat * R) :=
  [("e2r2_3_4a", 3%nat, / 10 ^ 15); ("e2_r2_3_4b", 3%nat, / 10 ^ 15); ("e2r2_5_9a", 5%nat, / 10 ^ 15); ("e2r2_5_9b", 5%nat, / 10 ^ 14);
   ("e2r2_7_12", 7%nat, / 10 ^ 14); ("e2r2_9_21", 9%nat, / 10 ^ 13); ("e2r2_11_28a", 11%nat, / 10 ^ 12); ("e2r2_13_36", 13%nat, / 10 ^ 11)]%string.
(** Three rules attain less than their names say; they attain at least this. *)
Definition weak_rules : list (string * nat * R) :=
  [("e2r2_13_41", 5%nat, / 10 ^ 14); ("e2r2_9_19a", 5%nat, / 10 ^ 14); ("e2r2_11_28c", 3%nat, / 10 ^ 15)]%string.

(** The names in rule_dict *)
Definition rule_names : list string := map fst named_degree.

(** The dimensions and keys dcuhre takes *)
Definition legal (ndim : nat) (key : Z) : Prop :=
  (2 <= ndim <= 15)%nat /\ (key = 0 \/ (key = 1 /\ ndim = 2%nat) \/ (key = 2 /\ ndim = 3%nat) \/ key = 3 \/ key = 4)%Z.
