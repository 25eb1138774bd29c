(** What the theorems about the rules of ADAPT say. *)

From Coq Require Import List Bool Arith ZArith Reals.
From Coquelicot Require Import Coquelicot.
Import ListNotations.
Open Scope R_scope.

(** x_1^k_1 x_2^k_2 ... *)
Fixpoint monomial (ks : list nat) (x : list R) : R :=
  match ks, x with k :: ks', v :: x' => v ^ k * monomial ks' x' | _, _ => 1 end.
(** A polynomial: coefficients and exponents *)
Definition poly (p : list (R * list nat)) (x : list R) : R := fold_right Rplus 0 (map (fun t => fst t * monomial (snd t) x) p).

(** The integral of F over a box: one variable after the other *)
Fixpoint integral (lower upper : list R) (F : list R -> R) : R :=
  match lower, upper with l :: lower', u :: upper' => RInt (fun v => integral lower' upper' (fun x => F (v :: x))) l u | _, _ => F [] end.

(** In each term no exponent is greater than 3, and at most d of them are
    greater than 1 *)
Definition tame (d n : nat) (p : list (R * list nat)) : Prop :=
  forall c ks, In (c, ks) p -> length ks = n /\ (forall k, In k ks -> (k <= 3)%nat) /\ (length (filter (fun k => Nat.leb 2 k) ks) <= d)%nat.

(** The total degree is at most d *)
Definition of_degree (d n : nat) (p : list (R * list nat)) : Prop := forall c ks, In (c, ks) p -> length ks = n /\ (list_sum ks <= d)%nat.

(** The points strictly between two corners *)
Definition between (lower upper x : list R) : Prop := List.Forall2 Rlt lower x /\ List.Forall2 Rlt x upper.

(** The corners of the box with a centre and half widths *)
Definition low_corner (c h : list R) : list R := map (fun p => fst p - snd p) (combine c h).
Definition high_corner (c h : list R) : list R := map (fun p => fst p + snd p) (combine c h).

(** Evaluations of the rule of the lowest order, 4, in n dimensions *)
Definition points (n : nat) : Z := let n := Z.of_nat n in (1 + 6 * n + 2 * n * (n - 1) + 4 * n * (n - 1) * (n - 2) / 3)%Z.
