(** Vocabulary for the statements about derivatives. *)

From Coq Require Import List Bool Arith Reals.
From Verif Require Import Exn CountSpec.
Import ListNotations.
Open Scope R_scope.

(** The point mu + v *)
Definition moved (mu : list R) (v : nat -> R) : list R := map (fun k => nth k mu 0 + v k) (seq 0 (length mu)).
Definition opposite (v : nat -> R) : nat -> R := fun k => - v k.
Definition scaled (t : R) (v : nat -> R) : nat -> R := fun k => t * v k.
(** A step t along axis i, and one along two axes *)
Definition axis (i : nat) (t : R) : nat -> R := fun k => if Nat.eqb k i then t else 0.
Definition two_axes (i : nat) (s : R) (j : nat) (t : R) : nat -> R := fun k => axis i s k + axis j t k.
(** The quadratic form of Q *)
Definition quad (n : nat) (Q : nat -> nat -> R) (v : nat -> R) : R := sum_over 0 n (fun i => sum_over 0 n (fun j => Q i j * v i * v j)).

(** lf is a quadratic function: value top, gradient grad and negative Hessian
    Q at mu. *)
Definition quadratic (lf : list R -> res R) (mu : list R) (top : R) (grad : nat -> R) (Q : nat -> nat -> R) : Prop :=
  forall v, lf (moved mu v) = Ok (top + sum_over 0 (length mu) (fun i => grad i * v i) - quad (length mu) Q v / 2).
(** The mean of lf over mu + v and mu - v: a quadratic form Q and a term K of
    the fourth degree.  Odd terms are free. *)
Definition even_part (lf : list R -> res R) (mu : list R) (top : R) (Q : nat -> nat -> R) (K : (nat -> R) -> R) : Prop :=
  forall v, exists a b, lf (moved mu v) = Ok a /\ lf (moved mu (opposite v)) = Ok b /\ a + b = 2 * top - quad (length mu) Q v + K v.
Definition fourth_degree (K : (nat -> R) -> R) : Prop := forall t v, K (scaled t v) = t ^ 4 * K v.
