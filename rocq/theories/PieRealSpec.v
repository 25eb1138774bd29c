(** Vocabulary for statements about parameters over the real numbers. *)

From Coq Require Import ZArith List Bool Arith Reals.
From Verif Require Import Exn PieModel PieSpec Instances.
Import ListNotations.
Open Scope R_scope.

(** The k-th of n equally spaced values from lo to hi. *)
Definition lin_value (lo hi : R) (n k : Z) : R :=
  lo + IZR k * (hi - lo) / IZR (n - 1).
(** The k-th of n values in constant ratio from lo to hi. *)
Definition log_value (lo hi : R) (n k : Z) : R :=
  lo * Rpower (hi / lo) (IZR k / IZR (n - 1)).

(** Parameter p is at step k, with value v. *)
Definition at_step (s : st numR) (p : nat) (k : Z) (v : R) : Prop :=
  p_status (ps s p) = Stepping /\ p_num (ps s p) = Some k /\ p_value (ps s p) = Some v.

(** Operations that do not change the range of p, and declare its steps only
    with both ends and at least two steps. *)
Definition keeps_range (p : nat) (o : op numR) : Prop :=
  match o with
  | ORange q _ _ => q <> p
  | OVary q _ _ (Some _) => q <> p
  | OLinStep q lo hi n | OLogStep q lo hi n =>
      q = p -> lo <> None /\ hi <> None /\ (2 <= n)%Z
  | _ => True
  end.

(** The value lies in the declared range. *)
Definition in_range (s : st numR) (p : nat) (lo hi : R) : Prop :=
  p_bnd (ps s p) = Some (lo, hi) /\
  exists v : R, p_value (ps s p) = Some v /\ lo <= v <= hi.

(** In the history l the steps of p were last declared by a successful linstep
    or logstep with at least two steps; f and n give the values and number of
    the steps. *)
Definition declared (dflt : nat -> option numR) (l : list (op numR)) (p : nat)
    (f : Z -> R) (n : Z) : Prop :=
  exists l1 o l2 (lo hi : R), l = l1 ++ o :: l2
    /\ snd (run_op dflt o (run dflt l1 st0)) = Ok tt
    /\ Forall (leaves_steps p) l2 /\ (2 <= n)%Z
    /\ (o = OLinStep p (Some (lo : numR)) (Some (hi : numR)) n /\ f = lin_value lo hi n
        \/ o = OLogStep p (Some (lo : numR)) (Some (hi : numR)) n /\ f = log_value lo hi n).

(** The values that go with an index tuple: the declared lattice value for the
    i-th stepping parameter, the current value for the others. *)
Definition values_at (s : st numR) (f : nat -> Z -> R) (ind : list Z)
    (vals : nat -> option numR) : Prop :=
  (forall p, ~ In p (stepl s) -> vals p = p_value (ps s p)) /\
  (forall i p k, nth_error (stepl s) i = Some p -> nth_error ind i = Some k ->
     vals p = Some (f p k : numR)).

(** Calls that give p a value, as opposed to moving it. *)
Definition gives_value (p : nat) (o : op numR) : Prop :=
  match o with
  | OAssign q (Some _) | OFix q (Some _) | OSetValue q _ => q = p
  | OVary q (Some _) _ _ => q = p
  | OLinStep q _ _ n | OLogStep q _ _ n => q = p /\ (2 <= n)%Z
  | _ => False
  end.

(** The map from the real line onto the range, and its inverse. *)
Definition of_unbounded (lo hi u : R) : R := (lo + hi * exp u) / (1 + exp u).
Definition to_unbounded (lo hi v : R) : R := ln (v - lo) - ln (hi - v).
