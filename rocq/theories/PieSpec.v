(** Vocabulary for the statements about parameters of an inference.  Only the
    observable attributes of the model state are used. *)

From Coq Require Import ZArith List Bool Arith.
From Verif Require Import Exn PieModel.
Import ListNotations.

Section Spec.
Context {N : num}.

(** The three lists agree with the statuses and are duplicate free, and
    stepping_info has an entry for exactly the stepping parameters. *)
Record lists_match_status (s : st N) : Prop := {
  lm_fixed : forall p, In p (fixedl s) <-> p_status (ps s p) = Fixed;
  lm_vary : forall p, In p (varyl s) <-> p_status (ps s p) = Varying;
  lm_step : forall p, In p (stepl s) <-> p_status (ps s p) = Stepping;
  lm_info : forall p, info s p <> None <-> p_status (ps s p) = Stepping;
  lm_nd_fixed : NoDup (fixedl s);
  lm_nd_vary : NoDup (varyl s);
  lm_nd_step : NoDup (stepl s)
}.

(** States a user can bring an inference to. *)
Definition reachable (dflt : nat -> option N) (s : st N) : Prop :=
  exists l, s = run dflt l st0.

(** The parameter has been used: it has a status and a value. *)
Definition defined (s : st N) (p : nat) : Prop := p_status (ps s p) <> Undef.

(** Two states that no reader of attributes can tell apart. *)
Record same_state (s s' : st N) : Prop := {
  ss_ps : forall p, ps s' p = ps s p;
  ss_fixed : fixedl s' = fixedl s;
  ss_vary : varyl s' = varyl s;
  ss_step : stepl s' = stepl s;
  ss_info : forall p, info s' p = info s p
}.

(** *** Announcements *)

Definition is_val (q : nat) (e : event N) : bool :=
  match e with EvValue _ p _ => Nat.eqb p q | _ => false end.
Definition is_stat (q : nat) (e : event N) : bool :=
  match e with EvStatus _ p _ _ => Nat.eqb p q | _ => false end.

(** One announcement of a value, or of a status change, of parameter q to a
    list of listeners, in that order. *)
Definition tell_value (q : nat) (ls : list nat) (v : N) : list (event N) :=
  map (fun l => EvValue l q (Some v)) ls.
Definition tell_status (q : nat) (ls : list nat) (c : status * status) : list (event N) :=
  map (fun l => EvStatus l q (fst c) (snd c)) ls.

(** The last element of a list of announced values. *)
Fixpoint latest (v0 : option N) (vs : list N) : option N :=
  match vs with [] => v0 | v :: vs' => latest (Some v) vs' end.

(** A sequence of announced transitions leads from status a to status b. *)
Fixpoint leads (a : status) (xs : list (status * status)) (b : status) : Prop :=
  match xs with
  | [] => a = b
  | (o, n) :: xs' => o = a /\ leads n xs' b
  end.

(** Between s and s' the trace grew by announcements only such that, for every
    parameter q: its listeners are unchanged; the value events about q are
    complete rounds over the listeners of q in registration order, and the
    last round announces the value q now has; and likewise for its status. *)
Definition announced (s s' : st N) : Prop :=
  exists new, trace s' = trace s ++ new /\
  forall q,
    p_lst (ps s' q) = p_lst (ps s q) /\
    (exists vs, filter (is_val q) new = flat_map (tell_value q (p_lst (ps s q))) vs
       /\ p_value (ps s' q) = latest (p_value (ps s q)) vs) /\
    (exists xs, filter (is_stat q) new = flat_map (tell_status q (p_lst (ps s q))) xs
       /\ leads (p_status (ps s q)) xs (p_status (ps s' q))).

(** Operations that try to set the value of p or move it to an end. *)
Definition plain_assignment (p : nat) (o : op N) : Prop :=
  match o with
  | OAssign q _ | OSetValue q _ | OFix q _ | OUSet q _ | OFirst q | OLast q => q = p
  | _ => False
  end.

(** Operations that give p a new value without any change of status. *)
Definition revalues (p : nat) (o : op N) : Prop :=
  match o with
  | OSetValue q _ | OUSet q _ | ONext q | OPrev q | OFirst q | OLast q => q = p
  | _ => False
  end.

(** Operations that do not declare parameter p fixed, varying or stepping
    anew; everything else, on p and on the other parameters, is admitted. *)
Definition leaves_steps (p : nat) (o : op N) : Prop :=
  match o with
  | OAssign q _ | OFix q _ | OLinStep q _ _ _ | OLogStep q _ _ _ | OVary q _ _ _ => q <> p
  | _ => True
  end.

(** Parameter p steps through n points: its index is within 0..n-1, and at the
    first and last index its value is exactly lo and hi. *)
Definition steps_between (s : st N) (p : nat) (lo hi : N) (n : Z) : Prop :=
  p_status (ps s p) = Stepping /\
  exists k v, p_num (ps s p) = Some k /\ p_value (ps s p) = Some v /\ (0 <= k < n)%Z
    /\ (k = 0%Z -> v = lo) /\ (k = (n - 1)%Z -> v = hi).

Definition adds_listener (o : op N) : Prop :=
  match o with OAddListener _ _ => True | _ => False end.

End Spec.
