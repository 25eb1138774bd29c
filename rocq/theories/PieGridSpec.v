(** Specification vocabulary for grid stepping: the zig-zag order of index
    tuples, the states visited, and the step-by-step value lattice. *)

From Coq Require Import ZArith List Bool Arith.
From Verif Require Import Exn PieModel PieSpec PieGridModel.
Import ListNotations.

(** 0, 1, ..., n-1 and back. *)
Definition upto (n : nat) : list Z := map Z.of_nat (seq 0 n).
Definition sweep (up : bool) (n : nat) : list Z :=
  if up then upto n else rev (upto n).

(** Combine sweeps of a fast index with the successive tuples of the slower
    ones, alternating the direction. *)
Fixpoint zigzag (up : bool) (n : nat) (slow : list (list Z)) : list (list Z) :=
  match slow with
  | [] => []
  | w :: ws => map (fun k => k :: w) (sweep up n) ++ zigzag (negb up) n ws
  end.

(** The order in which a grid of the given sizes is to be visited, first
    parameter fastest. *)
Fixpoint snake (ns : list nat) : list (list Z) :=
  match ns with
  | [] => [[]]
  | n :: ns' => zigzag true n (snake ns')
  end.

(** Two tuples that differ by one in exactly one place. *)
Inductive neighbours : list Z -> list Z -> Prop :=
| nb_here : forall a b l, (a = b + 1 \/ b = a + 1)%Z -> neighbours (a :: l) (b :: l)
| nb_there : forall a l l', neighbours l l' -> neighbours (a :: l) (a :: l').

(** Consecutive elements are related. *)
Fixpoint consecutive {A} (R : A -> A -> Prop) (l : list A) : Prop :=
  match l with
  | a :: ((b :: _) as l') => R a b /\ consecutive R l'
  | _ => True
  end.

(** The index tuple is within the grid. *)
Definition in_grid (ns : list nat) (ind : list Z) : Prop :=
  Forall2 (fun n k => 0 <= k < Z.of_nat n)%Z ns ind.

Section Spec.
Context {N : num}.

(** Successive grid_step calls from s pass through the given states (the first
    being s itself), each but the last call succeeding, and the last raising
    StopStepping and leaving the inference in state [e]. *)
Fixpoint trail (s : st N) (l : list (st N)) (e : st N) : Prop :=
  match l with
  | [] => False
  | [a] => a = s /\ grid_step s = (e, Err StopStepping)
  | a :: l' => a = s /\ exists s1, grid_step s = (s1, Ok tt) /\ trail s1 l' e
  end.

(** Every stepping parameter is at its first step with forward direction. *)
Definition at_start (s : st N) : Prop :=
  forall p, In p (stepl s) ->
    p_num (ps s p) = Some 0%Z /\ p_value (ps s p) = p_slo (ps s p)
    /\ info s p = Some Nextd.

(** The parameter was declared stepping by a linstep or logstep call that
    succeeded, with a positive number of steps. *)
Definition steppable (h : pst N) : Prop :=
  (exists n, p_steps h = Some n /\ 1 <= n)%Z /\
  match p_stype h with
  | Some LinSteps => p_delta h <> None
  | Some LogSteps => p_fac h <> None
  | None => False
  end.

(** The sizes of the grid. *)
Definition sizes (s : st N) (ns : list nat) : Prop :=
  step_shape s = map (fun n => Some (Z.of_nat n)) ns.

(** The index tuple shown by step_nums. *)
Definition indices (s : st N) (ind : list Z) : Prop :=
  step_nums s = map Some ind.

End Spec.

Section Scores.
Context {N : num}.

(** Product of the sizes: the number of cells. *)
Definition ncells (ns : list nat) : nat := fold_right Nat.mul 1 ns.

(** The first of the entries that none of the others beats. *)
Fixpoint first_best (bt : N -> N -> bool) (best : option (N * list Z))
    (l : list (list Z * N)) : option (N * list Z) :=
  match l with
  | [] => best
  | (i, v) :: l' =>
      first_best bt
        (match best with
         | None => Some (v, i)
         | Some (b, bi) => if bt v b then Some (v, i) else Some (b, bi)
         end) l'
  end.

(** Going through the grid from state s: at each point the computation [pt] is
    made, giving parameters and a score, and then a grid step. *)
Inductive traversal (pt : M N (list N * N))
  : st N -> list (list Z) -> list (list N * N) -> st N -> Prop :=
| tr_last : forall s s1 e ind o, indices s ind -> pt s = (s1, Ok o) ->
    grid_step s1 = (e, Err StopStepping) -> traversal pt s [ind] [o] e
| tr_step : forall s s1 s2 e ind o inds os, indices s ind -> pt s = (s1, Ok o) ->
    grid_step s1 = (s2, Ok tt) -> traversal pt s2 inds os e ->
    traversal pt s (ind :: inds) (o :: os) e.

(** s' differs from s at most in the values of varying parameters and in the
    steps of the stepping parameters. *)
Definition same_setup (s s' : st N) : Prop :=
  fixedl s' = fixedl s /\ varyl s' = varyl s /\ stepl s' = stepl s
  /\ (forall q, In q (fixedl s) -> ps s' q = ps s q)
  /\ (forall q, In q (stepl s) ->
        p_slo (ps s' q) = p_slo (ps s q) /\ p_shi (ps s' q) = p_shi (ps s q)
        /\ p_steps (ps s' q) = p_steps (ps s q) /\ p_stype (ps s' q) = p_stype (ps s q)).
End Scores.

(** Anything a user can do with one inference: parameter operations, and fits,
    grids and optimisations with whatever score and minimiser. *)
Inductive session {N : num} (dflt : nat -> option N) : st N -> Prop :=
| ses_new : session dflt st0
| ses_op : forall s o, session dflt s -> session dflt (fst (run_op dflt o s))
| ses_fit : forall s preds scoref minimiser sns unb fuel vg, session dflt s ->
    session dflt (fst (fit preds scoref minimiser sns unb fuel vg s))
| ses_grid : forall s preds scoref minimiser sns unb fuel vg, session dflt s ->
    session dflt (fst (do_grid preds scoref minimiser sns unb fuel vg s))
| ses_optimize : forall s preds scoref minimiser sns unb, session dflt s ->
    session dflt (fst (optimize preds scoref minimiser sns unb s)).
