(** Model of grid evaluation and optimisation of an inference:
    package/inference/pie/inference_base.py:401-574 and containers.py:47-64. *)

From Coq Require Import ZArith List Bool Arith.
From Verif Require Import Exn PieModel.
Import ListNotations.
Open Scope exn_scope.

(** Whether large or small scores are preferred: inference_base.py:18-29,
    bayes.py:13, maxlike.py:10, chisqr.py:9. *)
Inductive sense := Maximize | Minimize.

(** containers.py:47-64, ScalarGrid: the shape and the cells written, latest
    first.  A cell never written holds NaN ([None] in [cell]). *)
Record grid (N : num) : Type := Grid {
  g_shape : list Z;
  g_cells : list (list Z * N)
}.
Arguments Grid {N}. Arguments g_shape {N}. Arguments g_cells {N}.

Section Model.
Context {N : num}.
Notation state := (st N).

(** values[ind] of the grid. *)
Fixpoint find_cell (ind : list Z) (l : list (list Z * N)) : option N :=
  match l with
  | [] => None
  | (i, v) :: l' => if list_eq_dec Z.eq_dec i ind then Some v else find_cell ind l'
  end.
Definition cell (g : grid N) (ind : list Z) : option N := find_cell ind (g_cells g).

(** NumPy index handling: negative indices count from the end, indices out of
    bounds raise. *)
Fixpoint norm_index (shape ind : list Z) : option (list Z) :=
  match shape, ind with
  | [], [] => Some []
  | n :: shape', i :: ind' =>
      let j := if Z.ltb i 0 then (i + n)%Z else i in
      if Z.leb 0 j && Z.ltb j n
      then match norm_index shape' ind' with
           | Some r => Some (j :: r)
           | None => None
           end
      else None
  | _, _ => None
  end.

(** All entries present, or the first missing attribute raises. *)
Fixpoint all_some {A} (l : list (option A)) : option (list A) :=
  match l with
  | [] => Some []
  | Some a :: l' => match all_some l' with Some r => Some (a :: r) | None => None end
  | None :: _ => None
  end.

(** ScalarGrid(self.stepping_params): reads the step description of each
    parameter; numpy.empty rejects a negative dimension. *)
Definition new_grid : M N (grid N) :=
  s <- get;;
  _ <- attr AttributeError (all_some (map (fun p => p_slo (ps s p)) (stepl s)));;
  _ <- attr AttributeError (all_some (map (fun p => p_shi (ps s p)) (stepl s)));;
  shape <- attr AttributeError (all_some (step_shape s));;
  if existsb (fun n => Z.ltb n 0) shape then raise ValueError
  else ret (Grid shape []).

(** results.values[ind] = v *)
Definition write (g : grid N) (ind : list Z) (v : N) : M N (grid N) :=
  match norm_index (g_shape g) ind with
  | Some i => ret (Grid (g_shape g) ((i, v) :: g_cells g))
  | None => raise IndexError
  end.

(** Current parameter values, the argument of the user's score. *)
Definition values (s : state) : nat -> option N := fun p => p_value (ps s p).

Section Oracles.
(** The numerical score as a function of the parameter values, with the
    predictors it evaluates. *)
Variable preds : list nat.
Variable scoref : (nat -> option N) -> N.
(** Powell's method: the argument vectors at which it calls _score, and the
    vector and minimum it returns (utils/nrmin.py is modelled separately). *)
Variable minimiser : state -> list N -> list N -> list (list N) * (list N * N).
Variable sns : sense.
Variable unb : bool.   (* self.use_unbounded *)

(** self.score() *)
Definition score : M N N :=
  score_eval preds;;; s <- get;; ret (scoref (values s)).

Definition neg (v : N) : N := sub N (ofZ N 0) v.

(** inference_base.py:373-399, _score. *)
Definition _score (args : list N) : M N N :=
  score_assign unb args;;;
  v <- score;;
  ret (match sns with Minimize => v | Maximize => neg v end).

(** inference_base.py:496-511: start value and scale of one parameter in the
    unbounded representation, probing one step up or down. *)
Definition probe (p : nat) : M N (N * N) :=
  uv <- unbounded_get p;;
  h <- hnd p;;
  v <- attr AttributeError (p_value h);;
  d <- attr TypeError (p_delta h);;
  dd <- (fun s => match set_value p (add N v d) s with
                  | (s', Ok _) => (uv2 <- unbounded_get p;; ret (sub N uv2 uv)) s'
                  | (s', Err ParamRangeError) =>
                      (set_value p (sub N v d);;;
                       uv2 <- unbounded_get p;; ret (sub N uv uv2)) s'
                  | (s', Err e) => (s', Err e)
                  end);;
  set_value p v;;;
  ret (uv, dd).

(** inference_base.py:513-515. *)
Definition start (p : nat) : M N (N * N) :=
  h <- hnd p;;
  v <- attr AttributeError (p_value h);;
  d <- attr TypeError (p_delta h);;
  ret (v, d).

Fixpoint collect (l : list nat) (f : nat -> M N (N * N)) : M N (list (N * N)) :=
  match l with
  | [] => ret []
  | p :: l' => a <- f p;; r <- collect l' f;; ret (a :: r)
  end.

(** inference_base.py:472-536, optimize (method powell; the settings method
    and tol only select errors and are not modelled). The two calls of powell
    are one call of the oracle. *)
Definition optimize : M N (list N * N) :=
  s <- get;;
  match varyl s with
  | [] => raise InferenceError
  | _ =>
      pd <- collect (varyl s) (if unb then probe else start);;
      s1 <- get;;
      let '(tries, (params, extremum)) := minimiser s1 (map fst pd) (map snd pd) in
      for_each tries (fun args => v <- _score args;; ret tt);;;
      s2 <- get;;
      let ext := match sns with Minimize => extremum | Maximize => neg extremum end in
      if unb
      then ps' <- attr AttributeError (all_some (map (fun p => p_value (ps s2 p)) (varyl s)));;
           ret (ps', ext)
      else ret (params, ext)
  end.

(** inference_base.py:438-444: is a better than the best so far? *)
Definition better (a b : N) : bool :=
  match sns with Maximize => ltb N b a | Minimize => ltb N a b end.

(** Result of do_grid: grid, best value with its index (only with varying
    parameters) and, with vargrid, the optimised values per cell. *)
Record grid_result : Type := GridResult {
  gr_grid : grid N;
  gr_opt : option (N * list Z);
  gr_vec : list (list Z * list N)
}.

(** inference_base.py:426-462, the loop of do_grid.  [varying] is the truth
    value of self.varying_params, which the loop does not change. *)
Fixpoint grid_loop (fuel : nat) (varying vargrid : bool) (r : grid_result)
  : M N grid_result :=
  match fuel with
  | O => raise OutOfFuel
  | S fuel' =>
      s <- get;;
      ind <- attr AttributeError (all_some (step_nums s));;
      r' <- (if varying then
               o <- optimize;;
               let '(params, ext) := o in
               g <- write (gr_grid r) ind ext;;
               let opt := match gr_opt r with
                          | None => Some (ext, ind)
                          | Some (b, bi) => if better ext b then Some (ext, ind)
                                            else Some (b, bi)
                          end in
               ret (GridResult g opt
                      (if vargrid then (ind, params) :: gr_vec r else gr_vec r))
             else
               v <- score;;
               g <- write (gr_grid r) ind v;;
               ret (GridResult g (gr_opt r) (gr_vec r)));;
      (fun s1 => match grid_step s1 with
                 | (s2, Err StopStepping) => (s2, Ok r')
                 | (s2, Err e) => (s2, Err e)
                 | (s2, Ok _) => grid_loop fuel' varying vargrid r' s2
                 end)
  end.

(** inference_base.py:401-470, do_grid. With vargrid and no varying parameter
    the final assignment reads opt_ind, which was never bound. *)
Definition do_grid (fuel : nat) (vargrid : bool) : M N grid_result :=
  g <- new_grid;;
  s <- get;;
  let varying := match varyl s with [] => false | _ => true end in
  r <- grid_loop fuel varying vargrid (GridResult g None []);;
  if vargrid && negb varying then raise UnboundLocalError else ret r.

(** inference_base.py:542-574, fit. *)
Inductive fit_result : Type :=
| FScore (v : N)
| FOpt (params : list N) (v : N)
| FGrid (r : grid_result).

Definition fit (fuel : nat) (vargrid : bool) : M N fit_result :=
  s <- get;;
  match varyl s, stepl s with
  | [], [] => v <- score;; ret (FScore v)
  | _, [] => o <- optimize;; ret (FOpt (fst o) (snd o))
  | _, _ => r <- do_grid fuel vargrid;; ret (FGrid r)
  end.

End Oracles.
End Model.
Arguments grid_result N : clear implicits.
Arguments fit_result N : clear implicits.
