(** Exceptions as values, and the state-and-exception discipline used by all
    models of Python code in this development.  A computation takes a state
    and returns the state the Python objects are left in together with either
    a result or the exception raised. *)

(** The exception classes that the modelled code raises, directly or through
    the interpreter (package/inference/pie/param.py:51-58,
    pie/signalmodel.py:9-11, pie/inference_base.py:31-32, utils/nrmin.py:71-72; the others are
    Python built-ins). *)
Inductive exn : Type :=
| ParamError | ParamRangeError | StopStepping | InferenceError | DataError
| ValueError | TypeError | ZeroDivisionError | AttributeError | RuntimeError
| IndexError | KeyError | UnboundLocalError | NotImplementedError
| RecursionError | IOError | NameError | IterErr | OverflowError
(** Not a Python exception: the model ran out of the steps it was given. *)
| OutOfFuel
(** Not a Python exception: C code reads or writes outside an array. *)
| BadMemory
(** Not a Python exception: an operation gives an infinity or no number; the
    model stops there. *)
| NotFinite.

(** Outcome of a call. *)
Inductive res (A : Type) : Type :=
| Ok (a : A)
| Err (e : exn).
Arguments Ok {A} a.
Arguments Err {A} e.

(** Sequencing of a computation that may raise: the state changes made before
    an exception are kept, as in Python. *)
Definition bind {S A B : Type} (m : S -> S * res A) (k : A -> S -> S * res B)
  : S -> S * res B :=
  fun s => match m s with
           | (s', Ok a) => k a s'
           | (s', Err e) => (s', Err e)
           end.

Definition ret {S A : Type} (a : A) : S -> S * res A := fun s => (s, Ok a).
Definition raise {S A : Type} (e : exn) : S -> S * res A := fun s => (s, Err e).
Definition modify {S : Type} (f : S -> S) : S -> S * res unit :=
  fun s => (f s, Ok tt).
Definition get {S : Type} : S -> S * res S := fun s => (s, Ok s).

(** Reading an attribute that may not exist yet. *)
Definition attr {S A : Type} (e : exn) (o : option A) : S -> S * res A :=
  fun s => match o with Some a => (s, Ok a) | None => (s, Err e) end.

Declare Scope exn_scope.
Delimit Scope exn_scope with exn.
Notation "x <- m ;; k" := (bind m (fun x => k))
  (at level 100, m at next level, right associativity) : exn_scope.
Notation "m ;;; k" := (bind m (fun _ => k))
  (at level 100, right associativity) : exn_scope.

(** A [for] loop whose body may raise. *)
Fixpoint for_each {S A : Type} (l : list A) (f : A -> S -> S * res unit)
  : S -> S * res unit :=
  match l with
  | nil => ret tt
  | cons a l' => bind (f a) (fun _ => for_each l' f)
  end.
