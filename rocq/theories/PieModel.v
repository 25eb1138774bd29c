(** Model of parameter handling in an inference object:
    package/inference/pie/param.py, realparam.py and the parameter bookkeeping
    of inference_base.py.  The numbers are an arbitrary type with arbitrary
    operations: nothing is assumed about them, so every theorem proved for all
    [num] holds for Python floats, NaN included. *)

From Coq Require Import ZArith List Bool Arith.
From Verif Require Import Exn.
Import ListNotations.
Open Scope exn_scope.

(** Python float operations used by realparam.py.  [div] is NumPy/float
    division with a non-zero divisor. *)
Record num : Type := Num {
  V :> Type;
  leb : V -> V -> bool;   (* a <= b *)
  ltb : V -> V -> bool;   (* a < b *)
  eqb : V -> V -> bool;   (* a == b *)
  add : V -> V -> V;
  sub : V -> V -> V;
  mul : V -> V -> V;
  div : V -> V -> V;
  vexp : V -> V;
  vlog : V -> V;
  bad : V -> bool;        (* isinf(x) or isnan(x) *)
  ofZ : Z -> V            (* float(int) *)
}.

(** param.py:15-16, class Status. *)
Inductive status := Undef | Fixed | Stepping | Varying.
(** param.py:25-26, class StepType. *)
Inductive stepkind := LinSteps | LogSteps.
(** param.py:33-34, class Direction. *)
Inductive dir := Nextd | Prevd.

(** param.py:40-47, reverse_direction (an invalid direction cannot arise). *)
Definition reverse_direction (d : dir) : dir :=
  match d with Nextd => Prevd | Prevd => Nextd end.

Definition status_eqb (a b : status) : bool :=
  match a, b with
  | Undef, Undef | Fixed, Fixed | Stepping, Stepping | Varying, Varying => true
  | _, _ => false
  end.

(** What listeners are told, and the calls made on the user's model: the
    trace kept in the state.  A status or value event names the listener, the
    parameter and the value or status visible to the listener at that moment
    (a status event also the old status it is passed).  [EvUse] is a call of
    the user's on_use hook and [EvSignal] a use of signal()/signals(). *)
Inductive event (N : num) : Type :=
| EvStatus (listener p : nat) (old seen : status)
| EvValue (listener p : nat) (seen : option N)
| EvUse
| EvSignal (pred : nat).
Arguments EvStatus {N}. Arguments EvValue {N}. Arguments EvUse {N}.
Arguments EvSignal {N}.

(** State of one RealParamHandler (param.py:148-153, realparam.py:65-68 and
    the attributes assigned later).  An attribute that may not exist yet is an
    [option]; [self.bounded], [self.lo], [self.hi] are one field because they
    are only set together (realparam.py:109-116).  The value is what the owner
    stores under [value_name] (param.py:201-202), which is always the
    handler's [_value].  Listener 0 is the owning inference. *)
Record pst (N : num) : Type := Pst {
  p_status : status;
  p_value : option N;
  p_bnd : option (N * N);
  p_delta : option N;
  p_fac : option N;
  p_stype : option stepkind;
  p_slo : option N;
  p_shi : option N;
  p_steps : option Z;
  p_num : option Z;
  p_lst : list nat
}.
Arguments Pst {N}. Arguments p_status {N}. Arguments p_value {N}.
Arguments p_bnd {N}. Arguments p_delta {N}. Arguments p_fac {N}.
Arguments p_stype {N}. Arguments p_slo {N}. Arguments p_shi {N}.
Arguments p_steps {N}. Arguments p_num {N}. Arguments p_lst {N}.

(** State of an inference: its parameters (numbered), the three lists and
    stepping_info of inference_base.py:49-52, and the trace. *)
Record st (N : num) : Type := St {
  ps : nat -> pst N;
  fixedl : list nat;
  varyl : list nat;
  stepl : list nat;
  info : nat -> option dir;
  trace : list (event N)
}.
Arguments St {N}. Arguments ps {N}. Arguments fixedl {N}. Arguments varyl {N}.
Arguments stepl {N}. Arguments info {N}. Arguments trace {N}.

(** Pointwise update of a map from parameter numbers. *)
Definition upd {A : Type} (f : nat -> A) (p : nat) (a : A) : nat -> A :=
  fun q => if Nat.eqb q p then a else f q.

(** list.remove(x): removes the first occurrence, None if absent. *)
Fixpoint remove1 (p : nat) (l : list nat) : option (list nat) :=
  match l with
  | [] => None
  | q :: l' => if Nat.eqb q p then Some l'
               else match remove1 p l' with
                    | Some r => Some (q :: r)
                    | None => None
                    end
  end.

Section Model.
Context {N : num}.

Notation state := (st N).
Definition M (A : Type) : Type := state -> state * res A.

(** A freshly created handler: param.py:141-154, realparam.py:65-68. *)
Definition pst0 : pst N :=
  Pst Undef None None None None None None None None None [0].

(** An inference just after Inference.__init__: inference_base.py:49-52. *)
Definition st0 : state := St (fun _ => pst0) [] [] [] (fun _ => None) [].

Definition upd_p (p : nat) (f : pst N -> pst N) (s : state) : state :=
  St (upd (ps s) p (f (ps s p))) (fixedl s) (varyl s) (stepl s) (info s) (trace s).
Definition set_lists (f v t : list nat) (s : state) : state :=
  St (ps s) f v t (info s) (trace s).
Definition set_info (p : nat) (o : option dir) (s : state) : state :=
  St (ps s) (fixedl s) (varyl s) (stepl s) (upd (info s) p o) (trace s).
Definition log_ev (evs : list (event N)) (s : state) : state :=
  St (ps s) (fixedl s) (varyl s) (stepl s) (info s) (trace s ++ evs).

Definition with_status (x : status) (q : pst N) : pst N :=
  Pst x (p_value q) (p_bnd q) (p_delta q) (p_fac q) (p_stype q) (p_slo q)
      (p_shi q) (p_steps q) (p_num q) (p_lst q).
Definition with_value (v : N) (q : pst N) : pst N :=
  Pst (p_status q) (Some v) (p_bnd q) (p_delta q) (p_fac q) (p_stype q) (p_slo q)
      (p_shi q) (p_steps q) (p_num q) (p_lst q).
Definition with_bnd (b : N * N) (q : pst N) : pst N :=
  Pst (p_status q) (p_value q) (Some b) (p_delta q) (p_fac q) (p_stype q) (p_slo q)
      (p_shi q) (p_steps q) (p_num q) (p_lst q).
Definition with_delta (d : N) (q : pst N) : pst N :=
  Pst (p_status q) (p_value q) (p_bnd q) (Some d) (p_fac q) (p_stype q) (p_slo q)
      (p_shi q) (p_steps q) (p_num q) (p_lst q).
Definition with_fac (d : N) (q : pst N) : pst N :=
  Pst (p_status q) (p_value q) (p_bnd q) (p_delta q) (Some d) (p_stype q) (p_slo q)
      (p_shi q) (p_steps q) (p_num q) (p_lst q).
Definition with_stype (k : stepkind) (q : pst N) : pst N :=
  Pst (p_status q) (p_value q) (p_bnd q) (p_delta q) (p_fac q) (Some k) (p_slo q)
      (p_shi q) (p_steps q) (p_num q) (p_lst q).
Definition with_slo (v : N) (q : pst N) : pst N :=
  Pst (p_status q) (p_value q) (p_bnd q) (p_delta q) (p_fac q) (p_stype q) (Some v)
      (p_shi q) (p_steps q) (p_num q) (p_lst q).
Definition with_shi (v : N) (q : pst N) : pst N :=
  Pst (p_status q) (p_value q) (p_bnd q) (p_delta q) (p_fac q) (p_stype q) (p_slo q)
      (Some v) (p_steps q) (p_num q) (p_lst q).
Definition with_steps (n : Z) (q : pst N) : pst N :=
  Pst (p_status q) (p_value q) (p_bnd q) (p_delta q) (p_fac q) (p_stype q) (p_slo q)
      (p_shi q) (Some n) (p_num q) (p_lst q).
Definition with_num (n : Z) (q : pst N) : pst N :=
  Pst (p_status q) (p_value q) (p_bnd q) (p_delta q) (p_fac q) (p_stype q) (p_slo q)
      (p_shi q) (p_steps q) (Some n) (p_lst q).
Definition with_lst (l : list nat) (q : pst N) : pst N :=
  Pst (p_status q) (p_value q) (p_bnd q) (p_delta q) (p_fac q) (p_stype q) (p_slo q)
      (p_shi q) (p_steps q) (p_num q) l.

(** self.attr = value on parameter p. *)
Definition put (p : nat) (f : pst N -> pst N) : M unit := modify (upd_p p f).
(** Reading the handler of parameter p. *)
Definition hnd (p : nat) : M (pst N) := fun s => (s, Ok (ps s p)).

(** param.py:195-204, _set_value: store, then tell every listener.  The
    user's on_param_change hook (reached through the owner's
    _on_param_value_change, signalmodel.py:79-85) is documented not to assign
    parameters and is not otherwise modelled. *)
Definition set_value_ (p : nat) (v : N) : M unit :=
  put p (with_value v);;;
  h <- hnd p;;
  modify (log_ev (map (fun l => EvValue l p (p_value h)) (p_lst h))).

(** realparam.py:210-215, first_step. *)
Definition first_step (p : nat) : M unit :=
  h <- hnd p;;
  if status_eqb (p_status h) Stepping then
    put p (with_num 0%Z);;;
    v <- attr AttributeError (p_slo h);;
    set_value_ p v
  else raise RuntimeError.

(** inference_base.py:252-259, reset_steps. *)
Definition reset_steps : M unit :=
  s <- get;;
  for_each (stepl s)
    (fun p => first_step p;;; modify (set_info p (Some Nextd))).

(** The five-line block "append to stepping_params, set the direction, reset"
    of inference_base.py:206-208, 214-216, 222-224. *)
Definition start_stepping (p : nat) : M unit :=
  s <- get;;
  modify (set_lists (fixedl s) (varyl s) (stepl s ++ [p]));;;
  modify (set_info p (Some Nextd));;;
  reset_steps.

Definition append_fixed (p : nat) : M unit :=
  s <- get;; modify (set_lists (fixedl s ++ [p]) (varyl s) (stepl s)).
Definition append_varying (p : nat) : M unit :=
  s <- get;; modify (set_lists (fixedl s) (varyl s ++ [p]) (stepl s)).

(** inference_base.py:188-232, Inference._on_param_status_change. *)
Definition on_param_status_change (p : nat) (old new : status) : M unit :=
  if status_eqb old new then
    if status_eqb new Stepping
    then modify (set_info p (Some Nextd));;; reset_steps
    else ret tt
  else
  match old with
  | Undef =>
      match new with
      | Fixed => append_fixed p
      | Varying => append_varying p
      | Stepping => start_stepping p
      | Undef => ret tt
      end
  | Fixed =>
      s <- get;;
      r <- attr ValueError (remove1 p (fixedl s));;
      modify (set_lists r (varyl s) (stepl s));;;
      match new with
      | Varying => append_varying p
      | Stepping => start_stepping p
      | _ => ret tt
      end
  | Varying =>
      s <- get;;
      r <- attr ValueError (remove1 p (varyl s));;
      modify (set_lists (fixedl s) r (stepl s));;;
      match new with
      | Fixed => append_fixed p
      | Stepping => start_stepping p
      | _ => ret tt
      end
  | Stepping =>
      s <- get;;
      r <- attr ValueError (remove1 p (stepl s));;
      modify (set_lists (fixedl s) (varyl s) r);;;
      reset_steps;;;
      s' <- get;;
      (match info s' p with
       | Some _ => modify (set_info p None)
       | None => raise KeyError
       end);;;
      match new with
      | Fixed => append_fixed p
      | Varying => append_varying p
      | _ => ret tt
      end
  end.

(** One iteration of the notification loop param.py:187-188: the event is
    recorded, and the owner (listener 0) runs its bookkeeping. *)
Definition notify_status (p : nat) (old new : status) (l : nat) : M unit :=
  h <- hnd p;;
  modify (log_ev [EvStatus l p old (p_status h)]);;;
  if Nat.eqb l 0 then on_param_status_change p old new else ret tt.

(** param.py:180-188, _set_status. *)
Definition set_status_ (p : nat) (x : status) : M unit :=
  h <- hnd p;;
  put p (with_status x);;;
  for_each (p_lst h) (notify_status p (p_status h) x).

(** The test "value >= self.lo and value <= self.hi". *)
Definition within (v : N) (b : N * N) : bool :=
  leb N (fst b) v && leb N v (snd b).

(** realparam.py:70-81, set_value. *)
Definition set_value (p : nat) (v : N) : M unit :=
  h <- hnd p;;
  if status_eqb (p_status h) Varying then
    match p_bnd h with
    | Some b => if within v b then set_value_ p v else raise ParamRangeError
    | None => set_value_ p v
    end
  else raise ParamError.

(** realparam.py:88-107, fix; [None] is the default argument. *)
Definition fix_ (p : nat) (o : option N) : M unit :=
  h <- hnd p;;
  (match o with
   | None => if status_eqb (p_status h) Undef then raise ParamError else ret tt
   | Some v =>
       match p_bnd h with
       | Some b => if within v b then set_value_ p v else raise ParamRangeError
       | None => set_value_ p v
       end
   end);;;
  set_status_ p Fixed.

(** Python's min and max of a pair. *)
Definition vmin (a b : N) : N := if ltb N b a then b else a.
Definition vmax (a b : N) : N := if ltb N a b then b else a.

(** realparam.py:109-116, range with two scalars or one pair (a wrong number
    of arguments, which raises ValueError first, is not modelled). *)
Definition range (p : nat) (a b : N) : M unit :=
  put p (with_bnd (vmin a b, vmax a b)).

(** The range tests on a step end, realparam.py:122-127 and 149-154. *)
Definition check_end (b : option (N * N)) (o : option N) : M unit :=
  match b, o with
  | Some (lo, hi), Some v =>
      if ltb N v lo || ltb N hi v then raise ParamRangeError else ret tt
  | _, _ => ret tt
  end.

(** "self.slo = self.lo" when the argument is missing. *)
Definition pick (o : option N) (b : option N) : M N :=
  match o with
  | Some v => ret v
  | None => attr AttributeError b
  end.

Definition bnd_lo (h : pst N) : option N := option_map fst (p_bnd h).
Definition bnd_hi (h : pst N) : option N := option_map snd (p_bnd h).

(** realparam.py:120-141, linstep (and step, 143-145). *)
Definition linstep (p : nat) (lo hi : option N) (n : Z) : M unit :=
  h <- hnd p;;
  check_end (p_bnd h) lo;;;
  check_end (p_bnd h) hi;;;
  put p (with_stype LinSteps);;;
  l <- pick lo (bnd_lo h);;
  put p (with_slo l);;;
  u <- pick hi (bnd_hi h);;
  put p (with_shi u);;;
  put p (with_steps n);;;
  match lo, hi with
  | Some a, Some b =>
      if Z.eqb n 1 then raise ZeroDivisionError
      else
        put p (with_delta (div N (sub N b a) (ofZ N (n - 1)%Z)));;;
        put p (with_num 0%Z);;;
        set_value_ p a;;;
        set_status_ p Stepping
  | _, _ => raise TypeError
  end.

(** Python truth value of a float. *)
Definition truthy (v : N) : bool := negb (eqb N v (ofZ N 0)).

(** realparam.py:147-170, logstep. *)
Definition logstep (p : nat) (lo hi : option N) (n : Z) : M unit :=
  h <- hnd p;;
  check_end (p_bnd h) lo;;;
  check_end (p_bnd h) hi;;;
  match lo, hi with
  | Some a, Some b =>
      if leb N (mul N a b) (ofZ N 0) then raise ValueError
      else
        put p (with_stype LogSteps);;;
        l <- (if truthy a then ret a else attr AttributeError (bnd_lo h));;
        put p (with_slo l);;;
        u <- (if truthy b then ret b else attr AttributeError (bnd_hi h));;
        put p (with_shi u);;;
        put p (with_steps n);;;
        if eqb N a (ofZ N 0) then raise ZeroDivisionError
        else
          put p (with_fac (vexp N (div N (vlog N (div N b a)) (ofZ N (n - 1)%Z))));;;
          put p (with_num 0%Z);;;
          set_value_ p a;;;
          set_status_ p Stepping
  | _, _ => raise TypeError
  end.

(** realparam.py:172-189, RealParamHandler.next_step.  The attributes read
    exist whenever the status is Stepping; reading a missing one raises. *)
Definition p_next_step (p : nat) : M unit :=
  h <- hnd p;;
  if status_eqb (p_status h) Stepping then
    k <- attr AttributeError (p_num h);;
    n <- attr AttributeError (p_steps h);;
    if Z.eqb k (n - 1)%Z then raise ParamRangeError
    else
      put p (with_num (k + 1)%Z);;;
      t <- attr AttributeError (p_stype h);;
      if Z.eqb (k + 1) (n - 1)%Z
      then u <- attr AttributeError (p_shi h);; set_value_ p u
      else
        v <- attr AttributeError (p_value h);;
        match t with
        | LinSteps => d <- attr TypeError (p_delta h);; set_value_ p (add N v d)
        | LogSteps => f <- attr AttributeError (p_fac h);; set_value_ p (mul N v f)
        end
  else raise ParamError.

(** realparam.py:191-208, RealParamHandler.prev_step. *)
Definition p_prev_step (p : nat) : M unit :=
  h <- hnd p;;
  if status_eqb (p_status h) Stepping then
    k <- attr AttributeError (p_num h);;
    if Z.eqb k 0 then raise ParamRangeError
    else
      put p (with_num (k - 1)%Z);;;
      t <- attr AttributeError (p_stype h);;
      if Z.eqb (k - 1) 0
      then l <- attr AttributeError (p_slo h);; set_value_ p l
      else
        v <- attr AttributeError (p_value h);;
        match t with
        | LinSteps => d <- attr TypeError (p_delta h);; set_value_ p (sub N v d)
        | LogSteps => f <- attr AttributeError (p_fac h);; set_value_ p (div N v f)
        end
  else raise ParamError.

(** realparam.py:217-222, last_step. *)
Definition last_step (p : nat) : M unit :=
  h <- hnd p;;
  if status_eqb (p_status h) Stepping then
    n <- attr AttributeError (p_steps h);;
    put p (with_num (n - 1)%Z);;;
    u <- attr AttributeError (p_shi h);;
    set_value_ p u
  else raise RuntimeError.

(** realparam.py:229-246, vary; a range argument is a pair (an empty one
    counts as missing in Python and is not modelled). *)
Definition vary (p : nat) (start delta : option N) (rng : option (N * N)) : M unit :=
  h <- hnd p;;
  (match rng with
   | Some (a, b) => range p a b
   | None => match p_bnd h with Some _ => ret tt | None => raise ValueError end
   end);;;
  (match delta with
   | Some d => put p (with_delta d)
   | None => match p_delta h with Some _ => ret tt | None => raise ValueError end
   end);;;
  set_status_ p Varying;;;
  match start with
  | Some v => set_value p v
  | None => match p_value h with Some _ => ret tt | None => raise AttributeError end
  end.

(** realparam.py:272-291, _unbounded_set_value. *)
Definition unbounded_set (p : nat) (u : N) : M unit :=
  h <- hnd p;;
  if status_eqb (p_status h) Varying then
    match p_bnd h with
    | None => raise ParamError
    | Some (lo, hi) =>
        let e := vexp N u in
        if bad N e
        then if ltb N (ofZ N 0) u then set_value_ p hi else set_value_ p lo
        else set_value_ p (div N (add N lo (mul N hi e)) (add N (ofZ N 1) e))
    end
  else raise ParamError.

(** realparam.py:254-270, _unbounded_get_value. *)
Definition unbounded_get (p : nat) : M N :=
  h <- hnd p;;
  match p_status h with
  | Undef => raise ValueError
  | Varying =>
      match p_bnd h with
      | None => raise ValueError
      | Some (lo, hi) =>
          v <- attr AttributeError (p_value h);;
          ret (sub N (vlog N (sub N v lo)) (vlog N (sub N hi v)))
      end
  | _ => raise RuntimeError
  end.

(** param.py:161-163, add_listener. *)
Definition add_listener (p l : nat) : M unit :=
  h <- hnd p;;
  if existsb (Nat.eqb l) (p_lst h) then ret tt
  else put p (with_lst (p_lst h ++ [l])).

(** param.py:165-169, del_listener: reads self.listener, which no code ever
    sets; the AttributeError is not among the exceptions caught. *)
Definition del_listener (p l : nat) : M unit := raise AttributeError.

(** param.py:93-109, Param.__get__: the value, installing the class default
    on first access. [dflt p] is the default given to RealParam. *)
Definition access (dflt : nat -> option N) (p : nat) : M unit :=
  h <- hnd p;;
  match p_value h with
  | Some _ => ret tt
  | None => put p (fun _ => pst0);;; fix_ p (dflt p)
  end.

(** param.py:111-118, Param.__set__. *)
Definition assign (p : nat) (o : option N) : M unit := fix_ p o.

(** inference_base.py:277-299, the loop of Inference.next_step. *)
Fixpoint grid_step_loop (last : nat) (l : list nat) : M unit :=
  match l with
  | [] => ret tt
  | p :: l' =>
      fun s =>
        match info s p with
        | None => (s, Err KeyError)
        | Some d =>
            match (match d with Nextd => p_next_step p | Prevd => p_prev_step p end) s with
            | (s', Ok _) => (s', Ok tt)
            | (s', Err ParamRangeError) =>
                if Nat.eqb p last
                then (reset_steps;;; raise StopStepping) s'
                else (modify (set_info p (Some (reverse_direction d)));;;
                      grid_step_loop last l') s'
            | (s', Err e) => (s', Err e)
            end
        end
  end.

(** inference_base.py:261-299, Inference.next_step. *)
Definition grid_step : M unit :=
  s <- get;;
  match stepl s with
  | [] => raise IndexError
  | p :: l => grid_step_loop (last l p) (p :: l)
  end.

(** inference_base.py:317-324, _set_varying. *)
Definition set_varying (vs : list N) : M unit :=
  s <- get;;
  if negb (Nat.eqb (length vs) (length (varyl s))) then raise ParamError
  else for_each (combine (varyl s) vs) (fun pv => set_value (fst pv) (snd pv)).

(** inference_base.py:389-394, the assignments made by _score(args). *)
Definition score_assign (unb : bool) (vs : list N) : M unit :=
  s <- get;;
  for_each (combine (varyl s) vs)
    (fun pv => if unb then unbounded_set (fst pv) (snd pv)
               else set_value (fst pv) (snd pv)).

(** inference_base.py:326-334, get_params: the list of (name, value). *)
Fixpoint get_params (dflt : nat -> option N) (names : list nat) : M (list (nat * N)) :=
  match names with
  | [] => ret []
  | p :: l =>
      access dflt p;;;
      h <- hnd p;;
      v <- attr AttributeError (p_value h);;
      r <- get_params dflt l;;
      ret ((p, v) :: r)
  end.

(** inference_base.py:336-348, set_params from a ParamValues holding value
    [pv p] for parameter p (None: attribute missing). *)
Definition set_params (dflt : nat -> option N) (names : list nat)
    (pv : nat -> option N) : M unit :=
  for_each names (fun p =>
    access dflt p;;;
    h <- hnd p;;
    match p_status h with
    | Fixed => v <- attr AttributeError (pv p);; fix_ p (Some v)
    | Varying => v <- attr AttributeError (pv p);; vary p (Some v) None None
    | _ => raise ParamError
    end).

(** gaussian.py:63-76, get_prdxns as reached from log_like/chisqr of predictor
    [k]: _on_use (signalmodel.py:87-93) and then the signal calls. *)
Definition evaluate (k : nat) : M unit :=
  modify (log_ev [EvUse; EvSignal k]).

(** bayes.py:29-41, maxlike.py:16-23, chisqr.py:15-24: the score visits every
    predictor. *)
Definition score_eval (preds : list nat) : M unit := for_each preds evaluate.

(** Everything a user can do to an inference, as data. A call of a handler
    method goes through attribute access, which installs the default. *)
Inductive op : Type :=
| OAccess (p : nat)
| OAssign (p : nat) (o : option N)
| OSetValue (p : nat) (v : N)
| OFix (p : nat) (o : option N)
| ORange (p : nat) (a b : N)
| OLinStep (p : nat) (lo hi : option N) (n : Z)
| OLogStep (p : nat) (lo hi : option N) (n : Z)
| ONext (p : nat)
| OPrev (p : nat)
| OFirst (p : nat)
| OLast (p : nat)
| OVary (p : nat) (start delta : option N) (rng : option (N * N))
| OUSet (p : nat) (u : N)
| OAddListener (p l : nat)
| ODelListener (p l : nat)
| OResetSteps
| OGridStep
| OSetVarying (vs : list N)
| OScoreAssign (unb : bool) (vs : list N)
| OSetParams (names : list nat) (pv : nat -> option N)
| OEvaluate (preds : list nat).

Definition run_op (dflt : nat -> option N) (o : op) : M unit :=
  match o with
  | OAccess p => access dflt p
  | OAssign p v => assign p v
  | OSetValue p v => access dflt p;;; set_value p v
  | OFix p v => access dflt p;;; fix_ p v
  | ORange p a b => access dflt p;;; range p a b
  | OLinStep p lo hi n => access dflt p;;; linstep p lo hi n
  | OLogStep p lo hi n => access dflt p;;; logstep p lo hi n
  | ONext p => access dflt p;;; p_next_step p
  | OPrev p => access dflt p;;; p_prev_step p
  | OFirst p => access dflt p;;; first_step p
  | OLast p => access dflt p;;; last_step p
  | OVary p a d r => access dflt p;;; vary p a d r
  | OUSet p u => access dflt p;;; unbounded_set p u
  | OAddListener p l => access dflt p;;; add_listener p l
  | ODelListener p l => access dflt p;;; del_listener p l
  | OResetSteps => reset_steps
  | OGridStep => grid_step
  | OSetVarying vs => set_varying vs
  | OScoreAssign b vs => score_assign b vs
  | OSetParams names pv => set_params dflt names pv
  | OEvaluate preds => score_eval preds
  end.

(** A history: exceptions are caught by the user and the history goes on. *)
Definition run (dflt : nat -> option N) (l : list op) (s : state) : state :=
  fold_left (fun s o => fst (run_op dflt o s)) l s.

(** inference_base.py:301-306, step_nums. *)
Definition step_nums (s : state) : list (option Z) :=
  map (fun p => p_num (ps s p)) (stepl s).
(** inference_base.py:308-315, step_shape. *)
Definition step_shape (s : state) : list (option Z) :=
  map (fun p => p_steps (ps s p)) (stepl s).

End Model.
Arguments op N : clear implicits.
Arguments M N A : clear implicits.
