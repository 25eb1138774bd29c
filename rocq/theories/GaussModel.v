(** Model of predictors with Gaussian noise and of the scores built from them:
    package/inference/pie/gaussian.py, predictor.py:14-83, signalmodel.py:79-93,
    bayes.py:29-41, maxlike.py:16-23, chisqr.py:15-24.

    A world holds any number of inference instances of one class, whose
    predictors 0, 1, ... share their original data.  Arrays are objects in a
    heap, so that two names can refer to one array.  Locations are scalars:
    SampledGaussian.set_data (gaussian.py:279-284) raises AttributeError for
    any other. *)

From Coq Require Import ZArith List Bool Arith.
From Verif Require Import Exn PieModel PieGridModel.
Import ListNotations.
Open Scope exn_scope.

(** The kind of a sequence object. *)
Inductive kind := PyList | NdArray.

(** Identity of a sequence object: original data of a predictor (0 locations,
    1 values, 2 sigmas), an object made by the library, or an object that
    belongs to the caller. *)
Inductive addr :=
| AShared (pred field : nat)
| AOwn (n : nat)
| ACaller (n : nat).

Definition addr_eqb (a b : addr) : bool :=
  match a, b with
  | AShared p f, AShared q g => Nat.eqb p q && Nat.eqb f g
  | AOwn n, AOwn m => Nat.eqb n m
  | ACaller n, ACaller m => Nat.eqb n m
  | _, _ => false
  end.

Record obj (N : num) : Type := Obj { o_kind : kind; o_elems : list N }.
Arguments Obj {N}. Arguments o_kind {N}. Arguments o_elems {N}.

(** SampledGaussianHandler, gaussian.py:14-33. *)
Record hnd (N : num) : Type := Hnd {
  h_locns : addr;
  h_vals : addr;
  h_sigmas : addr;
  h_ndata : nat;
  h_globals : bool;               (* _using_globals *)
  h_prdxns : option (obj N)       (* None also stands for a missing attribute *)
}.
Arguments Hnd {N}. Arguments h_locns {N}. Arguments h_vals {N}.
Arguments h_sigmas {N}. Arguments h_ndata {N}. Arguments h_globals {N}.
Arguments h_prdxns {N}.

(** The user's SignalModel: [C] is whatever the hook on_use keeps in the
    instance; the hook may raise.  signals returns None when it is not
    overridden.  All see the current parameter values and what the hook has
    stored; that signal, signals and log_prior neither raise nor store nor
    modify their argument is assumed. *)
Record user (N : num) : Type := User {
  C : Type;
  c0 : C;
  on_use : (nat -> option N) -> C -> C * option exn;
  signals : (nat -> option N) -> C -> list N -> option (list N);
  signal : (nat -> option N) -> C -> N -> N;
  log_prior : (nat -> option N) -> C -> N
}.
Arguments User {N}. Arguments C {N}. Arguments c0 {N}. Arguments on_use {N}.
Arguments signals {N}. Arguments signal {N}. Arguments log_prior {N}.

Record world (N : num) (U : user N) : Type := World {
  hp : addr -> obj N;
  nexta : nat;
  hnds : nat -> nat -> option (hnd N);   (* instance, predictor *)
  pie : nat -> st N;                     (* the parameters of an instance *)
  cache : nat -> C U;
  uses : nat -> bool;                    (* on_use_done *)
  draws : nat                            (* normal deviates used so far *)
}.
Arguments World {N U}. Arguments hp {N U}. Arguments nexta {N U}.
Arguments hnds {N U}. Arguments pie {N U}. Arguments cache {N U}.
Arguments uses {N U}. Arguments draws {N U}.

Section Model.
Context {N : num} {U : user N}.
(** stdnorm.rvs: the k-th normal deviate. *)
Variable noise : nat -> N.
(** Default values of the parameters. *)
Variable dflt : nat -> option N.

Notation state := (world N U).
Definition G (A : Type) : Type := state -> state * res A.

Definition set_obj (a : addr) (x : obj N) (w : state) : state :=
  World (fun b => if addr_eqb b a then x else hp w b) (nexta w) (hnds w) (pie w)
        (cache w) (uses w) (draws w).
Definition set_hnd (i k : nat) (h : hnd N) (w : state) : state :=
  World (hp w) (nexta w) (upd (hnds w) i (upd (hnds w i) k (Some h))) (pie w)
        (cache w) (uses w) (draws w).

(** A new array object. *)
Definition alloc (x : obj N) : G addr :=
  fun w => (World (fun b => if addr_eqb b (AOwn (nexta w)) then x else hp w b)
              (S (nexta w)) (hnds w) (pie w) (cache w) (uses w) (draws w),
            Ok (AOwn (nexta w))).

(** Predictor.__get__, predictor.py:71-82: the handler, made on first access
    with references to the original data (gaussian.py:22-33). *)
Definition handler (i k : nat) : G (hnd N) :=
  fun w => match hnds w i k with
  | Some h => (w, Ok h)
  | None =>
      let h := Hnd (AShared k 0) (AShared k 1) (AShared k 2)
                   (length (o_elems (hp w (AShared k 1)))) true None in
      (set_hnd i k h w, Ok h)
  end.
Definition put_hnd (i k : nat) (f : hnd N -> hnd N) : G unit :=
  h <- handler i k;; modify (set_hnd i k (f h)).

Definition with_locns (a : addr) (h : hnd N) : hnd N :=
  Hnd a (h_vals h) (h_sigmas h) (h_ndata h) (h_globals h) (h_prdxns h).
Definition with_vals (a : addr) (h : hnd N) : hnd N :=
  Hnd (h_locns h) a (h_sigmas h) (h_ndata h) (h_globals h) (h_prdxns h).
Definition with_sigmas (a : addr) (h : hnd N) : hnd N :=
  Hnd (h_locns h) (h_vals h) a (h_ndata h) (h_globals h) (h_prdxns h).
Definition with_ndata (n : nat) (h : hnd N) : hnd N :=
  Hnd (h_locns h) (h_vals h) (h_sigmas h) n (h_globals h) (h_prdxns h).
Definition with_globals (b : bool) (h : hnd N) : hnd N :=
  Hnd (h_locns h) (h_vals h) (h_sigmas h) (h_ndata h) b (h_prdxns h).
Definition with_prdxns (o : option (obj N)) (h : hnd N) : hnd N :=
  Hnd (h_locns h) (h_vals h) (h_sigmas h) (h_ndata h) (h_globals h) o.

Definition read (a : addr) : G (obj N) := fun w => (w, Ok (hp w a)).
(** x.copy() *)
Definition copy (a : addr) : G addr := x <- read a;; alloc x.

(** gaussian.py:35-48, localize_data. *)
Definition localize_data (i k : nat) : G unit :=
  h <- handler i k;;
  if h_globals h then
    a <- copy (h_locns h);; put_hnd i k (with_locns a);;;
    b <- copy (h_vals h);; put_hnd i k (with_vals b);;;
    c <- copy (h_sigmas h);; put_hnd i k (with_sigmas c);;;
    put_hnd i k (with_globals false)
  else ret tt.

(** gaussian.py:50-61, changing_data. *)
Definition changing_data (i k : nat) : G unit :=
  localize_data i k;;; put_hnd i k (with_prdxns None).

(** Parameter values seen by the user's methods. *)
Definition env (w : state) (i : nat) : nat -> option N := values (pie w i).

(** signalmodel.py:87-93, _on_use. *)
Definition _on_use (i : nat) : G unit :=
  fun w =>
    let '(c, e) := on_use U (env w i) (cache w i) in
    let w' b := World (hp w) (nexta w) (hnds w) (pie w) (upd (cache w) i c) b (draws w) in
    match e with
    | None => (w' (upd (uses w) i true), Ok tt)
    | Some x => (w' (uses w), Err x)
    end.

(** gaussian.py:63-76, get_prdxns. *)
Definition get_prdxns (i k : nat) : G (obj N) :=
  h <- handler i k;;
  _on_use i;;;
  x <- read (h_locns h);;
  w <- get;;
  let p := match signals U (env w i) (cache w i) (o_elems x) with
           | Some l => Obj NdArray l
           | None => Obj PyList (map (signal U (env w i) (cache w i)) (o_elems x))
           end in
  put_hnd i k (with_prdxns (Some p));;;
  ret p.

(** Elementwise operation of NumPy on one-dimensional operands with
    broadcasting.  Between two Python lists the operator is not arithmetic;
    for - and / and * it raises TypeError, and + (which concatenates) does
    not occur between two lists here. *)
Definition bcast (f : N -> N -> N) (x y : obj N) : G (obj N) :=
  match o_kind x, o_kind y with
  | PyList, PyList => raise TypeError
  | _, _ =>
      match o_elems x, o_elems y with
      | [a], l => ret (Obj NdArray (map (f a) l))
      | l, [b] => ret (Obj NdArray (map (fun a => f a b) l))
      | l, m => if Nat.eqb (length l) (length m)
                then ret (Obj NdArray (map (fun p => f (fst p) (snd p)) (combine l m)))
                else raise ValueError
      end
  end.

(** Python's sum of an array. *)
Definition total (l : list N) : N := fold_left (add N) l (ofZ N 0).

(** The common part of gaussian.py:78-84 and 86-92: the sum of the squared
    weighted residuals, resids/sigmas squared. *)
Definition wssr (i k : nat) : G N :=
  p <- get_prdxns i k;;
  h <- handler i k;;
  v <- read (h_vals h);;
  r <- bcast (sub N) v p;;
  s <- read (h_sigmas h);;
  q <- bcast (div N) r s;;
  ret (total (map (fun x => mul N x x) (o_elems q))).

(** gaussian.py:78-84, log_like. *)
Definition log_like (i k : nat) : G N :=
  t <- wssr i k;; ret (mul N (div N (ofZ N (-1)) (ofZ N 2)) t).
(** gaussian.py:86-92, chisqr. *)
Definition chisqr (i k : nat) : G N := wssr i k.

(** Scores: chisqr.py:15-24, maxlike.py:16-23, bayes.py:29-41; [preds] is
    predictor_names. *)
Inductive method := ChisqrInference | MaxLikeInference | BayesianInference.

Fixpoint sum_over (preds : list nat) (f : nat -> G N) (acc : N) : G N :=
  match preds with
  | [] => ret acc
  | k :: preds' => v <- f k;; sum_over preds' f (add N acc v)
  end.

Definition score (m : method) (preds : list nat) (i : nat) : G N :=
  match m with
  | ChisqrInference => sum_over preds (chisqr i) (ofZ N 0)
  | MaxLikeInference => sum_over preds (log_like i) (ofZ N 0)
  | BayesianInference =>
      l <- sum_over preds (log_like i) (ofZ N 0);;
      w <- get;;
      ret (add N l (log_prior U (env w i) (cache w i)))
  end.

(** Truth value of an optional sequence argument ("if locns"): None and an
    empty sequence are false; an array of two or more elements has no truth
    value; an array of one element has that of the element. *)
Definition truth (o : option addr) : G bool :=
  match o with
  | None => ret false
  | Some a =>
      x <- read a;;
      match o_kind x, o_elems x with
      | _, [] => ret false
      | PyList, _ => ret true
      | NdArray, [v] => ret (truthy v)
      | NdArray, _ => raise ValueError
      end
  end.

(** stdnorm.rvs(n) *)
Definition rvs (n : nat) : G (list N) :=
  fun w => (World (hp w) (nexta w) (hnds w) (pie w) (cache w) (uses w) (draws w + n),
            Ok (map noise (seq (draws w) n))).

(** "x and y" evaluated left to right. *)
Definition both (x y : option addr) : G bool :=
  b <- truth x;; if b then truth y else ret false.

(** len(x) of an argument known to be present. *)
Definition len (o : option addr) : G nat :=
  match o with
  | Some a => x <- read a;; ret (length (o_elems x))
  | None => raise TypeError
  end.
Definition given (o : option addr) : G addr := attr TypeError o.

(** gaussian.py:94-128, sim.  [locns] and [sigmas] are objects of the caller. *)
Definition sim (i k : nat) (locns sigmas : option addr) : G unit :=
  changing_data i k;;;
  b <- both locns sigmas;;
  (if b then
     n <- len locns;; m <- len sigmas;;
     if negb (Nat.eqb n m) then raise ValueError
     else a <- given locns;; put_hnd i k (with_locns a);;;
          c <- given sigmas;; put_hnd i k (with_sigmas c)
   else
     bl <- truth locns;;
     if bl then
       n <- len locns;; h <- handler i k;;
       if negb (Nat.eqb n (h_ndata h)) then raise ValueError
       else a <- given locns;; put_hnd i k (with_locns a)
     else
       bs <- truth sigmas;;
       if bs then
         n <- len sigmas;; h <- handler i k;;
         if negb (Nat.eqb n (h_ndata h)) then raise ValueError
         else c <- given sigmas;; put_hnd i k (with_sigmas c)
       else ret tt);;;
  p <- get_prdxns i k;;
  h <- handler i k;;
  z <- rvs (h_ndata h);;
  s <- read (h_sigmas h);;
  e <- bcast (mul N) s (Obj NdArray z);;
  v <- bcast (add N) p e;;
  a <- alloc v;;
  put_hnd i k (with_vals a).

(** Python index: negative counts from the end. *)
Definition index (n : Z) (l : list N) : option nat :=
  let j := if Z.ltb n 0 then (n + Z.of_nat (length l))%Z else n in
  if Z.leb 0 j && Z.ltb j (Z.of_nat (length l)) then Some (Z.to_nat j) else None.
Fixpoint set_nth (j : nat) (v : N) (l : list N) : list N :=
  match l, j with
  | [], _ => []
  | _ :: l', O => v :: l'
  | x :: l', S j' => x :: set_nth j' v l'
  end.
(** x[n] = v and x[n] on the object at [a]. *)
Definition setitem (a : addr) (n : Z) (v : N) : G unit :=
  x <- read a;;
  j <- attr IndexError (index n (o_elems x));;
  modify (set_obj a (Obj (o_kind x) (set_nth j v (o_elems x)))).
Definition getitem (x : obj N) (n : Z) : G N :=
  j <- attr IndexError (index n (o_elems x));;
  attr IndexError (nth_error (o_elems x) j).

(** "if locn:" for an optional float. *)
Definition truthy_opt (o : option N) : option N :=
  match o with Some v => if truthy v then Some v else None | None => None end.

(** gaussian.py:135-148, sim1. *)
Definition sim1 (i k : nat) (n : Z) (locn sigma : option N) : G unit :=
  changing_data i k;;;
  h <- handler i k;;
  (match truthy_opt locn with Some v => setitem (h_locns h) n v | None => ret tt end);;;
  (match truthy_opt sigma with Some v => setitem (h_sigmas h) n v | None => ret tt end);;;
  p <- get_prdxns i k;;
  pn <- getitem p n;;
  s <- read (h_sigmas h);;
  sn <- getitem s n;;
  z <- rvs 1;;
  setitem (h_vals h) n (add N pn (mul N sn (nth 0 z (ofZ N 0)))).

(** numpy.concatenate of two one-dimensional sequences: a new array. *)
Definition concat (a : addr) (l : list N) : G addr :=
  x <- read a;; alloc (Obj NdArray (o_elems x ++ l)).

(** gaussian.py:150-180, add_sim. *)
Definition add_sim (i k : nat) (locn sigma : option N) (locns sigmas : option addr) : G unit :=
  changing_data i k;;;
  (match truthy_opt locn, truthy_opt sigma with
   | Some v, Some u =>
       put_hnd i k (fun h => with_ndata (h_ndata h + 1) h);;;
       h <- handler i k;;
       a <- concat (h_locns h) [v];; put_hnd i k (with_locns a);;;
       c <- concat (h_sigmas h) [u];; put_hnd i k (with_sigmas c)
   | _, _ =>
       b <- both locns sigmas;;
       if b then
         n <- len locns;; m <- len sigmas;;
         if negb (Nat.eqb n m) then raise ValueError
         else
           put_hnd i k (fun h => with_ndata (h_ndata h + n) h);;;
           h <- handler i k;;
           l <- given locns;; x <- read l;;
           a <- concat (h_locns h) (o_elems x);; put_hnd i k (with_locns a);;;
           u <- given sigmas;; y <- read u;;
           c <- concat (h_sigmas h) (o_elems y);; put_hnd i k (with_sigmas c)
       else ret tt
   end);;;
  h <- handler i k;;
  x <- read (h_locns h);;
  put_hnd i k (fun h => with_ndata (h_ndata h + length (o_elems x)) h);;;
  match o_kind x with
  | PyList => raise AttributeError          (* a list has no shape *)
  | NdArray => p <- get_prdxns i k;; ret tt
  end.

(** Any operation on parameters of instance i.  Every announcement of a value
    reaches SignalModel._on_param_value_change (signalmodel.py:79-85), which
    resets on_use_done; whether there was one is read off the trace. *)
Definition on_pie (i : nat) (o : op N) : G unit :=
  fun w =>
    let '(s', r) := run_op dflt o (pie w i) in
    let told := existsb (fun e => match e with EvValue _ _ _ => true | _ => false end)
                        (skipn (length (trace (pie w i))) (trace s')) in
    (World (hp w) (nexta w) (hnds w) (upd (pie w) i s') (cache w)
           (if told then upd (uses w) i false else uses w) (draws w), r).

Inductive gop : Type :=
| GParam (i : nat) (o : op N)
| GAccess (i k : nat)
| GLogLike (i k : nat)
| GChisqr (i k : nat)
| GScore (i : nat) (m : method) (preds : list nat)
| GLocalize (i k : nat)
| GSim (i k : nat) (locns sigmas : option nat)
| GSim1 (i k : nat) (n : Z) (locn sigma : option N)
| GAddSim (i k : nat) (locn sigma : option N) (locns sigmas : option nat).

Definition drop {A} (m : G A) : G unit := _ <- m;; ret tt.

Definition run_gop (o : gop) : G unit :=
  match o with
  | GParam i o => on_pie i o
  | GAccess i k => drop (handler i k)
  | GLogLike i k => drop (log_like i k)
  | GChisqr i k => drop (chisqr i k)
  | GScore i m preds => drop (score m preds i)
  | GLocalize i k => localize_data i k
  | GSim i k a b => sim i k (option_map ACaller a) (option_map ACaller b)
  | GSim1 i k n a b => sim1 i k n a b
  | GAddSim i k a b c d => add_sim i k a b (option_map ACaller c) (option_map ACaller d)
  end.

(** A history of calls; exceptions are caught by the user. *)
Definition grun (l : list gop) (w : state) : state :=
  fold_left (fun w o => fst (run_gop o w)) l w.

(** The start: original data, objects of the caller, no instance used yet. *)
Definition world0 (data : nat -> nat -> obj N) (mine : nat -> obj N) : state :=
  World (fun a => match a with
                  | AShared k f => data k f
                  | ACaller n => mine n
                  | AOwn _ => Obj PyList []
                  end) 0 (fun _ _ => None) (fun _ => st0) (fun _ => c0 U)
        (fun _ => false) 0.

End Model.
Arguments G N U A : clear implicits.
Arguments gop N : clear implicits.
