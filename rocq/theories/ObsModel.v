(** Model of package/inference/deriv: obsinfo.py and _obsinfo.f.

    Doubles are real numbers.  Constants that the Fortran source writes in
    single precision have their single precision values.  Arrays are lists
    indexed from 0; work arrays and results have elements that are not set
    at first.  Infinities and NaNs stop the model with [NotFinite].  The
    function may raise; the wrapper then leaves the subroutine at once, so
    that the arrays stay as they are.  The arrays are taken to be contiguous
    arrays of doubles, which the wrapper hands over without copying
    (_obsinfo.pyf:19, 22, 31). *)

From Coq Require Import List Bool Arith Reals.
From Verif Require Import Exn Instances McModel BaModel.
Import ListNotations.
Open Scope R_scope.

(** 0.707, 1.e30 and 1.3 in single precision (_obsinfo.f:204, 293, 83) *)
Definition ratio : R := 2965373 / 4194304.
Definition big : R := IZR 1000000015047466219876688855040.
Definition grow : R := 5452595 / 4194304.

(** An element that must have been set *)
Definition rds (p : list (option R)) (i : nat) : res R :=
  let! o := rd p i in match o with Some v => Ok v | None => Err BadMemory end.

(** ** rid_ex, _obsinfo.f:281-323.  [hh] is not used there. *)

(** The workspace, and err and result; result is not set at first. *)
Record rid := Rid { rid_a : list (option R); rid_err : R; rid_result : option R }.
(** 311-317; j and i from 1. *)
Definition rid_inner (n i : nat) (j : nat) (st : rid * R) : res (rid * R) :=
  let '(s, fac) := st in
  let! p := rds (rid_a s) ((i - 1) * n + (j - 2)) in
  let! q := rds (rid_a s) ((i - 2) * n + (j - 2)) in
  if Reqb (fac - 1) 0 then Err NotFinite
  else
    let v := (p * fac - q) / (fac - 1) in
    let! a := wr (rid_a s) ((i - 1) * n + (j - 1)) (Some v) in
    let errt := Rmax (Rabs (v - p)) (Rabs (v - q)) in
    let con := 1 / ratio in
    let s' := if Rleb errt (rid_err s) then Rid a errt (Some v) else Rid a (rid_err s) (rid_result s) in
    Ok (s', con * con * fac).
(** 306-320; the boolean: whether it has returned. *)
Definition rid_outer (y : list (option R)) (n : nat) (i : nat) (st : rid * bool) : res (rid * bool) :=
  let '(s, stop) := st in
  if stop then Ok (s, stop)
  else
    let con := 1 / ratio in
    let! v := rds y (n - i) in
    let! a := wr (rid_a s) ((i - 1) * n) (Some v) in
    let! r := iter (seq 2 (i - 1)) (rid_inner n i) (Rid a (rid_err s) (rid_result s), con * con) in
    let s := fst r in
    let! p := rds (rid_a s) ((i - 1) * n + (i - 1)) in
    let! q := rds (rid_a s) ((i - 2) * n + (i - 2)) in
    Ok (s, Rleb (2 * rid_err s) (Rabs (p - q))).
Definition rid_ex (y : list (option R)) (n : nat) : res (option R * R) :=
  let! v := rds y (n - 1) in
  let! a := wr (repeat None (n * n)) 0 (Some v) in
  let! st := iter (seq 2 (n - 1)) (rid_outer y n) (Rid a big None, false) in
  Ok (rid_result (fst st), rid_err (fst st)).
(** Using the result *)
Definition extrapolated (y : list (option R)) (n : nat) : res (R * R) :=
  let! re := rid_ex y n in
  match fst re with Some v => Ok (v, snd re) | None => Err BadMemory end.

Section Calls.
(** The log likelihood of an array *)
Variable lf : list R -> res R.

Open Scope exn_scope.
Definition lift {S A} (r : res A) : S -> S * res A := fun s => (s, r).

(** ** ninfol; the state is the array mu. *)
Definition set_mu (i : nat) (v : R) : list R -> list R * res unit :=
  fun mu => match wr mu i v with Ok mu' => (mu', Ok tt) | Err e => (mu, Err e) end.
Definition get_mu (i : nat) : list R -> list R * res R := fun mu => (mu, rd mu i).
Definition call_lf : list R -> list R * res R := fun mu => (mu, lf mu).
(** (d2f + lf - 2*lfmax)/h**2 *)
Definition quot (a b lfmax h : R) : res R := if Reqb (h * h) 0 then Err NotFinite else Ok ((a + b - 2 * lfmax) / (h * h)).

(** 214-220 *)
Fixpoint diag_diffs (lfmax mu1 dpi : R) (i : nat) (iters : nat) (js : list nat) (d2f : list (option R)) : list R -> list R * res (list (option R)) :=
  match js with
  | [] => ret d2f
  | j :: js' =>
      (let h := dpi * ratio ^ (iters - j) in
       set_mu i (mu1 + h) ;;;
       a <- call_lf ;;
       set_mu i (mu1 - h) ;;;
       b <- call_lf ;;
       q <- lift (quot a b lfmax h) ;;
       d2f <- lift (wr d2f (j - 1) (Some q)) ;;
       diag_diffs lfmax mu1 dpi i iters js' d2f)
  end.
(** 211-233 *)
Definition diag_one (lfmax : R) (dp : list R) (iters : nat) (n i : nat) (arr : list (option R) * list (option R)) : list R -> list R * res (list (option R) * list (option R)) :=
  (mu1 <- get_mu i ;;
   dpi <- lift (rd dp i) ;;
   d2f <- diag_diffs lfmax mu1 dpi i iters (seq 1 iters) (repeat None iters) ;;
   r <- (if Nat.ltb 1 iters
         then (re <- lift (extrapolated d2f iters) ;; ret (- fst re, Rabs (snd re)))
         else (v <- lift (rds d2f 0) ;; ret (- v, 0))) ;;
   info <- lift (wr (fst arr) (i * n + i) (Some (fst r))) ;;
   ierr <- lift (wr (snd arr) (i * n + i) (Some (snd r))) ;;
   set_mu i mu1 ;;;
   ret (info, ierr)).
(** 1./sqrt(v) *)
Definition sigma_of (v : R) : res R := if Rleb v 0 then Err NotFinite else Ok (1 / sqrt v).
(** 246-254 *)
Fixpoint mixed_diffs (lfmax mu1 mu2 sig1 sig2 : R) (i j : nat) (iters : nat) (ks : list nat) (d2f : list (option R)) : list R -> list R * res (list (option R)) :=
  match ks with
  | [] => ret d2f
  | k :: ks' =>
      (let h := ratio ^ (iters - k) in
       set_mu i (mu1 + h * sig1) ;;;
       set_mu j (mu2 + h * sig2) ;;;
       a <- call_lf ;;
       set_mu i (mu1 - h * sig1) ;;;
       set_mu j (mu2 - h * sig2) ;;;
       b <- call_lf ;;
       q <- lift (quot a b lfmax h) ;;
       d2f <- lift (wr d2f (k - 1) (Some q)) ;;
       mixed_diffs lfmax mu1 mu2 sig1 sig2 i j iters ks' d2f)
  end.
(** 241-272 *)
Definition mixed_one (lfmax : R) (iters n i : nat) (mu1 sig1 : R) (j : nat) (arr : list (option R) * list (option R)) : list R -> list R * res (list (option R) * list (option R)) :=
  (mu2 <- get_mu j ;;
   v <- lift (rds (fst arr) (j * n + j)) ;;
   sig2 <- lift (sigma_of v) ;;
   d2f <- mixed_diffs lfmax mu1 mu2 sig1 sig2 i j iters (seq 1 iters) (repeat None iters) ;;
   r <- (if Nat.ltb 1 iters
         then (re <- lift (extrapolated d2f iters) ;; ret (- (1 / 2) * (fst re + 2) / (sig1 * sig2), 1 / 2 * Rabs (snd re) / (sig1 * sig2)))
         else (v <- lift (rds d2f 0) ;; ret (- (1 / 2) * (v + 2) / (sig1 * sig2), 0))) ;;
   info <- lift (wr (fst arr) (i * n + j) (Some (fst r))) ;;
   ierr <- lift (wr (snd arr) (i * n + j) (Some (snd r))) ;;
   info <- lift (wr info (j * n + i) (Some (fst r))) ;;
   ierr <- lift (wr ierr (j * n + i) (Some (snd r))) ;;
   set_mu j mu2 ;;;
   ret (info, ierr)).
(** A loop over l *)
Fixpoint over {S T} (l : list nat) (body : nat -> T -> S -> S * res T) (t : T) : S -> S * res T :=
  match l with
  | [] => ret t
  | i :: l' => (t' <- body i t ;; over l' body t')
  end.
(** 238-274 *)
Definition mixed_row (lfmax : R) (iters n : nat) (i : nat) (arr : list (option R) * list (option R)) : list R -> list R * res (list (option R) * list (option R)) :=
  (mu1 <- get_mu i ;;
   v <- lift (rds (fst arr) (i * n + i)) ;;
   sig1 <- lift (sigma_of v) ;;
   arr <- over (seq (i + 1) (n - (i + 1))) (mixed_one lfmax iters n i mu1 sig1) arr ;;
   set_mu i mu1 ;;;
   ret arr).
(** Reading a whole array *)
Fixpoint all_set (p : list (option R)) : res (list R) :=
  match p with
  | [] => Ok []
  | o :: p' => match o with None => Err BadMemory | Some v => let! l := all_set p' in Ok (v :: l) end
  end.
(** 121-278, called with iter > 0 *)
Definition ninfol (lfmax : R) (dp : list R) (iters : nat) : list R -> list R * res (mat * mat) :=
  (mu <- get ;;
   let n := length mu in
   arr <- over (seq 0 n) (diag_one lfmax dp iters n) (repeat None (n * n), repeat None (n * n)) ;;
   arr <- over (seq 0 (n - 1)) (mixed_row lfmax iters n) arr ;;
   info <- lift (all_set (fst arr)) ;;
   ierr <- lift (all_set (snd arr)) ;;
   ret (Mat n n info, Mat n n ierr)).
(** obsinfo.py:36-69.  The steps must be as many as the parameters
    (_obsinfo.pyf:33). *)
Definition obsinfo (deltas : list R) (maxll : option R) (niter : nat) : list R -> list R * res (mat * mat) :=
  (mle <- get ;;
   maxll <- match maxll with None => call_lf | Some v => ret v end ;;
   if negb (Nat.eqb (length deltas) (length mle)) then raise ValueError
   else ninfol maxll deltas (niter + 1)).

(** ** pk_scales, _obsinfo.f:18-118; the state: the arrays x and dx. *)
Record scales := Scales { sc_x : list R; sc_dx : list R }.
Definition set_x (i : nat) (v : R) : scales -> scales * res unit :=
  fun s => match wr (sc_x s) i v with Ok x => (Scales x (sc_dx s), Ok tt) | Err e => (s, Err e) end.
Definition set_dx (i : nat) (v : R) : scales -> scales * res unit :=
  fun s => match wr (sc_dx s) i v with Ok d => (Scales (sc_x s) d, Ok tt) | Err e => (s, Err e) end.
Definition get_x (i : nat) : scales -> scales * res R := fun s => (s, rd (sc_x s) i).
Definition get_dx (i : nat) : scales -> scales * res R := fun s => (s, rd (sc_dx s) i).
Definition call_f : scales -> scales * res R := fun s => (s, lf (sc_x s)).

(** A part of the subroutine goes on with a value or sets status and returns. *)
Inductive goes (A : Type) := Go (a : A) | Stop (status : nat).
Arguments Go {A} a.
Arguments Stop {A} status.

(** 74-85: from label 10 until the value drops; gives s and del. *)
Fixpoint guess (fuel : nat) (fmax : R) (i : nat) (x0 s : R) : scales -> scales * res (goes (R * R)) :=
  match fuel with
  | O => raise OutOfFuel
  | S fuel' =>
      (d <- get_dx i ;;
       set_x i (x0 + s * d) ;;;
       fnew <- call_f ;;
       if Rltb fmax fnew then ret (Stop 2)
       else
         let del := fmax - fnew in
         if Rleb del 0 then guess fuel' fmax i x0 (grow * s)
         else ret (Go (s, del)))
  end.
(** 90-112: from label 20; left = maxnr - nit. *)
Fixpoint newton (left : nat) (fmax f_c tol : R) (i : nat) (s : R) : scales -> scales * res (goes unit) :=
  (fnew <- call_f ;;
   if Rltb fmax fnew then ret (Stop 2)
   else
     match left with
     | O => ret (Stop 3)
     | S left' =>
         if Rltb tol (Rabs (fnew - f_c)) then
           (x <- get_x i ;;
            d <- get_dx i ;;
            set_x i (x + s * d) ;;;
            fp <- call_f ;;
            if Rltb fmax fp then ret (Stop 2)
            else if Reqb (s * d) 0 then raise NotFinite
            else
              let dfdx := (fp - fnew) / (s * d) in
              if Reqb dfdx 0 then raise NotFinite
              else
                (x <- get_x i ;;
                 set_x i (x - s * d - (fnew - f_c) / dfdx) ;;;
                 newton left' fmax f_c tol i s))
         else ret (Go tt)
     end).
(** 72-114 *)
Definition scale_one (fuel : nat) (fmax df : R) (maxnr : nat) (tol : R) (i : nat) : scales -> scales * res (goes unit) :=
  (x0 <- get_x i ;;
   g <- guess fuel fmax i x0 1 ;;
   match g with
   | Stop st => ret (Stop st)
   | Go (s, del) =>
       if Rltb df 0 then raise NotFinite
       else
         (d <- get_dx i ;;
          set_x i (x0 + s * d * sqrt (df / del)) ;;;
          r <- newton maxnr fmax (fmax - df) tol i s ;;
          match r with
          | Stop st => ret (Stop st)
          | Go _ =>
              (x <- get_x i ;;
               set_dx i (x - x0) ;;;
               set_x i x0 ;;;
               ret (Go tt))
          end)
   end).
(** 69-115; the status *)
Fixpoint scale_all (fuel : nat) (fmax df : R) (maxnr : nat) (tol : R) (is : list nat) : scales -> scales * res nat :=
  match is with
  | [] => ret 1%nat
  | i :: is' =>
      (r <- scale_one fuel fmax df maxnr tol i ;;
       match r with
       | Stop st => ret st
       | Go _ => scale_all fuel fmax df maxnr tol is'
       end)
  end.
(** obsinfo.py:11-33.  The guesses must be as many as the parameters
    (_obsinfo.pyf:22). *)
Definition dllsteps (fuel : nat) (dll : R) (maxll : option R) (maxiter : nat) (tol : R) : scales -> scales * res (list R) :=
  (s <- get ;;
   maxll <- match maxll with None => call_f | Some v => ret v end ;;
   if negb (Nat.eqb (length (sc_dx s)) (length (sc_x s))) then raise ValueError
   else
     (status <- scale_all fuel maxll dll maxiter tol (seq 0 (length (sc_x s))) ;;
      if Nat.eqb status 3 then raise RuntimeError
      else if Nat.eqb status 2 then raise ValueError
      else (s <- get ;; ret (sc_dx s)))).
End Calls.
Arguments Go {A} a.
Arguments Stop {A} status.
