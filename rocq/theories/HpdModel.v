(** Model of the highest posterior density regions on grids:
    package/inference/grid/_gridquad.f (all), grid/hpd.py:29-289 and
    grid/hpdgrid.py:75-307.

    Floating-point numbers are real numbers here (no rounding, overflow or
    NaN), so logs of densities are finite.  SciPy's brentq and the chi-squared
    distribution are parameters. *)

From Coq Require Import ZArith String List Bool Arith Reals.
From Verif Require Import Exn PieModel Instances MinModel.
Import ListNotations.
Open Scope exn_scope.
Open Scope R_scope.

(** ** _gridquad.f *)

(** _gridquad.f:23-33, the loop of qgt1d; [q] is the sum so far. *)
Fixpoint qgt_loop (crit : R) (l : list R) (q : R) : R :=
  match l with
  | a :: ((b :: _) as l') =>
      qgt_loop crit l'
        (if Rltb crit a && Rltb crit b then q + 1/2 * (a + b)
         else if Rltb crit a || Rltb crit b then
           let hi := Rmax a b in
           let lo := Rmin a b in
           q + 1/2 * (hi + crit) * (hi - crit) / (hi - lo)
         else q)
  | _ => q
  end.
(** _gridquad.f:2-36 *)
Definition qgt1d (l : list R) (crit : R) : R := qgt_loop crit l 0.

(** _gridquad.f:60-79, the loop of qgt2d; the inner loop, lines 61-73, is that
    of qgt1d on row i. *)
Fixpoint qgt2_loop (crit : R) (nx i : nat) (rows : list (list R)) (q : R) : R :=
  match rows with
  | [] => q
  | r :: rows' =>
      let qy := qgt_loop crit r 0 in
      qgt2_loop crit nx (S i) rows'
        (if Nat.eqb i 1 || Nat.eqb i nx then q + 1/2 * qy else q + qy)
  end.
(** _gridquad.f:39-82 *)
Definition qgt2d (rows : list (list R)) (crit : R) : R := qgt2_loop crit (List.length rows) 1 rows 0.

(** What xvalues leaves behind: its writes to xvals in order, as pairs of a
    one-based subscript and a value (Fortran does not check subscripts), nx
    and ok. *)
Record xout := XOut { x_writes : list (nat * R); x_nx : nat; x_ok : bool }.
(** _gridquad.f:102-119 *)
Fixpoint xv_loop (ycrit : R) (nxvmax : nat) (xs ys : list R) (w : list (nat * R)) (nx : nat) : xout :=
  match xs, ys with
  | x0 :: ((x1 :: _) as xs'), y0 :: ((y1 :: _) as ys') =>
      let v := x0 + (x1 - x0) * (ycrit - y0) / (y1 - y0) in
      if Rltb y0 ycrit && Rltb ycrit y1 then
        xv_loop ycrit nxvmax xs' ys' (w ++ [(S nx, v)]) (S nx)
      else if Rltb y1 ycrit && Rltb ycrit y0 then
        if Nat.ltb nxvmax (S nx) then XOut w (S nx) false
        else xv_loop ycrit nxvmax xs' ys' (w ++ [(S nx, v)]) (S nx)
      else xv_loop ycrit nxvmax xs' ys' w nx
  | _, _ => XOut w nx true
  end.
(** _gridquad.f:85-119 *)
Definition xvalues (xs ys : list R) (ycrit : R) (nxvmax : nat) : xout := xv_loop ycrit nxvmax xs ys [] 0.
(** xvals[:nx] as Python sees it: the array has nxvmax elements. *)
Definition xvals_of (nxvmax : nat) (o : xout) : list R :=
  map snd (filter (fun w => Nat.leb (fst w) nxvmax && Nat.leb (fst w) (x_nx o)) (x_writes o)).

(** ** Objects with grids, hpd.py and hpdgrid.py *)

(** ndarray.max and min (hpd.py:124, 131): of an empty array, ValueError. *)
Definition amax (l : list R) : res R :=
  match l with [] => Err ValueError | a :: l' => Ok (fold_left Rmax l' a) end.
Definition amin (l : list R) : res R :=
  match l with [] => Err ValueError | a :: l' => Ok (fold_left Rmin l' a) end.

Definition bindr {A B} (r : res A) (k : A -> res B) : res B :=
  match r with Ok a => k a | Err e => Err e end.

(** The meaning of the step argument, hpd.py:114, 118, 122. *)
Definition step_kind (step : string) : res bool :=
  if String.eqb step "linear" || String.eqb step "lin" then Ok true
  else if String.eqb step "log" || String.eqb step "logarithmic" then Ok false
  else Err ValueError.

(** hpd.py:114-123, the abscissas and their spacing.  A logarithmic grid of
    one point has an infinite spacing (NumPy division by zero); it is left
    out here as a ZeroDivisionError. *)
Definition axis (step : string) (lo hi : R) (n : nat) : res (bool * list R * R) :=
  bindr (step_kind step) (fun lin =>
    if lin then
      bindr (@lin_stepper numR lo hi n) (fun xs => Ok (true, xs, (hi - lo) / (INR n - 1)))
    else
      bindr (@log_stepper numR lo hi n) (fun xs =>
        if Nat.eqb n 1 then Err ZeroDivisionError
        else Ok (false, xs, ln (hi / lo) / (INR n - 1)))).

Fixpoint mul2 (l xs : list R) : list R :=
  match l, xs with a :: l', x :: xs' => a * x :: mul2 l' xs' | _, _ => [] end.

Record hpd1 := Hpd1 {
  h_logpdf : list R; h_xlo : R; h_xhi : R; h_lin : bool; h_xvals : list R; h_dx : R;
  h_max : R; h_spdf : list R; h_snorm : R;
  h_target : option R; h_probs : list R; h_deltas : list R; h_levels : list R; h_bounds : list (list R) }.

(** hpd.py:124-137 and hpdgrid.py:133-146.  The attribute lml is norm(),
    below. *)
Definition build1 (logpdf : list R) (xlo xhi : R) (ax : bool * list R * R) : res hpd1 :=
  let '(lin, xs, dx) := ax in
  bindr (amax logpdf) (fun top =>
    let spdf0 := map (fun v => exp (v - top)) logpdf in
    let spdf := if lin then spdf0 else mul2 spdf0 xs in
    bindr (amin spdf) (fun bot =>
      Ok (Hpd1 logpdf xlo xhi lin xs dx top spdf (qgt1d spdf bot * dx) None [] [] [] []))).
(** hpd.py:94-137, HPD1D; the array is one-dimensional. *)
Definition new_hpd1 (logpdf : list R) (xlo xhi : R) (step : string) : res hpd1 :=
  bindr (axis step xlo xhi (List.length logpdf)) (build1 logpdf xlo xhi).
(** hpdgrid.py:97-146, HPDGrid1D. *)
Definition new_hpdgrid1 (log_pdf : R -> R) (xlo xhi : R) (nx : nat) (step : string) : res hpd1 :=
  bindr (axis step xlo xhi nx) (fun ax => build1 (map log_pdf (snd (fst ax))) xlo xhi ax).

Definition ext_add (a : ext) (r : R) : ext := match a with Fin v => Fin (v + r) | e => e end.
(** hpd.py:139-146 *)
Definition norm1 (h : hpd1) : ext := ext_add (np_log (h_snorm h)) (h_max h).

(** hpd.py:148-153.  For a logarithmic grid the spacing is a NumPy number and
    division by zero gives inf or nan instead of the exception. *)
Definition fracgt1 (h : hpd1) (logratio : R) : res R :=
  if Reqb (h_snorm h) 0 then Err ZeroDivisionError
  else Ok (qgt1d (h_spdf h) (exp logratio) * h_dx h / h_snorm h).

Record hpd2 := Hpd2 {
  d_logpdf : list (list R); d_xlo : R; d_xhi : R; d_xlin : bool; d_xvals : list R; d_dx : R;
  d_ylo : R; d_yhi : option R; d_ylin : bool; d_yvals : list R; d_dy : R;
  d_max : R; d_spdf : list (list R); d_norm : R;
  d_target : option R; d_probs : list R; d_deltas : list R; d_levels : list R }.

Fixpoint scale_rows (rows : list (list R)) (xs : list R) : list (list R) :=
  match rows, xs with r :: rows', x :: xs' => map (fun a => a * x) r :: scale_rows rows' xs' | _, _ => [] end.

(** hpd.py:236-251; lml is left out, being log(norm) + max. *)
Definition build2 (logpdf : list (list R)) (xlo xhi : R) (xax : bool * list R * R)
  (ylo : R) (yhi : option R) (yax : bool * list R * R) : res hpd2 :=
  let '(xlin, xs, dx) := xax in
  let '(ylin, ys, dy) := yax in
  bindr (amax (List.concat logpdf)) (fun top =>
    let s0 := map (map (fun v => exp (v - top))) logpdf in
    let s1 := if xlin then s0 else scale_rows s0 xs in
    let s2 := if ylin then s1 else map (fun r => mul2 r ys) s1 in
    bindr (amin (List.concat s2)) (fun bot =>
      Ok (Hpd2 logpdf xlo xhi xlin xs dx ylo yhi ylin ys dy top s2 (qgt2d s2 bot * dx * dy) None [] [] []))).
(** hpd.py:208-251, HPD2D of an array of nx rows of ny values.  Line 224
    assigns yhi to a local variable, so the object has no such attribute. *)
Definition new_hpd2 (logpdf : list (list R)) (xlo xhi ylo yhi : R) (xstep ystep : string) : res hpd2 :=
  bindr (axis xstep xlo xhi (List.length logpdf)) (fun xax =>
  bindr (axis ystep ylo yhi (List.length (hd [] logpdf))) (fun yax =>
  build2 logpdf xlo xhi xax ylo None yax)).
(** hpdgrid.py:222-269, HPDGrid2D. *)
Definition new_hpdgrid2 (log_pdf : R -> R -> R) (xlo xhi : R) (nx : nat) (ylo yhi : R) (ny : nat)
  (xstep ystep : string) : res hpd2 :=
  bindr (axis xstep xlo xhi nx) (fun xax =>
  bindr (axis ystep ylo yhi ny) (fun yax =>
  build2 (map (fun x => map (log_pdf x) (snd (fst yax))) (snd (fst xax))) xlo xhi xax ylo (Some yhi) yax)).

(** hpd.py:253-258, with the same remark as for fracgt1. *)
Definition fracgt2 (h : hpd2) (logratio : R) : res R :=
  if Reqb (d_norm h) 0 then Err ZeroDivisionError
  else Ok (qgt2d (d_spdf h) (exp logratio) * d_dx h * d_dy h / d_norm h).

Section Levels.
(** scipy.stats.chi2.cdf(x, nd) and ppf(p, nd); scipy.optimize.brentq(f, a, b,
    xtol=tol). *)
Variable cdf ppf : R -> R -> R.
Variable brentq : (R -> R) -> R -> R -> R -> res R.

(** hpd.py:29-72 *)
Definition sig2prob (nd nsig : R) : R := cdf (nsig ^ 2) nd.
Definition prob2sig (nd p : R) : R := sqrt (ppf p nd).
Definition prob2ratio (nd p : R) : R := let nsig := prob2sig nd p in exp (- (1/2) * nd * nsig ^ 2).
Definition sig2ratio (nd nsig : R) : R := exp (- (1/2) * nd * nsig ^ 2).

Definition truthy (x : option R) : bool := match x with Some v => negb (Reqb v 0) | None => false end.

(** hpd.py:161-167 and 266-272: the first guess and the probability.  With
    neither argument the distribution is given None and raises TypeError. *)
Definition guess (p snsig : option R) : res (R * R) :=
  match snsig with
  | Some s =>
      if truthy snsig then
        if truthy p then Err ValueError else Ok (ln (sig2ratio 1 s), sig2prob 1 s)
      else match p with Some p => Ok (ln (prob2ratio 1 p), p) | None => Err TypeError end
  | None => match p with Some p => Ok (ln (prob2ratio 1 p), p) | None => Err TypeError end
  end.

Definition set_target (t : R) (h : hpd1) : hpd1 :=
  Hpd1 (h_logpdf h) (h_xlo h) (h_xhi h) (h_lin h) (h_xvals h) (h_dx h) (h_max h) (h_spdf h) (h_snorm h)
       (Some t) (h_probs h) (h_deltas h) (h_levels h) (h_bounds h).
Definition add_level (p r : R) (h : hpd1) : hpd1 :=
  Hpd1 (h_logpdf h) (h_xlo h) (h_xhi h) (h_lin h) (h_xvals h) (h_dx h) (h_max h) (h_spdf h) (h_snorm h)
       (h_target h) (h_probs h ++ [p]) (h_deltas h ++ [r]) (h_levels h ++ [h_max h + r]) (h_bounds h).
Definition add_bounds (b : list R) (h : hpd1) : hpd1 :=
  Hpd1 (h_logpdf h) (h_xlo h) (h_xhi h) (h_lin h) (h_xvals h) (h_dx h) (h_max h) (h_spdf h) (h_snorm h)
       (h_target h) (h_probs h) (h_deltas h) (h_levels h) (h_bounds h ++ [b]).

Definition lift {S A} (r : res A) : S -> S * res A := fun s => (s, r).

(** hpd.py:187-191.  With no probability at all the first call raises
    (see [search]); the value here is then not used. *)
Definition diff1 (h : hpd1) (p lr : R) : R := qgt1d (h_spdf h) (exp lr) * h_dx h / h_snorm h - p.

(** hpd.py:169-174 *)
Definition search (f : R -> R) (zero : bool) (lr1 tol : R) : res R :=
  if zero then Err ZeroDivisionError
  else bindr (snd (zbracket f lr1 (lr1 - 1/10) None 50 (16/10) [])) (fun ab => brentq f (fst ab) (snd ab) tol).

(** hpd.py:155-185 *)
Definition critlevel1 (p snsig : option R) (tol : R) : hpd1 -> hpd1 * res (R * list R) :=
  gp <- lift (guess p snsig);;
  modify (set_target (snd gp));;;
  h <- get;;
  r <- lift (search (diff1 h (snd gp)) (Reqb (h_snorm h) 0) (fst gp) tol);;
  modify (add_level (snd gp) r);;;
  let o := xvalues (h_xvals h) (map (fun v => v - h_max h) (h_logpdf h)) r 10 in
  if negb (x_ok o) then raise RuntimeError
  else modify (add_bounds (xvals_of 10 o));;; ret (r, xvals_of 10 o).

Definition set_target2 (t : R) (h : hpd2) : hpd2 :=
  Hpd2 (d_logpdf h) (d_xlo h) (d_xhi h) (d_xlin h) (d_xvals h) (d_dx h) (d_ylo h) (d_yhi h) (d_ylin h)
       (d_yvals h) (d_dy h) (d_max h) (d_spdf h) (d_norm h) (Some t) (d_probs h) (d_deltas h) (d_levels h).
Definition add_level2 (p r : R) (h : hpd2) : hpd2 :=
  Hpd2 (d_logpdf h) (d_xlo h) (d_xhi h) (d_xlin h) (d_xvals h) (d_dx h) (d_ylo h) (d_yhi h) (d_ylin h)
       (d_yvals h) (d_dy h) (d_max h) (d_spdf h) (d_norm h) (d_target h) (d_probs h ++ [p])
       (d_deltas h ++ [r]) (d_levels h ++ [d_max h + r]).
(** hpd.py:287-289 *)
Definition diff2 (h : hpd2) (p lr : R) : R := qgt2d (d_spdf h) (exp lr) * d_dx h * d_dy h / d_norm h - p.
(** hpd.py:260-285 *)
Definition critlevel2 (p snsig : option R) (tol : R) : hpd2 -> hpd2 * res R :=
  gp <- lift (guess p snsig);;
  modify (set_target2 (snd gp));;;
  h <- get;;
  r <- lift (search (diff2 h (snd gp)) (Reqb (d_norm h) 0) (fst gp) tol);;
  modify (add_level2 (snd gp) r);;;
  ret r.

(** The class attributes, hpd.py:86-92 and 200-206. *)
Definition class_prob1 (nsig : R) : R := sig2prob 1 nsig.
Definition class_prob2 (nsig : R) : R := sig2prob 2 nsig.
End Levels.
