(** Model of sandbox/regress: _regress.f as _regress.pyf makes it available, and
    regress.py.

    Doubles are real numbers, as are the single precision values of REAL(NPTS).
    [Bad] stands for what a division by zero or a square root of a negative number
    gives, and for everything calculated from it; infinities are not told from
    NaN.  Sequences are lists of numbers; only their values are modelled, not
    which of them are copies.  The name Float that regress.py imports from numpy
    is taken to exist. *)

From Coq Require Import List Bool Arith Reals.
From Verif Require Import Exn Instances McModel BaModel.
Import ListNotations.
Open Scope R_scope.

Inductive num : Type := Num (r : R) | Bad.
Definition lift2 (f : R -> R -> R) (a b : num) : num :=
  match a, b with Num a, Num b => Num (f a b) | _, _ => Bad end.
Definition nadd := lift2 Rplus.
Definition nsub := lift2 Rminus.
Definition nmul := lift2 Rmult.
Definition nsq (a : num) : num := nmul a a.
Definition ndiv (a b : num) : num :=
  match a, b with Num a, Num b => if Reqb b 0 then Bad else Num (a / b) | _, _ => Bad end.
Definition nsqrt (a : num) : num :=
  match a with Num a => if Rltb a 0 then Bad else Num (sqrt a) | Bad => Bad end.
Definition nzero (a : num) : bool := match a with Num a => Reqb a 0 | Bad => false end.
Definition nneg (a : num) : bool := match a with Num a => Rltb a 0 | Bad => false end.
Declare Scope num_scope.
Infix "+" := nadd : num_scope.
Infix "-" := nsub : num_scope.
Infix "*" := nmul : num_scope.
Infix "/" := ndiv : num_scope.
Notation "a ²" := (nsq a) : num_scope.
Delimit Scope num_scope with num.
Bind Scope num_scope with num.

(** A loop that adds up values *)
Definition nsum {A} (f : A -> num) (l : list A) : num := fold_left (fun s p => (s + f p)%num) l (Num 0).
Definition count {A} (l : list A) : num := Num (INR (length l)).

(** What DATSTT returns *)
Record stats := Stats { t_xavg : num; t_varx : num; t_yavg : num; t_vary : num; t_varxy : num; t_rho : num }.
(** _regress.f:249-304, DATSTT; None is IERR = 0 *)
Definition datstt (x y : list R) : option stats :=
  let rn := count x in
  let xavg := (nsum Num x / rn)%num in
  let yavg := (nsum Num y / rn)%num in
  let l := combine x y in
  let sxx := nsum (fun p => ((Num (fst p) - xavg)²)%num) l in
  let syy := nsum (fun p => ((Num (snd p) - yavg)²)%num) l in
  let sxy := nsum (fun p => ((Num (fst p) - xavg) * (Num (snd p) - yavg))%num) l in
  if nzero sxy then None
  else Some (Stats xavg (sxx / rn) yavg (syy / rn) (sxy / rn) (sxy / nsqrt (sxx * syy)))%num.

(** regress.py:5-24, bistats, and the attributes that regress.py:43-62, BiStats,
    sets besides x and y *)
Definition bistats (x y : list R) : res stats :=
  if negb (length x =? length y)%nat then Err ValueError
  else if (length x <? 2)%nat then Err ValueError
  else match datstt x y with
       | None => Err ValueError
       | Some s => Ok (Stats (t_xavg s) (nsqrt (t_varx s)) (t_yavg s) (nsqrt (t_vary s)) (t_varxy s) (t_rho s))
       end.

(** What SIXLIN returns: A, SIGA, B, SIGB, and X and Y as it leaves them *)
Record six := Six { x_a : list num; x_siga : list num; x_b : list num; x_sigb : list num; x_x : list num; x_y : list num }.
(** _regress.f:305-473, SIXLIN; None is IERR = 0, when A, SIGA, B and SIGB are 0
    and X and Y differ from what they were *)
Definition sixlin (x y : list R) : option six :=
  let rn := count x in
  let xavg := (nsum Num x / rn)%num in
  let yavg := (nsum Num y / rn)%num in
  let l := map (fun p => (Num (fst p) - xavg, Num (snd p) - yavg)%num) (combine x y) in
  let sxx := nsum (fun p => ((fst p)²)%num) l in
  let syy := nsum (fun p => ((snd p)²)%num) l in
  let sxy := nsum (fun p => (fst p * snd p)%num) l in
  if nzero sxy then None
  else
    let sign := if nneg sxy then Num (-1) else Num 1 in
    let one := Num 1 in
    let two := Num 2 in
    let four := Num 4 in
    let half := Num (1 / 2) in
    let quarter := Num (1 / 4) in
    let b1 := (sxy / sxx)%num in
    let b2 := (syy / sxy)%num in
    let b3 := ((b1 * b2 - one + nsqrt ((one + b1²) * (one + b2²))) / (b1 + b2))%num in
    let b4 := (half * (b2 - one / b1 + sign * nsqrt (four + (b2 - one / b1)²)))%num in
    let b5 := (sign * nsqrt (b1 * b2))%num in
    let b6 := (half * (b1 + b2))%num in
    let a b := (yavg - b * xavg)%num in
    let gam1 := (b3 / ((b1 + b2) * nsqrt ((one + b1²) * (one + b2²))))%num in
    let gam2 := (b4 / nsqrt (four * b1² + (b1 * b2 - one)²))%num in
    let sum1 := nsum (fun p => let '(x, y) := p in ((x * (y - b1 * x))²)%num) l in
    let sum2 := nsum (fun p => let '(x, y) := p in ((y * (y - b2 * x))²)%num) l in
    let sum3 := nsum (fun p => let '(x, y) := p in (x * y * (y - b1 * x) * (y - b2 * x))%num) l in
    let cov := (sum3 / (b1 * sxx²))%num in
    let v1 := (sum1 / sxx²)%num in
    let v2 := (sum2 / sxy²)%num in
    let v3 := (gam1² * ((one + b2²)² * v1 + two * (one + b1²) * (one + b2²) * cov + (one + b1²)² * v2))%num in
    let v4 := (gam2² * (v1 / b1² + two * cov + b1² * v2))%num in
    let v5 := (quarter * (b2 * v1 / b1 + two * cov + b1 * v2 / b2))%num in
    let v6 := (quarter * (v1 + two * cov + v2))%num in
    let w1 := nsum (fun p => let '(x, y) := p in (((y - b1 * x) * (one - rn * xavg * x / sxx))²)%num) l in
    let w2 := nsum (fun p => let '(x, y) := p in (((y - b2 * x) * (one - rn * xavg * y / sxy))²)%num) l in
    let w3 := nsum (fun p => let '(x, y) := p in
      (((x * (y - b1 * x) * (one + b2²) / sxx + y * (y - b2 * x) * (one + b1²) / sxy) * gam1 * xavg * rn - y + b3 * x)²)%num) l in
    let w4 := nsum (fun p => let '(x, y) := p in
      (((x * (y - b1 * x) / sxx + y * (y - b2 * x) * b1² / sxy) * gam2 * xavg * rn / nsqrt (b1²) - y + b4 * x)²)%num) l in
    let w5 := nsum (fun p => let '(x, y) := p in
      (((x * (y - b1 * x) * nsqrt (b2 / b1) / sxx + y * (y - b2 * x) * nsqrt (b1 / b2) / sxy) * half * rn * xavg - y + b5 * x)²)%num) l in
    let w6 := nsum (fun p => let '(x, y) := p in
      (((x * (y - b1 * x) / sxx + y * (y - b2 * x) / sxy) * half * rn * xavg - y + b6 * x)²)%num) l in
    Some (Six (map a [b1; b2; b3; b4; b5; b6]) (map (fun w => (nsqrt w / rn)%num) [w1; w2; w3; w4; w5; w6])
              [b1; b2; b3; b4; b5; b6] (map nsqrt [v1; v2; v3; v4; v5; v6])
              (map (fun p => (fst p + xavg)%num) l) (map (fun p => (snd p + yavg)%num) l)).

(** Python's min and max of a sequence *)
Definition py_min (l : list R) : res R :=
  match l with [] => Err ValueError | v :: l => Ok (fold_left (fun m v => if Rltb v m then v else m) l v) end.
Definition py_max (l : list R) : res R :=
  match l with [] => Err ValueError | v :: l => Ok (fold_left (fun m v => if Rltb m v then v else m) l v) end.

(** regress.py:65-95, LinRegResult; method is left out *)
Record line := Line { r_slope : num; r_inter : num; r_serr : num; r_ierr : num; r_x : list R; r_y : list R; r_npts : nat;
                      r_xmin : R; r_xmax : R; r_ymin : R; r_ymax : R }.
(** regress.py:88-95: the extremes of the values less and plus the errors *)
Definition extremes (x : list R) (xerr : option (list R)) : res (R * R) :=
  let err := match xerr with None => map (fun _ => 0) x | Some e => e end in
  let! lo := py_min (map (fun p => fst p - snd p) (combine x err)) in
  let! hi := py_max (map (fun p => fst p + snd p) (combine x err)) in
  Ok (lo, hi).
Definition linreg (slope inter serr ierr : num) (x y : list R) (xerr yerr : option (list R)) : res line :=
  let! ex := extremes x xerr in
  let! ey := extremes y yerr in
  Ok (Line slope inter serr ierr x y (length x) (fst ex) (snd ex) (fst ey) (snd ey)).

Definition pick (l : list num) (i : nat) : num := nth i l Bad.

(** regress.py:222-274, SixLin *)
Record sixlines := SixLines { s_yonx : line; s_xony : line; s_bisect : line; s_orthog : line; s_rma : line; s_mols : line }.
Definition SixLin (x y : list R) : res sixlines :=
  if negb (length y =? length x)%nat then Err ValueError
  else if (length x <? 2)%nat then Err ValueError
  else match sixlin x y with
       | None => Err ValueError
       | Some s =>
           let reg i := linreg (pick (x_b s) i) (pick (x_a s) i) (pick (x_sigb s) i) (pick (x_siga s) i) x y None None in
           let! r1 := reg 0%nat in
           let! r2 := reg 1%nat in
           let! r3 := reg 2%nat in
           let! r4 := reg 3%nat in
           let! r5 := reg 4%nat in
           let! r6 := reg 5%nat in
           Ok (SixLines r1 r2 r3 r4 r5 r6)
       end.

(** An argument that may be a number or a sequence *)
Inductive errs := Same (e : R) | Each (e : list R).
(** regress.py:114-118, 167-174: the sequence *)
Definition spread (n : nat) (e : errs) : res (list R) :=
  match e with
  | Same e => Ok (map (fun _ => e) (seq 0 n))
  | Each l => if negb (length l =? n)%nat then Err ValueError else Ok l
  end.

(** What the subroutine WLSS returns: A, AVAR, B, BVAR, EVAR *)
Record wres := Wres { w_a : num; w_avar : num; w_b : num; w_bvar : num; w_evar : num }.
(** _regress.f:177-248, WLSS; None is IERR = 0 *)
Definition wlss_f (x y yerr : list R) : option wres :=
  match sixlin x y with
  | None => None
  | Some s =>
      let n := count x in
      let d := combine (combine (x_x s) (x_y s)) yerr in
      let res p := let '(x, y, e) := p in (y - pick (x_a s) 0 - pick (x_b s) 0 * x)%num in
      let resav := (nsum res d / n)%num in
      let resvar := (nsum (fun p => ((res p - resav)²)%num) d / n)%num in
      let sig22var := (nsum (fun p => ((Num (snd p))²)%num) d / n)%num in
      let evar := (resvar - sig22var)%num in
      let star e := (evar + (Num e)²)%num in
      let wsum := nsum (fun p => let '(x, y, e) := p in (Num 1 / star e)%num) d in
      let wsumx1 := nsum (fun p => let '(x, y, e) := p in (x / star e)%num) d in
      let wsumx1y2 := nsum (fun p => let '(x, y, e) := p in (x * y / star e)%num) d in
      let wsumy2 := nsum (fun p => let '(x, y, e) := p in (y / star e)%num) d in
      let wsumx1x1 := nsum (fun p => let '(x, y, e) := p in (x * x / star e)%num) d in
      let denom := (wsum * wsumx1x1 - wsumx1²)%num in
      Some (Wres ((wsumx1x1 * wsumy2 - wsumx1 * wsumx1y2) / denom) (wsumx1x1 / denom)
                 ((wsum * wsumx1y2 - wsumx1 * wsumy2) / denom) (wsum / denom) evar)%num
  end.
(** regress.py:99-143, wlss: the result and its attribute scat *)
Definition wlss (x y : list R) (yerr : errs) : res (line * num) :=
  let! e := spread (length x) yerr in
  if negb (length y =? length x)%nat then Err ValueError
  else if (length x <? 2)%nat then Err ValueError
  else match wlss_f x y e with
       | None => Err ValueError
       | Some w =>
           let! r := linreg (w_b w) (w_a w) (nsqrt (w_bvar w)) (nsqrt (w_avar w)) x y None (Some e) in
           Ok (r, nsqrt (w_evar w))
       end.

(** _regress.f:126-150, CLASS, and 151-176, NCLASS: mean and standard deviation *)
Definition class (l : list num) : num * num :=
  let n := count l in
  let xav := (nsum (fun v => v) l / n)%num in
  (xav, nsqrt (nsum (fun v => ((v - xav)²)%num) l / n)%num).

(** A datum of BESS: Y1, Y1ERR, Y2, Y2ERR, CERR *)
Record datum := Datum { d_y1 : R; d_y1err : R; d_y2 : R; d_y2err : R; d_cerr : R }.
(** What BESS returns: A, B, AVAR, BVAR, and BVAR_IFAB(3) and (4) *)
Record bres := Bres { e_a : list num; e_b : list num; e_avar : list num; e_bvar : list num; e_ifab3 : num; e_ifab4 : num }.
(** _regress.f:1-125, BESS *)
Definition bess (l : list datum) : bres :=
  let n := count l in
  let sig11var := (nsum (fun d => ((Num (d_y1err d))²)%num) l / n)%num in
  let sig22var := (nsum (fun d => ((Num (d_y2err d))²)%num) l / n)%num in
  let sig12var := (nsum (fun d => Num (d_cerr d)) l / n)%num in
  let '(y1av, y1stddev) := class (map (fun d => Num (d_y1 d)) l) in
  let '(y2av, y2stddev) := class (map (fun d => Num (d_y2 d)) l) in
  let y1var := (y1stddev²)%num in
  let y2var := (y2stddev²)%num in
  let covar := (nsum (fun d => ((Num (d_y1 d) - y1av) * (Num (d_y2 d) - y2av))%num) l / n)%num in
  let one := Num 1 in
  let four := Num 4 in
  let b1 := ((covar - sig12var) / (y1var - sig11var))%num in
  let b2 := ((y2var - sig22var) / (covar - sig12var))%num in
  let b3 := ((b1 * b2 - one + nsqrt ((one + b1²) * (one + b2²))) / (b1 + b2))%num in
  let sign := if nneg covar then Num (-1) else Num 1 in
  let b4 := (Num (1 / 2) * (b2 - one / b1 + sign * nsqrt (four + (b2 - one / b1)²)))%num in
  let a b := (y2av - b * y1av)%num in
  let xi1 d := (((Num (d_y1 d) - y1av) * (Num (d_y2 d) - b1 * Num (d_y1 d) - a b1) + b1 * (Num (d_y1err d))²) / (y1var - sig11var))%num in
  let xi2 d := (((Num (d_y2 d) - y2av) * (Num (d_y2 d) - b2 * Num (d_y1 d) - a b2) - (Num (d_y2err d))²) / covar)%num in
  let root := (nsqrt ((one + b1²) * (one + b2²)))%num in
  let xi3 d := (xi1 d * (one + b2²) * b3 / ((b1 + b2) * root) + xi2 d * (one + b1²) * b3 / ((b1 + b2) * root))%num in
  let root4 := (nsqrt (four + (b2 - one / b1)²))%num in
  let xi4 d := (xi1 d * b4 / (b1² * root4) + xi2 d * b4 / root4)%num in
  let zeta b (xi : datum -> num) d := (Num (d_y2 d) - b * Num (d_y1 d) - y1av * xi d)%num in
  let disp (f : datum -> num) := snd (class (map f l)) in
  let bvar xi := ((disp xi)² / n)%num in
  let avar b xi := ((disp (zeta b xi))² / n)%num in
  let covb1b2 := (disp xi1 * disp xi2 / n)%num in
  Bres (map a [b1; b2; b3; b4]) [b1; b2; b3; b4]
       [avar b1 xi1; avar b2 xi2; avar b3 xi3; avar b4 xi4] [bvar xi1; bvar xi2; bvar xi3; bvar xi4]
       (b3² / ((b1 + b2)² * (one + b1²) * (one + b2²)) *
         ((one + b2²)² * bvar xi1 + (one + b1²)² * bvar xi2 + Num 2 * (one + b1²) * (one + b2²) * covb1b2))%num
       (b4² / (four * b1² + (b1 * b2 - one)²) * (bvar xi1 / b1² + Num 2 * covb1b2 + b1² * bvar xi2))%num.

(** regress.py:146-219, BCES: yonx, xony, bisect, orthog, and serr_IFAB of the
    last two *)
Record bces := Bces { c_yonx : line; c_xony : line; c_bisect : line; c_orthog : line; c_bisect_ifab : num; c_orthog_ifab : num }.
Definition BCES (x : list R) (xerr : errs) (y : list R) (yerr covar : errs) : res bces :=
  let! xe := spread (length x) xerr in
  let! ye := spread (length x) yerr in
  let! ce := spread (length x) covar in
  if negb (length y =? length x)%nat then Err ValueError
  else if (length x <? 2)%nat then Err ValueError
  else
    let e := bess (map (fun p => let '(x, xe, y, ye, c) := p in Datum x xe y ye c)
                       (combine (combine (combine (combine x xe) y) ye) ce)) in
    let reg i := linreg (pick (e_b e) i) (pick (e_a e) i) (nsqrt (pick (e_bvar e) i)) (nsqrt (pick (e_avar e) i)) x y (Some xe) (Some ye) in
    let! r1 := reg 0%nat in
    let! r2 := reg 1%nat in
    let! r3 := reg 2%nat in
    let! r4 := reg 3%nat in
    Ok (Bces r1 r2 r3 r4 (nsqrt (e_ifab3 e)) (nsqrt (e_ifab4 e))).
