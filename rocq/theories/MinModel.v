(** Model of the one-dimensional searches and the steppers:
    package/inference/utils/nrmin.py:4-224 and utils/numutils.py:25-149,
    173-211.

    Floating-point numbers are real numbers here (no rounding, overflow or
    NaN), except in the steppers, which are generic in their arithmetic.  The
    functions being searched are total and pure.  Points at which a function
    is called are recorded in the state. *)

From Coq Require Import ZArith List Bool Arith Reals.
From Verif Require Import Exn PieModel Instances.
Import ListNotations.
Open Scope exn_scope.

(** ** Steppers *)
Section Steppers.
Context {N : num}.

(** numutils.py:28-36: the values yielded for i, i+1, ..., with [count] left. *)
Fixpoint lin_loop (lo hi delta : N) (n i count : nat) (offset : N) : list N :=
  match count with
  | O => []
  | S c =>
      if Nat.eqb i 0 then lo :: lin_loop lo hi delta n (S i) c (ofZ N 0)
      else if Nat.eqb i (n - 1) then hi :: lin_loop lo hi delta n (S i) c offset
      else add N lo (add N offset delta) :: lin_loop lo hi delta n (S i) c (add N offset delta)
  end.
(** numutils.py:25-36, lin_stepper; all that iterating over it gives. *)
Definition lin_stepper (lo hi : N) (n : nat) : res (list N) :=
  if Nat.eqb n 1 then Err ZeroDivisionError
  else Ok (lin_loop lo hi (div N (sub N hi lo) (sub N (ofZ N (Z.of_nat n)) (ofZ N 1))) n 0 n (ofZ N 0)).

(** numutils.py:38-49, lin_enum_stepper. *)
Fixpoint lin_enum_loop (lo hi delta : N) (n i count : nat) (offset : N) : list (nat * N) :=
  match count with
  | O => []
  | S c =>
      if Nat.eqb i 0 then (i, lo) :: lin_enum_loop lo hi delta n (S i) c (ofZ N 0)
      else if Nat.eqb i (n - 1) then (i, hi) :: lin_enum_loop lo hi delta n (S i) c offset
      else (i, add N lo (add N offset delta)) :: lin_enum_loop lo hi delta n (S i) c (add N offset delta)
  end.
Definition lin_enum_stepper (lo hi : N) (n : nat) : res (list (nat * N)) :=
  if Nat.eqb n 1 then Err ZeroDivisionError
  else Ok (lin_enum_loop lo hi (div N (sub N hi lo) (sub N (ofZ N (Z.of_nat n)) (ofZ N 1))) n 0 n (ofZ N 0)).

(** numutils.py:51-63, log_stepper.  For n = 1 the factor is a NumPy division
    by zero, which does not raise; it is not used then. *)
Fixpoint log_loop (lo hi fac : N) (n i count : nat) (cur : N) : list N :=
  match count with
  | O => []
  | S c =>
      if Nat.eqb i 0 then lo :: log_loop lo hi fac n (S i) c lo
      else if Nat.eqb i (n - 1) then hi :: log_loop lo hi fac n (S i) c cur
      else mul N cur fac :: log_loop lo hi fac n (S i) c (mul N cur fac)
  end.
Definition log_fac (lo hi : N) (n : nat) : N :=
  vexp N (div N (vlog N (div N hi lo)) (ofZ N (Z.of_nat n - 1))).
Definition log_stepper (lo hi : N) (n : nat) : res (list N) :=
  if eqb N lo (ofZ N 0) then Err ZeroDivisionError
  else Ok (log_loop lo hi (log_fac lo hi n) n 0 n lo).

(** numutils.py:65-77, log_enum_stepper. *)
Fixpoint log_enum_loop (lo hi fac : N) (n i count : nat) (cur : N) : list (nat * N) :=
  match count with
  | O => []
  | S c =>
      if Nat.eqb i 0 then (i, lo) :: log_enum_loop lo hi fac n (S i) c lo
      else if Nat.eqb i (n - 1) then (i, hi) :: log_enum_loop lo hi fac n (S i) c cur
      else (i, mul N cur fac) :: log_enum_loop lo hi fac n (S i) c (mul N cur fac)
  end.
Definition log_enum_stepper (lo hi : N) (n : nat) : res (list (nat * N)) :=
  if eqb N lo (ofZ N 0) then Err ZeroDivisionError
  else Ok (log_enum_loop lo hi (log_fac lo hi n) n 0 n lo).
End Steppers.

Open Scope R_scope.

(** ** LogSummer, numutils.py:79-149 *)
Record summer := Summer { s_n : nat; s_log : option R; s_dosig : bool; s_sig : option R }.

(** numutils.py:87-97 *)
Definition summer0 (dosig : bool) (start : option (nat * option R)) : summer :=
  match start with
  | None => Summer 0 None dosig None
  | Some (n, l) => Summer n l dosig None
  end.

(** numutils.py:101-112 and, with the same shape, 115-126. *)
Definition log_add (l : option R) (val : R) : R :=
  match l with
  | None => val
  | Some s =>
      if Rleb val s then
        let dif := val - s in
        if Rltb (-40) dif then s + ln (1 + exp dif) else s
      else
        let dif := s - val in
        if Rltb (-40) dif then val + ln (1 + exp dif) else val
  end.

(** numutils.py:99-127 *)
Definition s_add (val : R) (s : summer) : summer :=
  Summer (S (s_n s)) (Some (log_add (s_log s) val)) (s_dosig s)
         (if s_dosig s then Some (log_add (s_sig s) (2 * val)) else s_sig s).
(** numutils.py:129-131 *)
Definition s_add_zero (s : summer) : summer := Summer (S (s_n s)) (s_log s) (s_dosig s) (s_sig s).

(** The logarithm of NumPy: of zero it is minus infinity, of a negative number
    not a number. *)
Inductive ext := Fin (r : R) | MinusInf | NotANumber.
Definition np_log (x : R) : ext :=
  if Rltb 0 x then Fin (ln x) else if Reqb x 0 then MinusInf else NotANumber.

Inductive summary :=
| Status (n : nat) (log_sum log_mean : R)
| StatusSig (n : nat) (log_sum sig_sum log_mean : R) (log_sig : ext).

(** numutils.py:133-149 *)
Definition s_status (s : summer) : res summary :=
  match s_log s with
  | None => Err ValueError
  | Some l =>
      let lg := ln (INR (s_n s)) in
      let lmean := l - lg in
      if s_dosig s then
        match s_sig s with
        | None => Err TypeError
        | Some q =>
            let l2 := q - lg in
            let dif := 2 * lmean - l2 in
            Ok (StatusSig (s_n s) l q lmean
                 (if Rltb (-40) dif
                  then match np_log (1 - exp dif) with
                       | Fin r => Fin (1/2 * l2 + 1/2 * r)
                       | e => e
                       end
                  else Fin (1/2 * l2)))
        end
      else Ok (Status (s_n s) l lmean)
  end.

(** ** Searches: a call of the function, recorded *)
Definition F (A : Type) : Type := list R -> list R * res A.
Definition call (f : R -> R) (x : R) : F R := fun tr => (tr ++ [x], Ok (f x)).

(** numutils.py:194-211; [left] is maxtries - tries. *)
Fixpoint zloop (f : R -> R) (expand : R) (left : nat) (x1 x2 f1 f2 : R) : F (R * R) :=
  match left with
  | O => raise RuntimeError
  | S k =>
      if Rltb (f1 * f2) 0 then ret (x1, x2)
      else if Rltb (Rabs f1) (Rabs f2) then
        let x1' := x1 + expand * (x1 - x2) in
        f1' <- call f x1';; zloop f expand k x1' x2 f1' f2
      else
        let x2' := x2 + expand * (x2 - x1) in
        f2' <- call f x2';; zloop f expand k x1 x2' f1 f2'
  end.
(** numutils.py:173-211, zbracket; [args] is part of the function here. *)
Definition zbracket (f : R -> R) (x1 x2 : R) (vals : option (R * R)) (maxtries : nat) (expand : R)
  : F (R * R) :=
  if Reqb x1 x2 then raise ValueError
  else match vals with
       | Some (f1, f2) => zloop f expand maxtries x1 x2 f1 f2
       | None => f1 <- call f x1;; f2 <- call f x2;; zloop f expand maxtries x1 x2 f1 f2
       end.

(** nrmin.py:10-12, 77-78 *)
Definition GOLD : R := 1618034 / 1000000.
Definition TINY : R := 1 / 10 ^ 20.
Definition MAXMAG : R := 100.
Definition CGOLD : R := 3819660 / 10000000.
Definition EPS0 : R := 1 / 10 ^ 10.

Record brak := Brak { b_x1 : R; b_f1 : R; b_xm : R; b_fm : R; b_x2 : R; b_f2 : R }.

(** nrmin.py:22-62: the loop runs until it breaks, or OutOfFuel. *)
Fixpoint mb_loop (f : R -> R) (fuel : nat) (b : brak) : F brak :=
  match fuel with
  | O => raise OutOfFuel
  | S fuel' =>
      let '(Brak x1 f1 xm fm x2 f2) := b in
      if Rltb fm f2 then ret b
      else
        let d1 := xm - x1 in
        let d2 := xm - x2 in
        let r := d1 * (fm - f2) in
        let q := d2 * (fm - f1) in
        let u0 := 2 * (q - r) in
        let u1 := if Rltb (Rabs u0) TINY then (if Rleb 0 u0 then TINY else - TINY) else u0 in
        let u := xm - (d2 * q - d1 * r) / u1 in
        let ulim := xm - MAXMAG * d2 in
        if Rltb 0 ((xm - u) * (u - x2)) then
          fu <- call f u;;
          if Rltb fu f2 then ret (Brak xm fm u fu x2 f2)
          else if Rltb fm fu then ret (Brak x1 f1 xm fm u fu)
          else
            let u' := x2 - GOLD * d2 in
            fu' <- call f u';; mb_loop f fuel' (Brak xm fm x2 f2 u' fu')
        else if Rltb 0 ((x2 - u) * (u - ulim)) then
          fu <- call f u;;
          if Rltb fu f2 then
            (* xm, x2 = x2, u *)
            let u' := u - GOLD * d2 in
            fu' <- call f u';; mb_loop f fuel' (Brak x2 f2 u fu u' fu')
          else mb_loop f fuel' (Brak xm fm x2 f2 u fu)
        else if Rleb 0 ((u - ulim) * (ulim - x2)) then
          fu <- call f ulim;; mb_loop f fuel' (Brak xm fm x2 f2 ulim fu)
        else
          let u' := x2 - GOLD * d2 in
          fu' <- call f u';; mb_loop f fuel' (Brak xm fm x2 f2 u' fu')
  end.

(** nrmin.py:7-66, MinBracket(f, x1, x2). *)
Definition MinBracket (f : R -> R) (fuel : nat) (x1 x2 : R) : F brak :=
  f1 <- call f x1;;
  fm <- call f x2;;
  let '(x1, xm, f1, fm) := if Rltb f1 fm then (x2, x1, fm, f1) else (x1, x2, f1, fm) in
  let x2 := xm + GOLD * (xm - x1) in
  f2 <- call f x2;;
  b <- mb_loop f fuel (Brak x1 f1 xm fm x2 f2);;
  let '(Brak x1 f1 xm fm x2 f2) := b in
  ret (if Rltb x2 x1 then Brak x2 f2 xm fm x1 f1 else b).

(** nrmin.py:87-153; [left] is maxit - iter before the increment; [d] is None
    until it is assigned. *)
Fixpoint brent_loop (f : R -> R) (tol : R) (left : nat) (a b v w x fv fw fx e : R) (d : option R)
  : F (R * R) :=
  match left with
  | O => raise IterErr
  | S left' =>
      let xm := 1/2 * (a + b) in
      let tol1 := tol * Rabs x + EPS0 in
      let tol2 := 2 * tol1 in
      if Rleb (Rabs (x - xm)) (tol2 - 1/2 * (b - a)) then ret (x, fx)
      else
        de <- (if Rltb tol1 (Rabs e) then
                 let xw := x - w in
                 let xv := x - v in
                 let r := xw * (fx - fv) in
                 let q := xv * (fx - fw) in
                 let p := xv * q - xw * r in
                 let q := 2 * (q - r) in
                 let p := if Rltb 0 q then - p else p in
                 let q := Rabs q in
                 let etemp := e in
                 e' <- attr UnboundLocalError d;;
                 if Rleb (Rabs (1/2 * q * etemp)) (Rabs p) || Rleb p (q * (a - x)) || Rleb (q * (b - x)) p
                 then let e' := if Rleb xm x then a - x else b - x in ret (CGOLD * e', e')
                 else
                   let d' := p / q in
                   let u := x + d' in
                   if Rltb (u - a) tol2 || Rltb (b - u) tol2
                   then ret (if Rltb (xm - x) 0 then - tol1 else tol1, e')
                   else ret (d', e')
               else let e' := if Rleb xm x then a - x else b - x in ret (CGOLD * e', e'));;
        let '(d', e') := de in
        let u := if Rleb tol1 (Rabs d') then x + d' else if Rltb d' 0 then x - tol1 else x + tol1 in
        fu <- call f u;;
        if Rleb fu fx then
          let '(a', b') := if Rleb x u then (x, b) else (a, x) in
          brent_loop f tol left' a' b' w x u fw fx fu e' (Some d')
        else
          let '(a', b') := if Rltb u x then (u, b) else (a, u) in
          if Rleb fu fw || Reqb w x then brent_loop f tol left' a' b' w u x fw fu fx e' (Some d')
          else if Rleb fu fv || Reqb v x || Reqb v w
               then brent_loop f tol left' a' b' u w x fu fw fx e' (Some d')
               else brent_loop f tol left' a' b' v w x fv fw fx e' (Some d')
  end.
(** nrmin.py:75-153, brent. *)
Definition brent (f : R -> R) (br : brak) (tol : R) (maxit : nat) : F (R * R) :=
  let v := b_xm br in
  fv <- call f v;;
  brent_loop f tol maxit (b_x1 br) (b_x2 br) v v v fv fv fv 0 None.

(** ** Several dimensions.  Points and directions are of any type with an
    addition and a multiplication by scalars. *)
Section Powell.
Variable V : Type.
Variable vadd : V -> V -> V.
Variable scale : R -> V -> V.
Variable f : V -> R.
(** Steps allowed to each bracketing search. *)
Variable fuel : nat.

(** nrmin.py:156-165, linmin; tol is 1e-4 and brent's maxit 100. *)
Definition linmin (pt drxn : V) : res (V * V * R) :=
  let f1dim x := f (vadd pt (scale x drxn)) in
  match snd ((b <- MinBracket f1dim fuel 0 1;; brent f1dim b (1 / 10 ^ 4) 100) []) with
  | Ok (l, fl) => let drxn' := scale l drxn in Ok (vadd pt drxn', drxn', fl)
  | Err e => Err e
  end.

(** nrmin.py:199-205: i from [i], along [drxns]; the point, fret, ibig, delta. *)
Fixpoint sweep (n i : nat) (drxns : list V) (p : V) (fret : R) (ibig : nat) (delta : R)
  : res (V * R * nat * R) :=
  match n with
  | O => Ok (p, fret, ibig, delta)
  | S n' =>
      match nth_error drxns i with
      | None => Err IndexError
      | Some vec =>
          match linmin p vec with
          | Err e => Err e
          | Ok (p', _, fret') =>
              if Rltb delta (Rabs (fret - fret'))
              then sweep n' (S i) drxns p' fret' i (Rabs (fret - fret'))
              else sweep n' (S i) drxns p' fret' ibig delta
          end
      end
  end.

Fixpoint replace_nth (l : list V) (i : nat) (v : V) : list V :=
  match l, i with
  | [], _ => []
  | _ :: l', O => v :: l'
  | x :: l', S i' => x :: replace_nth l' i' v
  end.

(** nrmin.py:194-224; [iter] before the increment. *)
Fixpoint powell_loop (steps n iter maxit : nat) (ftol : R) (drxns : list V) (p p0 : V) (fret : R)
  : res (V * R * nat) :=
  match steps with
  | O => Err OutOfFuel
  | S steps' =>
      let iter := S iter in
      let fp := fret in
      match sweep n 0 drxns p fret 0 0 with
      | Err e => Err e
      | Ok (p, fret, ibig, delta) =>
          if Rleb (2 * Rabs (fp - fret)) (ftol * (Rabs fp + Rabs fret)) then Ok (p, fret, iter)
          else if Nat.eqb iter maxit then Err IterErr
          else
            let ptt := vadd (scale 2 p) (scale (-1) p0) in
            let vec := vadd p (scale (-1) p0) in
            let fptt := f ptt in
            if Rleb fp fptt then powell_loop steps' n iter maxit ftol drxns p p fret
            else
              let t := 2 * (fp - 2 * fret + fptt) * (fp - fret - delta) ^ 2 - delta * (fp - fptt) ^ 2 in
              if Rleb 0 t then powell_loop steps' n iter maxit ftol drxns p p fret
              else
                match linmin p vec with
                | Err e => Err e
                | Ok (p', vec', fret') =>
                    match nth_error drxns ibig, nth_error drxns (length drxns - 1) with
                    | Some _, Some z =>
                        let d1 := replace_nth drxns ibig z in
                        powell_loop steps' n iter maxit ftol
                          (replace_nth d1 (length d1 - 1) vec') p' p fret'
                    | _, _ => Err IndexError
                    end
                end
      end
  end.
(** nrmin.py:182-193 *)
Definition shuffled (n : nat) (drxns : list V) : list V :=
  match drxns with [] => [] | v :: l => l ++ [v] end.
Definition powell (steps n : nat) (p : V) (drxns : list V) (ftol : R) (maxit : nat) (shuffle : bool)
  : res (V * R * nat) :=
  let drxns := if shuffle then shuffled n drxns else drxns in
  powell_loop steps n 0 maxit ftol drxns p p (f p).
End Powell.
