(** Model of package/inference/integrate: cub2d.py, adapt_vec.py and the
    argument checks of dchhre.f.

    Doubles are real numbers.  The integrand may raise. *)

From Coq Require Import List Bool Arith ZArith Reals String.
From Verif Require Import Exn Instances BaModel CubTables.
Import ListNotations.
Open Scope R_scope.

(** A number in units of 1e-33 *)
Definition fx (z : Z) : R := IZR z / IZR (10 ^ 33).

(** ** cub2d.py: rules on the square and on rectangles *)

Section Integrand.
Variable f : R -> R -> res R.

(** cub2d.py:92.  The literals have 33 decimal places. *)
Definition gen_3d4pt : Z := 816496580927726032732428024901963.
(** cub2d.py:95-98.  The coordinates (the second one is zero in the first row
    and equal to the first one in the others) and weights. *)
Definition gen_7d12pt : list (Z * Z) :=
  [(925820099772551461566566776583999%Z, 241975308641975308641975308641975%Z);
   (380554433208315656379106359086394%Z, 520592916667394457139919432046731%Z);
   (805979782918598743707856181350744%Z, 237431774690630234218105259311293%Z)].

(** The sum of f on the axes, cub2d.py:144 and 161, 222, 262 *)
Definition on_axes (px py xm ym : R) : res R :=
  let! a := f (px + xm) ym in
  let! b := f (- px + xm) ym in
  let! c := f xm (py + ym) in
  let! d := f xm (- py + ym) in
  Ok (a + b + c + d).
(** And on the diagonals, cub2d.py:165 and 169, 266, 269 *)
Definition on_diagonals (px py xm ym : R) : res R :=
  let! a := f (px + xm) (py + ym) in
  let! b := f (px + xm) (- py + ym) in
  let! c := f (- px + xm) (py + ym) in
  let! d := f (- px + xm) (- py + ym) in
  Ok (a + b + c + d).

(** cub2d.py:131-145.  The ranges are pairs. *)
Definition rect3d4pt (xrange yrange : R * R) : res R :=
  let (xl, xu) := xrange in
  let xm := / 2 * (xu + xl) in
  let hx := / 2 * (xu - xl) in
  let (yl, yu) := yrange in
  let ym := / 2 * (yu + yl) in
  let hy := / 2 * (yu - yl) in
  let px := fx gen_3d4pt * hx in
  let py := fx gen_3d4pt * hy in
  let! cub := on_axes px py xm ym in
  Ok (cub * hx * hy).
(** cub2d.py:148-171 *)
Definition rect7d12pt (xrange yrange : R * R) : res R :=
  let (xl, xu) := xrange in
  let xm := / 2 * (xu + xl) in
  let hx := / 2 * (xu - xl) in
  let (yl, yu) := yrange in
  let ym := / 2 * (yu + yl) in
  let hy := / 2 * (yu - yl) in
  let! gw := rd gen_7d12pt 0 in
  let! s := on_axes (fx (fst gw) * hx) (fx (fst gw) * hy) xm ym in
  let cub := fx (snd gw) * s in
  let! gw := rd gen_7d12pt 1 in
  let! s := on_diagonals (fx (fst gw) * hx) (fx (fst gw) * hy) xm ym in
  let cub := cub + fx (snd gw) * s in
  let! gw := rd gen_7d12pt 2 in
  let! s := on_diagonals (fx (fst gw) * hx) (fx (fst gw) * hy) xm ym in
  let cub := cub + fx (snd gw) * s in
  Ok (cub * hx * hy).

(** cub2d.py:178-199 *)
Definition square1d4pt : res R :=
  let! a := f 1 1 in
  let! b := f 1 (-1) in
  let! c := f (-1) 1 in
  let! d := f (-1) (-1) in
  Ok (a + b + c + d).
(** cub2d.py:202-222.  (The points are p and -p; here p + 0 and - p + 0.) *)
Definition square3d4pt : res R :=
  let p := fx gen_3d4pt in on_axes p p 0 0.
(** cub2d.py:225-270 *)
Definition square7d12pt : res R :=
  let! gw := rd gen_7d12pt 0 in
  let! s := on_axes (fx (fst gw)) (fx (fst gw)) 0 0 in
  let cub := fx (snd gw) * s in
  let! gw := rd gen_7d12pt 1 in
  let! s := on_diagonals (fx (fst gw)) (fx (fst gw)) 0 0 in
  let cub := cub + fx (snd gw) * s in
  let! gw := rd gen_7d12pt 2 in
  let! s := on_diagonals (fx (fst gw)) (fx (fst gw)) 0 0 in
  Ok (cub + fx (snd gw) * s).

End Integrand.

(** ** cub2d.py: NormWtCub2D *)

(** numpy's pi and cub2d.py:89, sqrt(2), as the doubles print *)
Definition np_pi : R := fx (sci 31415926535897931 0).
Definition rt2 : R := fx (sci 14142135623730951 0).

(** The arrays in memory: those of rule_dict come first, new ones are
    appended. *)
Record store := Store { st_absc : list (list (R * R)); st_wts : list (list R) }.
(** After importing the module *)
Definition imported : store :=
  Store (map (fun t => map (fun p => (fx (fst p), fx (snd p))) (fst (snd t))) tables)
        (map (fun t => map fx (snd (snd t))) tables).
(** rule_dict: the place of a rule's arrays *)
Fixpoint find_rule (name : string) (l : list (string * (list (Z * Z) * list Z))) (i : nat) : res nat :=
  match l with
  | [] => Err KeyError
  | t :: l' => if String.eqb name (fst t) then Ok i else find_rule name l' (S i)
  end.
Definition rule_dict (name : string) : res nat := find_rule name tables 0.

(** An object of the class: the places of its arrays *)
Record ncub := Ncub { nc_absc : nat; nc_wts : nat }.

Open Scope exn_scope.
Definition lifted {S A} (r : res A) : S -> S * res A := fun s => (s, r).
Definition new_absc (l : list (R * R)) : store -> store * res nat :=
  fun s => (Store (st_absc s ++ [l]) (st_wts s), Ok (List.length (st_absc s))).
Definition new_wts (l : list R) : store -> store * res nat :=
  fun s => (Store (st_absc s) (st_wts s ++ [l]), Ok (List.length (st_wts s))).
Definition set_absc (i : nat) (l : list (R * R)) : store -> store * res unit :=
  fun s => match wr (st_absc s) i l with Ok a => (Store a (st_wts s), Ok tt) | Err e => (s, Err e) end.

(** cub2d.py:114-122.  locn and scale are sequences of numbers. *)
Definition norm_init (locn scale : list R) (rule : string) : store -> store * res ncub :=
  (i <- lifted (rule_dict rule) ;;
   s <- get ;;
   a <- lifted (rd (st_absc s) i) ;;
   w <- lifted (rd (st_wts s) i) ;;
   absc <- new_absc a ;;
   wts <- new_wts w ;;
   match locn, scale with
   | [l0; l1], [s0; s1] =>
       s <- get ;;
       a <- lifted (rd (st_absc s) absc) ;;
       set_absc absc (map (fun p => (l0 + rt2 * s0 * fst p, snd p)) a) ;;;
       s <- get ;;
       a <- lifted (rd (st_absc s) absc) ;;
       set_absc absc (map (fun p => (fst p, l1 + rt2 * s1 * snd p)) a) ;;;
       s <- get ;;
       w <- lifted (rd (st_wts s) wts) ;;
       wts <- new_wts (map (fun x => x / np_pi) w) ;;
       ret (Ncub absc wts)
   | _, _ => raise ValueError
   end).

(** cub2d.py:124-128 *)
Fixpoint norm_sum (f : R -> R -> res R) (l : list ((R * R) * R)) (cub : R) : res R :=
  match l with
  | [] => Ok cub
  | (p, wt) :: l' => let! v := f (fst p) (snd p) in norm_sum f l' (cub + wt * v)
  end.
Definition norm_call (o : ncub) (f : R -> R -> res R) : store -> store * res R :=
  (s <- get ;;
   a <- lifted (rd (st_absc s) (nc_absc o)) ;;
   w <- lifted (rd (st_wts s) (nc_wts o)) ;;
   lifted (norm_sum f (combine a w) 0)).
Close Scope exn_scope.

(** ** adapt_vec.py *)

(** A Python number *)
Inductive pynum := PInt (z : Z) | PFloat (x : R).
Definition py_real (p : pynum) : R := match p with PInt z => IZR z | PFloat x => x end.
Definition py_op (zop : Z -> Z -> Z) (rop : R -> R -> R) (p q : pynum) : pynum :=
  match p, q with
  | PInt a, PInt b => PInt (zop a b)
  | _, _ => PFloat (rop (py_real p) (py_real q))
  end.
Definition py_add := py_op Z.add Rplus.
Definition py_sub := py_op Z.sub Rminus.
Definition py_mul := py_op Z.mul Rmult.
(** Python 3: / of integers is a float.  No divisor is zero here. *)
Definition py_div (p q : pynum) : pynum := PFloat (py_real p / py_real q).

(** adapt_vec.py:28-46: the number of evaluations per region *)
Definition vec_num (ndim : nat) (key : Z) : res pynum :=
  let n := Z.of_nat ndim in
  if Nat.ltb ndim 2 then Err ValueError
  else if Nat.ltb 15 ndim then Err ValueError
  else if ((key =? 0) || (key =? 1))%Z && Nat.eqb ndim 2 then Ok (PInt 65)
  else if ((key =? 0) || (key =? 2))%Z && Nat.eqb ndim 3 then Ok (PInt 127)
  else if ((key =? 0)%Z && Nat.leb 3 ndim) || (key =? 3)%Z then
    Ok (py_add (py_add (PInt (1 + 8 * n + 2 * n * (n - 1) + 4 * n * (n - 1)))
                       (py_div (PInt (4 * n * (n - 1) * (n - 2))) (PInt 3)))
               (PInt (2 ^ n)))
  else if (key =? 4)%Z then Ok (PInt (1 + 6 * n + 2 * n * (n - 1) + 2 ^ n))
  else Err ValueError.

(** numpy.zeros takes integers only *)
Definition np_zeros (p : pynum) : res nat :=
  match p with
  | PInt z => if (z <? 0)%Z then Err ValueError else Ok (Z.to_nat z)
  | PFloat _ => Err TypeError
  end.

(** adapt_vec.py:7-87.  dcuhre gets the length of work; the other arguments
    it gets are fixed here.  The message printed is left out. *)
Section AdaptVec.
Variable dcuhre : nat -> list R * list R * Z * Z.
Definition adapt_vec (nfuncs : Z) (lower : list R) (key maxpts : Z) : res (list R * list R * Z) :=
  let ndim := List.length lower in
  let! num := vec_num ndim key in
  let maxsub := py_add (py_div (py_sub (PInt maxpts) num) (py_mul (PInt 2) num)) (PInt 1) in
  let nw := py_add (py_add (py_mul maxsub (PInt (2 * Z.of_nat ndim + 2 * nfuncs + 2))) (PInt (17 * nfuncs))) (PInt 1) in
  let! work := np_zeros nw in
  let! result := np_zeros (PInt nfuncs) in
  let '(result, abserr, neval, ifail) := dcuhre work in
  if (ifail =? 0)%Z then Ok (result, abserr, neval)
  else if ((1 <=? ifail) && (ifail <=? 12))%Z then Err ValueError
  else Err RuntimeError.
End AdaptVec.

(** dchhre.f:128-255, with MDIV = 1 and MAXDIM = 15 from dcuhre_py.f: IFAIL and
    NUM (0 when not set).  Fortran integer division truncates. *)
Definition dchhre (ndim numfun : Z) (a b : list R) (minpts maxpts : Z) (epsabs epsrel : R) (key nw restar : Z) : Z * Z :=
  if (key <? 0)%Z || (4 <? key)%Z then (2, 0)%Z
  else if (ndim <? 2)%Z || (15 <? ndim)%Z then (3, 0)%Z
  else if (key =? 1)%Z && negb (ndim =? 2)%Z then (4, 0)%Z
  else if (key =? 2)%Z && negb (ndim =? 3)%Z then (5, 0)%Z
  else
    let keyf := if (key =? 0)%Z then (if (ndim =? 2)%Z then 1 else if (ndim =? 3)%Z then 2 else 3)%Z else key in
    let num :=
      if (keyf =? 1)%Z then 65%Z
      else if (keyf =? 2)%Z then 127%Z
      else if (keyf =? 3)%Z then
        (1 + 4 * 2 * ndim + 2 * ndim * (ndim - 1) + 4 * ndim * (ndim - 1) + Z.quot (4 * ndim * (ndim - 1) * (ndim - 2)) 3 + 2 ^ ndim)%Z
      else (1 + 3 * 2 * ndim + 2 * ndim * (ndim - 1) + 2 ^ ndim)%Z in
    let maxsub := (Z.quot (maxpts - num) (2 * num) + 1)%Z in
    if (numfun <? 1)%Z then (6%Z, num)
    else if existsb (fun ab => Reqb (fst ab - snd ab) 0) (combine a b) then (7%Z, num)
    else if (maxpts <? 3 * num)%Z then (8%Z, num)
    else if (maxpts <? minpts)%Z then (9%Z, num)
    else if Rltb epsabs 0 && Rltb epsrel 0 then (10%Z, num)
    else if (nw <? maxsub * (2 * ndim + 2 * numfun + 2) + 17 * 1 * numfun + 1)%Z then (11%Z, num)
    else if negb (restar =? 0)%Z && negb (restar =? 1)%Z then (12%Z, num)
    else (0%Z, num).

(** What a program does with the class, in any order: it makes objects and
    calls them.  Exceptions are caught. *)
Inductive use := Make (locn scale : list R) (rule : string) | Call (o : ncub) (f : R -> R -> res R).
Fixpoint used (l : list use) (s : store) : store :=
  match l with
  | [] => s
  | Make locn scale rule :: l' => used l' (fst (norm_init locn scale rule s))
  | Call o f :: l' => used l' (fst (norm_call o f s))
  end.
