(** Model of package/inference/integrate: adapt.py and the routines ADAPT and
    BSRL of adapt_py.f.

    Doubles are real numbers and Fortran's default integers do not overflow.
    SYMRL, which computes the basic rules, is a parameter.  Arrays count from
    one, as in Fortran; WRKSTR is not initialised by the caller; CENTER and
    WIDTH, of size 20 there, have the NDIM elements in use.

    FLSM changes the sign of half widths and puts it back when they are not
    negative.  For lower > upper it does not, which is not modelled. *)

From Coq Require Import List Bool Arith ZArith Reals.
From Verif Require Import Exn Instances McModel BaModel ObsModel.
Import ListNotations.
Open Scope R_scope.

Definition rd1 {A} (p : list A) (i : nat) : res A := match i with O => Err BadMemory | S k => rd p k end.
Definition wr1 {A} (p : list A) (i : nat) (v : A) : res (list A) := match i with O => Err BadMemory | S k => wr p k v end.
(** Reading an array that is not initialised *)
Definition rs1 (p : list (option R)) (i : nat) : res R := match i with O => Err BadMemory | S k => rds p k end.

Section Adapt.
(** The integrand *)
Variable f : list R -> res R.
(** SYMRL, adapt_py.f:278-433, for a centre, half widths and order: the value
    INTVLS(order) and the number INTCLS of evaluations made for it in all.
    BSRL calls it with rising orders up to 12, which it accepts, and an
    exception in the integrand stops it. *)
Variable symrl : list R -> list R -> nat -> res (R * Z).

(** What BSRL returns: FUNCLS, ERREST, BASEST and DIVAXN *)
Record basic := Basic { b_funcls : Z; b_errest : R; b_basest : R; b_divaxn : nat }.

(** adapt_py.f:233-244: the orders from MAXORD, of which n are left *)
Fixpoint bsrl_orders (center hwidth : list R) (maxvls : Z) (errmin : R) (maxord n : nat) : res (R * R * Z) :=
  let! a := symrl center hwidth maxord in
  let! b := symrl center hwidth (maxord - 1) in
  let! c := symrl center hwidth (maxord - 2) in
  let intcls := snd a in
  let errest := Rabs (fst a - fst b) in
  let errorm := Rabs (fst b - fst c) in
  let errest := if Reqb errest 0 then errest else errest * Rmax (1 / 10) (errest / Rmax (errest / 2) errorm) in
  if Rleb errorm (5 * errest) then Ok (errest, fst a, intcls)
  else if (maxvls <? 2 * intcls)%Z then Ok (errest, fst a, intcls)
  else if Rltb errest errmin then Ok (errest, fst a, intcls)
  else match n with
       | O => Ok (errest, fst a, intcls)
       | S n' => bsrl_orders center hwidth maxvls errmin (S maxord) n'
       end.

(** adapt_py.f:252-271: the fourth differences along the axes; DIFMAX and
    DIVAXN.  Z(I) is put back at the end of each turn. *)
Definition bsrl_axes (center hwidth : list R) (sum0 : R) (s : nat) : res (R * nat) :=
  let x1 := / 2 ^ 2 in
  let x2 := 3 * x1 in
  iter (seq 1 s) (fun i st =>
    let! c := rd1 center i in
    let! h := rd1 hwidth i in
    let! z := wr1 center i (c - x1 * h) in
    let! p := f z in
    let! z := wr1 center i (c + x1 * h) in
    let! q := f z in
    let sum1 := p + q in
    let! z := wr1 center i (c - x2 * h) in
    let! p := f z in
    let! z := wr1 center i (c + x2 * h) in
    let! q := f z in
    let sum2 := p + q in
    let dif := Rabs ((sum1 - 2 * sum0) - (x1 / x2) ^ 2 * (sum2 - 2 * sum0)) in
    if Rltb dif (fst st) then Ok st else Ok (dif, i)) (-1, O).

(** adapt_py.f:215-276 *)
Definition bsrl (s : nat) (center hwidth : list R) (maxvls : Z) (errmin : R) (divaxo : nat) : res basic :=
  let! r := bsrl_orders center hwidth maxvls errmin 4 8 in
  let! sum0 := f center in
  let! d := bsrl_axes center hwidth sum0 s in
  let divaxn := if Reqb sum0 (sum0 + fst d / 2) then S (divaxo mod s) else snd d in
  Ok (Basic (snd r + 4 * Z.of_nat s) (fst (fst r)) (snd (fst r)) divaxn).

(** ADAPT, adapt_py.f:13-213.  The lines 139-141 and 152-154: copy a region to
    another place in WRKSTR *)
Definition copy_region (rgnstr subrgn subtmp : nat) (w : list (option R)) : res (list (option R)) :=
  iter (seq 1 rgnstr) (fun k w => let! v := rd1 w (subtmp - k + 1) in wr1 w (subrgn - k + 1) v) w.

(** adapt_py.f:132-143 *)
Fixpoint move_down (fuel rgnstr sbrgns : nat) (rgnerr : R) (subrgn : nat) (w : list (option R)) : res (nat * list (option R)) :=
  match fuel with
  | O => Err OutOfFuel
  | S fuel' =>
      let subtmp := (2 * subrgn)%nat in
      if Nat.ltb sbrgns subtmp then Ok (subrgn, w)
      else
        let! subtmp :=
          (if Nat.eqb subtmp sbrgns then Ok subtmp
           else let sbtmpp := (subtmp + rgnstr)%nat in
                let! a := rs1 w subtmp in
                let! b := rs1 w sbtmpp in
                Ok (if Rltb a b then sbtmpp else subtmp)) in
        let! e := rs1 w subtmp in
        if Rleb e rgnerr then Ok (subrgn, w)
        else let! w := copy_region rgnstr subrgn subtmp w in move_down fuel' rgnstr sbrgns rgnerr subtmp w
  end.
(** adapt_py.f:148-156 *)
Fixpoint move_up (fuel rgnstr : nat) (rgnerr : R) (subrgn : nat) (w : list (option R)) : res (nat * list (option R)) :=
  match fuel with
  | O => Err OutOfFuel
  | S fuel' =>
      let subtmp := (subrgn / (rgnstr * 2) * rgnstr)%nat in
      if Nat.ltb subtmp rgnstr then Ok (subrgn, w)
      else
        let! e := rs1 w subtmp in
        if Rleb rgnerr e then Ok (subrgn, w)
        else let! w := copy_region rgnstr subrgn subtmp w in move_up fuel' rgnstr rgnerr subtmp w
  end.
(** adapt_py.f:158-164 *)
Definition store (ndim subrgn : nat) (b : basic) (center width : list R) (w : list (option R)) : res (list (option R)) :=
  let! w := wr1 w subrgn (Some (b_errest b)) in
  let! w := wr1 w (subrgn - 1) (Some (b_basest b)) in
  let! w := wr1 w (subrgn - 2) (Some (INR (b_divaxn b))) in
  iter (seq 1 ndim) (fun j w =>
    let subtmp := (subrgn - 2 * (j + 1))%nat in
    let! c := rd1 center j in
    let! w := wr1 w (subtmp + 1) (Some c) in
    let! h := rd1 width j in
    wr1 w subtmp (Some h)) w.

(** The variables that live through the loop *)
Record state := State { w : list (option R); finest : R; funcls : Z; sbrgns : nat }.

(** adapt_py.f:119-123: apply the rule and add its results *)
Definition apply_rule (ndim lenwrk : nat) (center width : list R) (maxcls : Z) (errmin : R) (divaxo : nat) (st : state) : res (basic * state) :=
  let! b := bsrl ndim center width maxcls errmin divaxo in
  let! total := rs1 (w st) lenwrk in
  let! w' := wr1 (w st) lenwrk (Some (total + b_errest b)) in
  Ok (b, State w' (finest st + b_basest b) (funcls st + b_funcls b) (sbrgns st)).

(** What ADAPT returns *)
Record output := Output { o_minpts : Z; o_relerr : R; o_finest : R; o_ifail : nat; o_end : state }.

(** adapt_py.f:178-184: RELERR and IFAIL (3: go on), and the state *)
Definition check_end (rgnstr lenwrk : nat) (minpts maxpts : Z) (eps : R) (st : state) : res (R * nat * state) :=
  let! total := rs1 (w st) lenwrk in
  let! w' := (if Rleb total 0 then wr1 (w st) lenwrk (Some 0) else Ok (w st)) in
  let! total := rs1 w' lenwrk in
  let relerr := if Reqb (Rabs (finest st)) 0 then 1 else total / Rabs (finest st) in
  let relerr := if Rltb 1 relerr then 1 else relerr in
  let ifail := 3%nat in
  let ifail := if (Z.of_nat lenwrk - 2 <? Z.of_nat (sbrgns st + rgnstr))%Z then 2%nat else ifail in
  let ifail := if (maxpts <? funcls st + Z.quot (funcls st * Z.of_nat rgnstr) (Z.of_nat (sbrgns st)))%Z then 1%nat else ifail in
  let ifail := if Rltb relerr eps && (minpts <=? funcls st)%Z then 0%nat else ifail in
  Ok (relerr, ifail, State w' (finest st) (funcls st) (sbrgns st)).

(** adapt_py.f:196-200 *)
Definition load (ndim subrgn : nat) (w : list (option R)) (cw : list R * list R) : res (list R * list R) :=
  iter (seq 1 ndim) (fun j cw =>
    let subtmp := (subrgn - 2 * (j + 1))%nat in
    let! c := rs1 w (subtmp + 1) in
    let! center := wr1 (fst cw) j c in
    let! h := rs1 w subtmp in
    let! width := wr1 (snd cw) j h in
    Ok (center, width)) cw.

(** adapt_py.f:189-202, 119-174: divide the first region in the list *)
Definition divide (ndim lenwrk : nat) (maxpts : Z) (eps : R) (st : state) (cw : list R * list R) : res (state * (list R * list R)) :=
  let rgnstr := (2 * ndim + 3)%nat in
  let subrgn := rgnstr in
  let subtmp := (2 * sbrgns st / rgnstr)%nat in
  let maxcls := Z.quot maxpts (Z.of_nat subtmp) in
  let errmin := Rabs (finest st) * eps / INR subtmp in
  let! total := rs1 (w st) lenwrk in
  let! e := rs1 (w st) subrgn in
  let! w' := wr1 (w st) lenwrk (Some (total - e)) in
  let! v := rs1 w' (subrgn - 1) in
  let! a := rs1 w' (subrgn - 2) in
  let divaxo := Z.to_nat (to_int a) in
  let! cw := load ndim subrgn w' cw in
  let! h := rd1 (snd cw) divaxo in
  let! width := wr1 (snd cw) divaxo (h * / 2) in
  let! c := rd1 (fst cw) divaxo in
  let! h := rd1 width divaxo in
  let! center := wr1 (fst cw) divaxo (c - h) in
  let st := State w' (finest st - v) (funcls st) (sbrgns st) in
  let! r := apply_rule ndim lenwrk center width maxcls errmin divaxo st in
  let (b, st) := (fst r, snd r) in
  let! p := move_down (S (sbrgns st)) rgnstr (sbrgns st) (b_errest b) subrgn (w st) in
  let! w' := store ndim (fst p) b center width (snd p) in
  let! c := rd1 center divaxo in
  let! h := rd1 width divaxo in
  let! center := wr1 center divaxo (c + 2 * h) in
  let st := State w' (finest st) (funcls st) (sbrgns st + rgnstr) in
  let! r := apply_rule ndim lenwrk center width maxcls errmin divaxo st in
  let (b, st) := (fst r, snd r) in
  let! p := move_up (S (sbrgns st)) rgnstr (b_errest b) (sbrgns st) (w st) in
  let! w' := store ndim (fst p) b center width (snd p) in
  Ok (State w' (finest st) (funcls st) (sbrgns st), (center, width)).

(** The loop, adapt_py.f:119-211 *)
Fixpoint refine (fuel ndim lenwrk : nat) (minpts maxpts : Z) (eps : R) (st : state) (cw : list R * list R) : res output :=
  match fuel with
  | O => Err OutOfFuel
  | S fuel' =>
      let! r := check_end (2 * ndim + 3) lenwrk minpts maxpts eps st in
      let '(relerr, ifail, st) := r in
      if Nat.ltb ifail 3 then
        let! w' := wr1 (w st) (lenwrk - 1) (Some (INR (sbrgns st))) in
        Ok (Output (funcls st) relerr (finest st) ifail (State w' (finest st) (funcls st) (sbrgns st)))
      else
        let! r := divide ndim lenwrk maxpts eps st cw in
        refine fuel' ndim lenwrk minpts maxpts eps (fst r) (snd r)
  end.

(** adapt_py.f:111-118: centre and half widths *)
Definition whole (a b : list R) : list R * list R :=
  (map (fun p => fst p + (snd p - fst p) * / 2) (combine a b), map (fun p => (snd p - fst p) * / 2) (combine a b)).

(** The subroutine.  Going on with an earlier calculation (MINPTS < 0) is not
    modelled; adapt.py never asks for it.  When NDIM is out of range FINEST is
    not set and SBRGNS is stored without a value. *)
Definition fortran (a b : list R) (minpts maxpts : Z) (eps : R) (lenwrk : nat) : res (option output) :=
  let ndim := length a in
  if Nat.ltb ndim 2 || Nat.ltb 20 ndim then Ok None
  else if (maxpts <? minpts)%Z then Ok None
  else if (minpts <? 0)%Z then Err NotImplementedError
  else
    let rgnstr := (2 * ndim + 3)%nat in
    let maxcls := Z.min (2 ^ Z.of_nat ndim + 2 * Z.of_nat ndim ^ 2 + 6 * Z.of_nat ndim + 1) maxpts in
    let (center, width) := whole a b in
    let! w0 := wr1 (repeat None lenwrk) lenwrk (Some 0) in
    let st := State w0 0 0 rgnstr in
    let! r := apply_rule ndim lenwrk center width maxcls 0 0 st in
    let (b, st) := (fst r, snd r) in
    let! p := move_up (S (sbrgns st)) rgnstr (b_errest b) rgnstr (w st) in
    let! w' := store ndim (fst p) b center width (snd p) in
    let! o := refine (S lenwrk) ndim lenwrk minpts maxpts eps (State w' (finest st) (funcls st) (sbrgns st)) (center, width) in
    Ok (Some o).

(** adapt.py:35-64.  The last number is a float. *)
Definition adapt_sizes (ndim : nat) (maxfac : Z) : Z * Z * R :=
  let n := Z.of_nat ndim in
  let rulcls := (2 ^ n + 2 * n ^ 2 + 6 * n + 1)%Z in
  (rulcls, maxfac * rulcls, (IZR ((2 * n + 3) * (1 + maxfac)) / 2)%R)%Z.

(** adapt.py:67-93 with adapt.pyf: upper must be as long as lower, and lenwrk
    is cut to an integer.  None is Python's. *)
Definition adapt (lower upper : list R) (relacc : R) (maxfac wrkfac : Z) : res (option (R * R * Z)) :=
  let '(minpts, maxpts, lenwrk) := adapt_sizes (length lower) 100 in
  if negb (Nat.eqb (length upper) (length lower)) then Err ValueError
  else
    let! r := fortran lower upper minpts maxpts relacc (Z.to_nat (to_int lenwrk)) in
    match r with
    | None => Ok None
    | Some o =>
        match o_ifail o with
        | 0%nat => Ok (Some (o_finest o, o_relerr o, o_minpts o))
        | 1%nat => Err RuntimeError
        | 2%nat => Err RuntimeError
        | _ => Ok None
        end
    end.

End Adapt.
