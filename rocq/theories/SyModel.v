(** Model of package/inference/integrate/adapt_py.f, lines 278-558: the basic
    rules of ADAPT.

    Doubles are real numbers; the generators are the decimals in the DATA
    statements, the last four in single precision as they are written.  Where
    a work array is passed to a function only for its storage (MOMENT and K to
    WHT and FLSM) the function has its own.  The arrays of size 20 have the
    elements in use. *)

From Coq Require Import List Bool Arith ZArith Reals.
From Verif Require Import Exn Instances McModel BaModel ObsModel AdModel.
Import ListNotations.
Open Scope R_scope.

(** adapt_py.f:344-348 *)
Definition g_table : list R :=
  [0; IZR 7745966692414833 / IZR (10 ^ 16); IZR 9604912687080202 / IZR (10 ^ 16); IZR 4342437493468025 / IZR (10 ^ 16);
   IZR 9938319632127549 / IZR (10 ^ 16); IZR 8884592328722569 / IZR (10 ^ 16); IZR 6211029467372263 / IZR (10 ^ 16); IZR 2233866864289668 / IZR (10 ^ 16);
   IZR 13421773 / IZR (2 ^ 27); IZR 13421773 / IZR (2 ^ 26); IZR 5033165 / IZR (2 ^ 24); IZR 13421773 / IZR (2 ^ 25)].

(** adapt_py.f:360-364: the first power of two which is lost when added to 1
    in doubles, times 200 *)
Definition momtol : R := 100 * 2 * (/ 2 ^ 53).

(** adapt_py.f:368-381 *)
Definition moments_start (maxord : nat) : list R := map (fun l => 2 / INR (l + l - 1)) (seq 1 maxord).
Definition moments_row (maxord l : nat) (moment : list R) : res (list R) :=
  let! intmpa := rd1 moment (l - 1) in
  let! g := rd1 g_table (l - 1) in
  let! r := iter (seq l (maxord + 1 - l)) (fun i st =>
    let (moment, intmpa) := (st : list R * R) in
    let! intmpb := rd1 moment i in
    let! moment := wr1 moment i (intmpb - g ^ 2 * intmpa) in
    Ok (moment, intmpb)) (moment, intmpa) in
  let moment := fst r in
  let! m := rd1 moment l in
  let! m1 := rd1 moment 1 in
  if Rltb (m ^ 2) ((momtol * m1) ^ 2) then wr1 moment l 0 else Ok moment.
Definition moments (maxord : nat) : res (list R) := iter (seq 2 (maxord - 1)) (fun l moment => moments_row maxord l moment) (moments_start maxord).

(** adapt_py.f:382-394.  None: two generators are equal or one is negative,
    and the subroutine returns with FAIL = 2 *)
Fixpoint momprd_cells (l : nat) (moment : list R) (glsqrd momnkn : R) (is : list nat) : res (option (list R)) :=
  match is with
  | [] => Ok (Some [])
  | i :: is' =>
      let! gi := (if Nat.leb i l then rd1 g_table (i - 1) else rd1 g_table i) in
      let gisqrd := gi ^ 2 in
      if Reqb glsqrd gisqrd then Ok None
      else
        let momnkn := momnkn / (glsqrd - gisqrd) in
        let! m := rd1 moment i in
        let! r := momprd_cells l moment glsqrd momnkn is' in
        Ok (match r with Some r => Some (momnkn * m :: r) | None => None end)
  end.
Fixpoint momprd_rows (maxord : nat) (moment : list R) (ls : list nat) : res (option (list (list R))) :=
  match ls with
  | [] => Ok (Some [])
  | l :: ls' =>
      let! g := rd1 g_table l in
      if Rltb g 0 then Ok None
      else
        let! m := rd1 moment 1 in
        let! r := momprd_cells l moment (g ^ 2) 1 (seq 2 (maxord - 1)) in
        match r with
        | None => Ok None
        | Some r => let! rs := momprd_rows maxord moment ls' in Ok (match rs with Some rs => Some ((m :: r) :: rs) | None => None end)
        end
  end.
Definition momprd (maxord : nat) : res (option (list (list R))) :=
  let! moment := moments maxord in momprd_rows maxord moment (seq 1 maxord).
Definition rd2 (t : list (list R)) (i j : nat) : res R := let! r := rd1 t i in rd1 r j.

(** WHT, adapt_py.f:433-461.  The variables INTRPS, K and K1, and the loop
    from label 30 at I: jumping to label 20 starts it again at 2 *)
Record wstate := WState { w_intrps : list R; w_k : list nat; w_k1 : nat }.
Fixpoint wht_loop (fuel s : nat) (m : list nat) (m1 : nat) (prd : list (list R)) (i : nat) (st : wstate) : res wstate :=
  match fuel with
  | O => Err OutOfFuel
  | S fuel' =>
      if Nat.ltb s i then Ok st
      else
        let! mi := rd1 m i in
        let mi := (mi + 1)%nat in
        let! ki := rd1 (w_k st) i in
        let! p := rd2 prd mi (ki + mi) in
        let! a := rd1 (w_intrps st) i in
        let! b := rd1 (w_intrps st) (i - 1) in
        let! intrps := wr1 (w_intrps st) i (a + p * b) in
        let! intrps := wr1 intrps (i - 1) 0 in
        let k1 := (w_k1 st - 1)%nat in
        let! k := wr1 (w_k st) i (ki + 1)%nat in
        if Nat.leb m1 k1 then
          let! p := rd2 prd m1 k1 in
          let! intrps := wr1 intrps 1 p in
          wht_loop fuel' s m m1 prd 2 (WState intrps k k1)
        else
          let! ki := rd1 k i in
          let! k := wr1 k i 0%nat in
          wht_loop fuel' s m m1 prd (S i) (WState intrps k (k1 + ki))
  end.
Definition wht (s : nat) (m : list nat) (modofm d : nat) (prd : list (list R)) : res R :=
  let! m0 := rd1 m 1 in
  let m1 := (m0 + 1)%nat in
  let k1 := (d - modofm + m1)%nat in
  let! p := rd2 prd m1 k1 in
  let! intrps := wr1 (repeat 0 s) 1 p in
  let! st := wht_loop (2 ^ (s + d)) s m m1 prd 2 (WState intrps (repeat 0%nat s) k1) in
  rd1 (w_intrps st) s.

(** FLSM, adapt_py.f:463-531 *)
Section Flsm.
Variable f : list R -> res R.
Variable s : nat.
Variable center : list R.

(** Lines 487-491: X for a permutation *)
Definition flsm_start (mp : list nat) (hwidth : list R) : res (list R) :=
  iter (seq 1 s) (fun i x =>
    let! mpi := rd1 mp i in
    let! g := rd1 g_table (mpi + 1) in
    let! c := rd1 center i in
    let! h := rd1 hwidth i in
    wr1 x i (c + g * h)) (repeat 0 s).
(** Lines 495-500: change signs, from the component i; true: jump to 40 *)
Fixpoint flsm_flip (mp : list nat) (is : list nat) (x hwidth : list R) : res (bool * list R * list R) :=
  match is with
  | [] => Ok (false, x, hwidth)
  | i :: is' =>
      let! mpi := rd1 mp i in
      let! g := rd1 g_table (mpi + 1) in
      let! c := rd1 center i in
      let! h := rd1 hwidth i in
      let h := if Reqb g 0 then h else - h in
      let! hwidth := wr1 hwidth i h in
      let! x := wr1 x i (c + g * h) in
      if Rltb (c + g * h) c then Ok (true, x, hwidth) else flsm_flip mp is' x hwidth
  end.
(** Lines 492-500: SUMCLS and INTSUM *)
Fixpoint flsm_signs (fuel : nat) (mp : list nat) (x hwidth : list R) (sumcls : Z) (intsum : R) : res (Z * R * list R) :=
  match fuel with
  | O => Err OutOfFuel
  | S fuel' =>
      let sumcls := (sumcls + 1)%Z in
      let! v := f x in
      let intsum := intsum + v in
      let! r := flsm_flip mp (seq 1 s) x hwidth in
      let '(again, x, hwidth) := r in
      if (again : bool) then flsm_signs fuel' mp x hwidth sumcls intsum else Ok (sumcls, intsum, hwidth)
  end.

(** Lines 514-522: turn the first I - 1 elements around *)
Definition flsm_turn (i : nat) (mpi : nat) (mp : list nat) : res (list nat * nat * option nat) :=
  iter (seq 1 ((i - 1) / 2)) (fun l st =>
    let '(mp, ixchng, lxchng) := (st : list nat * nat * option nat) in
    let! mpl := rd1 mp l in
    let imnusl := (i - l)%nat in
    let! b := rd1 mp imnusl in
    let! mp := wr1 mp l b in
    let! mp := wr1 mp imnusl mpl in
    let ixchng := if Nat.leb mpl mpi then (ixchng - 1)%nat else ixchng in
    let lxchng := if Nat.ltb mpi b then Some l else lxchng in
    Ok (mp, ixchng, lxchng)) (mp, (i - 1)%nat, None).
(** Lines 508-527: the next permutation, None after the last one *)
Fixpoint flsm_next (mp : list nat) (is : list nat) : res (option (list nat)) :=
  match is with
  | [] => Ok None
  | i :: is' =>
      let! a := rd1 mp (i - 1) in
      let! mpi := rd1 mp i in
      if Nat.leb a mpi then flsm_next mp is'
      else
        let! r := (if Nat.eqb i 2 then Ok (mp, (i - 1)%nat)
                   else
                     let! r := flsm_turn i mpi mp in
                     let '(mp, ixchng, lxchng) := r in
                     let! b := rd1 mp ixchng in
                     if Nat.leb b mpi then match lxchng with Some l => Ok (mp, l) | None => Err BadMemory end
                     else Ok (mp, ixchng)) in
        let (mp, ixchng) := (r : list nat * nat) in
        let! b := rd1 mp ixchng in
        let! mp := wr1 mp i b in
        let! mp := wr1 mp ixchng mpi in
        Ok (Some mp)
  end.
Fixpoint flsm_perms (fuel : nat) (intwgt : R) (mp : list nat) (hwidth : list R) (sumcls : Z) (flsm : R) : res (R * Z * list R) :=
  match fuel with
  | O => Err OutOfFuel
  | S fuel' =>
      let! x := flsm_start mp hwidth in
      let! r := flsm_signs (2 ^ s) mp x hwidth sumcls 0 in
      let '(sumcls, intsum, hwidth) := r in
      let flsm := flsm + intwgt * intsum in
      let! next := flsm_next mp (seq 2 (s - 1)) in
      match next with
      | None => Ok (flsm, sumcls, hwidth)
      | Some mp => flsm_perms fuel' intwgt mp hwidth sumcls flsm
      end
  end.
(** The value, SUMCLS and HWIDTH *)
Definition flsm (hwidth : list R) (m : list nat) (maxord : nat) : res (R * Z * list R) :=
  let! intwgt := iter (seq 1 s) (fun i intwgt =>
    let! mi := rd1 m i in
    let! h := rd1 hwidth i in
    let intwgt := if Nat.eqb mi 0 then intwgt else intwgt / 2 in
    Ok (intwgt * h)) 1 in
  flsm_perms (maxord ^ s) intwgt m hwidth 0 0.
End Flsm.

(** NXPRT, adapt_py.f:533-558, after the first partition.  Subtraction of
    naturals is used where the result is not negative. *)
Fixpoint nxprt_loop (m : list nat) (msum : nat) (is : list nat) : res (list nat) :=
  match is with
  | [] => wr1 m 1 (msum + 1)%nat
  | i :: is' =>
      let! mi := rd1 m i in
      let msum := (msum + mi)%nat in
      let! m0 := rd1 m 1 in
      if Nat.leb m0 (mi + 1) then let! m := wr1 m i 0%nat in nxprt_loop m msum is'
      else
        let! m := wr1 m 1 (msum - (i - 1) * (mi + 1))%nat in
        iter (seq 2 (i - 1)) (fun l m => wr1 m l (mi + 1)%nat) m
  end.
Definition nxprt (s : nat) (m : list nat) : res (list nat) :=
  let! m0 := rd1 m 1 in nxprt_loop m m0 (seq 2 (s - 1)).

(** SYMRL.  What it keeps between calls *)
Record sym := Sym { y_intvls : list (option R); y_intcls : Z; y_weghts : list (option R); y_fulsms : list (option R); y_h : list R }.

Section Symrl.
Variable f : list R -> res R.
Variable s : nat.
Variable center : list R.

(** adapt_py.f:404-420: the partitions, from the one numbered PRTCNT.  FAIL = 1
    is not modelled: there are at most 195 partitions. *)
Fixpoint sym_parts (fuel maxord : nat) (prd : list (list R)) (d prtcnt : nat) (m : list nat) (modofm : nat) (intval : R) (st : sym) : res (R * sym) :=
  match fuel with
  | O => Err OutOfFuel
  | S fuel' =>
      if Nat.ltb 200 prtcnt then Err NotImplementedError
      else
        let! weghts := (if Nat.eqb d modofm then wr1 (y_weghts st) prtcnt (Some 0) else Ok (y_weghts st)) in
        let! fulsms := (if Nat.eqb d modofm then wr1 (y_fulsms st) prtcnt (Some 0) else Ok (y_fulsms st)) in
        let! fulwgt := wht s m modofm d prd in
        let! w := rs1 weghts prtcnt in
        let! r := (if Reqb w 0 && negb (Reqb fulwgt 0) then
                     let! r := flsm f s center (y_h st) m maxord in
                     let '(v, sumcls, h) := r in
                     let! fulsms := wr1 fulsms prtcnt (Some v) in
                     Ok (fulsms, sumcls, h)
                   else Ok (fulsms, 0%Z, y_h st)) in
        let '(fulsms, sumcls, h) := (r : list (option R) * Z * list R) in
        let intcls := (y_intcls st + sumcls)%Z in
        let! v := rs1 fulsms prtcnt in
        let intval := intval + fulwgt * v in
        let! weghts := wr1 weghts prtcnt (Some (w + fulwgt)) in
        let st := Sym (y_intvls st) intcls weghts fulsms h in
        let! m := nxprt s m in
        let! m0 := rd1 m 1 in
        let modofm := if Nat.ltb modofm m0 then S modofm else modofm in
        if Nat.leb modofm d then sym_parts fuel' maxord prd d (S prtcnt) m modofm intval st else Ok (intval, st)
  end.
(** adapt_py.f:398-426: one D *)
Definition sym_order (maxord : nat) (prd : list (list R)) (d : nat) (st : sym) : res sym :=
  let! r := sym_parts 201 maxord prd d 1 (repeat 0%nat s) 0 0 st in
  let (intval, st) := (r : R * sym) in
  let! intval := (if Nat.eqb d 0 then Ok intval else let! v := rs1 (y_intvls st) d in Ok (v + intval)) in
  let! intvls := wr1 (y_intvls st) (d + 1) (Some intval) in
  Ok (Sym intvls (y_intcls st) (y_weghts st) (y_fulsms st) (y_h st)).
(** One call, for 1 <= S <= 20 and 0 <= MINORD < MAXORD <= 12; None: FAIL = 2 *)
Definition symrl (minord maxord : nat) (st : sym) : res (option sym) :=
  let st := if Nat.eqb minord 0 then Sym (y_intvls st) 0 (y_weghts st) (y_fulsms st) (y_h st) else st in
  let! prd := momprd maxord in
  match prd with
  | None => Ok None
  | Some prd => let! st := iter (seq minord (maxord - minord)) (sym_order maxord prd) st in Ok (Some st)
  end.
End Symrl.

(** The calls of SYMRL in BSRL, adapt_py.f:233-235, up to the one with which
    INTVLS(o) is there: with MAXORD = 4, 5, ...  What bsrl takes. *)
Definition sym_calls (f : list R -> res R) (center : list R) (o : nat) (h : list R) : res (option sym) :=
  let s := length center in
  let! r := symrl f s center 0 4 (Sym (repeat None 20) 0 (repeat None 200) (repeat None 200) h) in
  iter (seq 5 (o - 4)) (fun maxord r => match r with Some st => symrl f s center (maxord - 1) maxord st | None => Ok None end) r.
Definition rule (f : list R -> res R) (center h : list R) (o : nat) : res (R * Z) :=
  let! r := sym_calls f center o h in
  match r with
  | Some st => let! v := rs1 (y_intvls st) o in Ok (v, y_intcls st)
  | None => Err NotImplementedError
  end.
