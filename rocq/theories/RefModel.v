(** Model of package/inference/grid/grid1d.py: the list of highest peaks, the
    list of sampled intervals, the basic grid and the refined grid.

    Arithmetic is that of the real numbers (no rounding).  Point counts and
    indices are integers.  Functions on grids are scalar (the tuple-valued
    case, selected by [select], is not modelled), and progress printing is
    left out. *)

From Coq Require Import ZArith List Bool Arith Reals.
From Verif Require Import Exn Instances.
Import ListNotations.
Local Open Scope R_scope.

(** Python lists: deletion, insertion (past the end: append), assignment. *)
Definition del_at {A} (i : nat) (l : list A) : list A := firstn i l ++ skipn (S i) l.
Definition ins_at {A} (i : nat) (x : A) (l : list A) : list A := firstn i l ++ x :: skipn i l.
Definition set_at {A} (i : nat) (x : A) (l : list A) : list A := firstn i l ++ x :: skipn (S i) l.

(** numpy's ceil; floor is [Int_part]. *)
Definition ceil (x : R) : Z := (- Int_part (- x))%Z.

(** ** Peaks *)

(** grid1d.py:19-22 *)
Definition IsPeak (y0 y1 y2 : R) : bool :=
  (Rltb y0 y1 && Rltb y2 y1) || (Rltb y0 y1 && Reqb y1 y2).

(** grid1d.py:25-44.  Division by zero does not raise there (numpy gives inf
    or nan); it does not happen for the peaks of a grid. *)
Definition PeakParams (x0 x1 x2 y0 y1 y2 : R) : R * R * R :=
  let w := x2 - x0 in
  let alpha := (x1 - x0) / w in
  let alpha2 := alpha ^ 2 in
  let fac := 1 - 2 * alpha2 in
  let a12 := y0 - y1 in
  let C := alpha2 / fac + a12 / (a12 - y1 + y2) in
  let d := C * w * fac ^ 2 / (2 * alpha * (1 - alpha) + C * (2 - 4 * alpha) * fac) in
  let mean := x0 + d in
  let alpha2 := w * alpha in
  let sig := alpha2 * (1/2 * alpha2 - d) / a12 in
  let logA := y1 + 1/2 * (x1 - mean) ^ 2 / sig in
  (logA, mean, sqrt sig).

(** The label of a peak: index, log amplitude, mean, width. *)
Record label := Lab { l_i : Z; l_A : R; l_mean : R; l_sig : R }.

(** ** LabeledMaxList, grid1d.py:48-123 *)

(** Labels may be anything.  [nmax] is a natural number or None. *)
Record lml (L : Type) := Lml { lm_nmax : option nat; lm_dyn : option R; lm_list : list (R * L) }.
Arguments Lml {L}. Arguments lm_nmax {L}. Arguments lm_dyn {L}. Arguments lm_list {L}.

(** grid1d.py:52-59 *)
Definition new_lml {L} (nmax : option nat) (dynrange : option R) : lml L :=
  Lml nmax (match dynrange with None => None | Some r => Some (ln r) end) [].

Section MaxList.
Context {L : Type}.

(** grid1d.py:88-95; an index out of range would raise IndexError. *)
Fixpoint bisect (fuel : nat) (q : R) (l : list (R * L)) (lo hi : nat) : res nat :=
  if Nat.ltb lo hi then
    match fuel with
    | O => Err OutOfFuel
    | S fuel =>
        let mid := Nat.div (lo + hi) 2 in
        match nth_error l mid with
        | None => Err IndexError
        | Some (h, _) => if Rltb h q then bisect fuel q l lo mid
                         else bisect fuel q l (S mid) hi
        end
    end
  else Ok lo.

(** grid1d.py:105-109 and 119-123: from position [i] on, drop what is more
    than [range] below [top]; the recursion is on the part of the list not
    looked at yet. *)
Fixpoint prune_from (top range : R) (l : list (R * L)) : list (R * L) :=
  match l with
  | [] => []
  | x :: l' => if Rltb range (top - fst x) then prune_from top range l'
               else x :: prune_from top range l'
  end.

(** grid1d.py:79-109 *)
Definition lm_update (q : R) (lab : L) (m : lml L) : lml L * res unit :=
  let l := lm_list m in
  let hi := length l in
  (* hi == nmax and q <= list[-1][0] *)
  let full := match lm_nmax m with Some k => Nat.eqb hi k | None => false end in
  match (if full then match rev l with [] => Err IndexError | (h, _) :: _ => Ok (Rleb q h) end
         else Ok false) with
  | Err e => (m, Err e)
  | Ok true => (m, Ok tt)
  | Ok false =>
      match bisect hi q l 0 hi with
      | Err e => (m, Err e)
      | Ok lo =>
          let l1 := ins_at lo (q, lab) l in
          let l2 := match lm_nmax m with
                    | Some k => if Nat.ltb k (length l1) then del_at k l1 else l1
                    | None => l1
                    end in
          (* "if self.dynrange": neither None nor zero *)
          match (match lm_dyn m with Some r => if Reqb r 0 then None else Some r | None => None end) with
          | None => (Lml (lm_nmax m) (lm_dyn m) l2, Ok tt)
          | Some r =>
              match l2 with
              | [] => (Lml (lm_nmax m) (lm_dyn m) l2, Err IndexError)
              | x :: _ => (Lml (lm_nmax m) (lm_dyn m)
                             (firstn lo l2 ++ prune_from (fst x) r (skipn lo l2)), Ok tt)
              end
          end
      end
  end.

(** grid1d.py:111-123 *)
Definition limitRange (dynrange : R) (m : lml L) : lml L * res unit :=
  match lm_list m with
  | [] => (m, Err IndexError)
  | x :: l => (Lml (lm_nmax m) (lm_dyn m) (x :: prune_from (fst x) (ln dynrange) l), Ok tt)
  end.
End MaxList.

(** ** BasicInterval, grid1d.py:127-183 *)

Record ival := Ival { i_lo : R; i_hi : R; i_n : Z; i_step : R; i_fac : R; i_lin : bool }.

(** grid1d.py:130-150; [lin] stands for the two valid values of stype, and
    [i_fac] is 0 where fac is None. *)
Definition mk_ival (lo hi : R) (n : Z) (lin : bool) : res ival :=
  if Z.leb n 1 then Err ValueError
  else if lin then Ok (Ival lo hi n ((hi - lo) / (IZR n - 1)) 0 true)
  else if Rleb (lo * hi) 0 then Err ValueError
  else let step := ln (hi / lo) / (IZR n - 1) in Ok (Ival lo hi n step (exp step) false).

(** grid1d.py:159-174 *)
Definition i_locate (iv : ival) (x : R) : Z * R * R :=
  let '(i, l, h) :=
    if i_lin iv then
      let i := Int_part ((x - i_lo iv) / i_step iv) in
      let l := i_lo iv + IZR i * i_step iv in (i, l, l + i_step iv)
    else
      let i := Int_part (ln (x / i_lo iv) / i_step iv) in
      let l := i_lo iv * exp (IZR i * i_step iv) in (i, l, l * i_fac iv) in
  if Z.eqb i (i_n iv - 1) then (i, l, l) else (i, l, h).

(** grid1d.py:176-183 (fac is left as it was). *)
Definition resample (n : Z) (iv : ival) : ival :=
  Ival (i_lo iv) (i_hi iv) n
       (if i_lin iv then (i_hi iv - i_lo iv) / (IZR n - 1) else ln (i_hi iv / i_lo iv) / (IZR n - 1))
       (i_fac iv) (i_lin iv).

(** ** RefinedIntervalList1D, grid1d.py:187-449 *)

(** [nint] is the length of the list throughout (grid1d.py:243-255 change
    both together) and is not stored.  [base] is the object that is the list's
    only element at first; [update] changes intervals in place only when the
    list has more than one element, and these are never the base object, so
    it is kept as a value. *)
Record rlist := RList {
  rl_pos : bool; rl_lin : bool; rl_lo : R; rl_hi : R; rl_base : ival;
  rl_il : list ival; rl_npts : Z; rl_cum : list Z }.

Definition with_il (l : list ival) (s : rlist) : rlist :=
  RList (rl_pos s) (rl_lin s) (rl_lo s) (rl_hi s) (rl_base s) l (rl_npts s) (rl_cum s).

(** grid1d.py:192-225 *)
Definition new_rlist (lo hi : R) (n : Z) (lin : bool) : res rlist :=
  if Z.leb n 1 then Err ValueError
  else if Reqb lo hi then Err ValueError
  else
    let '(pos, l, h) := if Rltb lo hi then (true, lo, hi) else (false, hi, lo) in
    if negb lin && Rleb (lo * hi) 0 then Err ValueError
    else match mk_ival l h n lin with
         | Err e => Err e
         | Ok b => Ok (RList pos lin l h b [b] n [n])
         end.

(** grid1d.py:258-264, n different from 1 *)
Definition step_size (lin : bool) (lo hi : R) (n : Z) : R :=
  (if lin then hi - lo else ln (hi / lo)) / (IZR n - 1).
(** grid1d.py:267-273 *)
Definition num_pts (lin : bool) (lo hi step : R) : Z :=
  (ceil ((if lin then hi - lo else ln (hi / lo)) / step) + 1)%Z.

(** grid1d.py:243-255 *)
Definition il_del (i : nat) : rlist -> rlist * res unit :=
  modify (fun s => with_il (del_at i (rl_il s)) s).
(** self._insert(i, BasicInterval(lo, hi, n)): linear, whatever the list. *)
Definition il_insert (i : nat) (lo hi : R) (n : Z) : rlist -> rlist * res unit :=
  fun s => match mk_ival lo hi n true with
           | Err e => (s, Err e)
           | Ok iv => (with_il (ins_at i iv (rl_il s)) s, Ok tt)
           end.

(** The loops of grid1d.py:290-299: the first interval with a property. *)
Fixpoint first_such (p : ival -> bool) (k : nat) (l : list ival) : option (nat * ival) :=
  match l with
  | [] => None
  | x :: l' => if p x then Some (k, x) else first_such p (S k) l'
  end.

(** grid1d.py:371-388, the loop of merge. *)
Fixpoint merge_loop (fuel : nat) (i : nat) (s : rlist) : rlist * res unit :=
  let set l n c := RList (rl_pos s) (rl_lin s) (rl_lo s) (rl_hi s) (rl_base s) l n c in
  match nth_error (rl_il s) (S i) with
  | None => (* nint < i+2 *)
      let n := (rl_npts s + 1)%Z in
      (set (rl_il s) n (set_at (length (rl_cum s) - 1) n (rl_cum s)), Ok tt)
  | Some b =>
      match fuel with
      | O => (s, Err OutOfFuel)
      | S fuel =>
          let n := (rl_npts s + i_n b - 1)%Z in
          let c := rl_cum s ++ [n] in
          match nth_error (rl_il s) i with
          | None => (set (rl_il s) n c, Err IndexError)
          | Some a =>
              if Reqb (i_step a) (i_step b) then
                let l := del_at i (del_at i (rl_il s)) in
                match mk_ival (i_lo a) (i_hi b) (i_n a + i_n b - 1) true with
                | Err e => (set l n c, Err e)
                | Ok iv => merge_loop fuel i
                    (set (ins_at i iv l) n (removelast (set_at i (nth (S i) c 0%Z) c)))
                end
              else merge_loop fuel (S i) (set (rl_il s) n c)
          end
      end
  end.

(** grid1d.py:362-388 *)
Definition merge (s : rlist) : rlist * res unit :=
  match rl_il s with
  | [] => (s, Err IndexError)
  | a :: _ =>
      let n := (i_n a - 1)%Z in
      merge_loop (length (rl_il s)) 0
        (RList (rl_pos s) (rl_lin s) (rl_lo s) (rl_hi s) (rl_base s) (rl_il s) n [n])
  end.

(** grid1d.py:355-359: resample the intervals with indices in range(a, b). *)
Definition resample_range (step : R) (a b : nat) (s : rlist) : rlist :=
  with_il (fold_left (fun l i => match nth_error l i with
                                 | None => l
                                 | Some iv => if Rltb step (i_step iv)
                                              then set_at i (resample (num_pts (rl_lin s) (i_lo iv) (i_hi iv) step) iv) l
                                              else l
                                 end) (seq a (b - a)) (rl_il s)) s.

Local Open Scope exn_scope.

(** grid1d.py:320-333: the new interval [lo,hi] lies in one interval [a]. *)
Definition update_inside (lin : bool) (lo hi : R) (n : Z) (step : R) (nlo : nat) (a : ival)
  : rlist -> rlist * res unit :=
  if Rleb (i_step a) step then ret tt
  else
    il_del nlo;;;
    k <- (if Rltb (i_lo a) lo
          then il_insert nlo (i_lo a) lo (num_pts lin (i_lo a) lo (i_step a));;; ret (S nlo)
          else ret nlo);;
    il_insert k lo hi n;;;
    (if Rltb hi (i_hi a) then il_insert (S k) hi (i_hi a) (num_pts lin hi (i_hi a) (i_step a))
     else ret tt);;;
    merge.

(** grid1d.py:337-360: it spans several intervals, from [a] to [b]. *)
Definition update_across (lin : bool) (lo hi step : R) (nlo nhi : nat) (a b : ival)
  : rlist -> rlist * res unit :=
  ks <- (if Rltb step (i_step a) then
           il_del nlo;;;
           ks <- (if Rltb (i_lo a) lo
                  then il_insert nlo (i_lo a) lo (num_pts lin (i_lo a) lo (i_step a));;;
                       ret (S nlo, S nhi)
                  else ret (nlo, nhi));;
           il_insert (fst ks) lo (i_hi a) (num_pts lin lo (i_hi a) step);;;
           ret (S (fst ks), snd ks)
         else ret (nlo, nhi));;
  (if Rltb step (i_step b) then
     il_del (snd ks);;;
     il_insert (snd ks) (i_lo b) hi (num_pts lin (i_lo b) hi step);;;
     (if Rltb hi (i_hi b)
      then il_insert (S (snd ks)) hi (i_hi b) (num_pts lin hi (i_hi b) (i_step b))
      else ret tt)
   else ret tt);;;
  modify (resample_range step (fst ks) (snd ks));;;
  merge.

(** grid1d.py:275-360.  With n = 1 the step of a linear list is a division by
    zero, which raises for Python floats; that of a log list is numpy's inf,
    with which nothing is changed (grid1d.py:314 gives n = 1 again, and every
    comparison finds the new interval undersampled). *)
Definition update (lo hi : R) (n : Z) (s : rlist) : rlist * res unit :=
  let lin := rl_lin s in
  let lo := if rl_pos s then Rmax lo (rl_lo s) else Rmax hi (rl_lo s) in
  let hi := if rl_pos s then Rmin hi (rl_hi s) else Rmin lo (rl_hi s) in
  if Rleb hi lo then (s, Err ValueError)
  else if Z.eqb n 1 then (if lin then (s, Err ZeroDivisionError) else (s, Ok tt))
  else
    match first_such (fun a => Rleb (i_lo a) lo && Rltb lo (i_hi a)) 0 (rl_il s),
          first_such (fun b => Rltb (i_lo b) hi && Rleb hi (i_hi b)) 0 (rl_il s) with
    | Some (nlo, a), Some (nhi, b) =>
        let step := step_size lin lo hi n in
        let '(_, ll, lh) := i_locate a lo in
        let lo := ll in
        let '(_, hl, hh) := i_locate b hi in
        let hi := if negb (Reqb hi hl) then hh else hi in
        let n := if Rltb (lh - ll) (5 * step) then num_pts lin lo hi step else n in
        let step := step_size lin lo hi n in
        if Nat.eqb nlo nhi then update_inside lin lo hi n step nlo a s
        else update_across lin lo hi step nlo nhi a b s
    | _, _ => (s, Err UnboundLocalError)
    end.

(** grid1d.py:390-397 *)
Definition nonbase (s : rlist) : list ival :=
  filter (fun iv => negb (Reqb (i_step iv) (i_step (rl_base s)))) (rl_il s).

(** grid1d.py:410-422: the index found by bisection. *)
Fixpoint loc_loop (fuel : nat) (x : R) (l : list ival) (lo hi : nat) : res nat :=
  match fuel with
  | O => Err OutOfFuel
  | S fuel =>
      let mid := Nat.div (lo + hi) 2 in
      match nth_error l mid with
      | None => Err IndexError
      | Some iv =>
          if Rleb (i_lo iv) x && Rltb x (i_hi iv) then Ok mid
          else if Rltb x (i_lo iv) then loc_loop fuel x l lo mid
          else loc_loop fuel x l mid hi
      end
  end.

(** grid1d.py:399-422; [fuel] bounds the bisection steps. *)
Definition locate (fuel : nat) (x : R) (s : rlist) : res ival :=
  if Rltb x (rl_lo s) || Rltb (rl_hi s) x then Err ValueError
  else
    let at_ i := match nth_error (rl_il s) i with Some iv => Ok iv | None => Err IndexError end in
    if Reqb x (rl_hi s) then at_ (length (rl_il s) - 1)%nat
    else match loc_loop fuel x (rl_il s) 0 (length (rl_il s)) with
         | Err e => Err e
         | Ok i => at_ i
         end.

(** grid1d.py:436-444 *)
Fixpoint nloc_loop (fuel : nat) (n : Z) (c : list Z) (lo hi : nat) : res nat :=
  if Nat.ltb lo hi then
    match fuel with
    | O => Err OutOfFuel
    | S fuel =>
        let mid := Nat.div (lo + hi) 2 in
        match nth_error c mid with
        | None => Err IndexError
        | Some k => if Z.ltb k (n + 1) then nloc_loop fuel n c (S mid) hi
                    else nloc_loop fuel n c lo mid
        end
    end
  else Ok lo.

(** grid1d.py:424-449: interval number, position in it, interval. *)
Definition nlocate (fuel : nat) (n : Z) (s : rlist) : res (nat * Z * ival) :=
  if Z.ltb n 0 || Z.ltb (rl_npts s - 1) n then Err ValueError
  else
    let at_ i k := match nth_error (rl_il s) i with Some iv => Ok (i, k iv, iv) | None => Err IndexError end in
    if Z.eqb n (rl_npts s - 1) then at_ (length (rl_il s) - 1)%nat (fun iv => (i_n iv - 1)%Z)
    else match nloc_loop fuel n (rl_cum s) 0 (length (rl_il s)) with
         | Err e => Err e
         | Ok O => at_ O (fun _ => n)
         | Ok (S i) => match nth_error (rl_cum s) i with
                       | None => Err IndexError
                       | Some k => at_ (S i) (fun _ => (n - k)%Z)
                       end
         end.

(** ** BasicGrid1D, grid1d.py:453-825 *)

(** The list of maxima is shared between grids and handed to the methods. *)
Record bgrid := BGrid {
  g_lo : R; g_hi : R; g_n : Z; g_lin : bool; g_peak : bool; g_step : R;
  g_absc : option (list R); g_vals : option (list R) }.

(** grid1d.py:460-496; [lin] and [peak] stand for the valid values of stype
    and rank. *)
Definition new_bgrid (lo hi : R) (n : Z) (lin peak : bool) : res bgrid :=
  if Z.leb n 1 then Err ValueError
  else if negb lin && Rleb (lo * hi) 0 then Err ValueError
  else Ok (BGrid lo hi n lin peak
             ((if lin then hi - lo else ln (hi / lo)) / (IZR n - 1)) None None).

Definition set_vals (v : list R) (g : bgrid) : bgrid :=
  BGrid (g_lo g) (g_hi g) (g_n g) (g_lin g) (g_peak g) (g_step g) (g_absc g) (Some v).
Definition set_absc (a : list R) (g : bgrid) : bgrid :=
  BGrid (g_lo g) (g_hi g) (g_n g) (g_lin g) (g_peak g) (g_step g) (Some a) (g_vals g).

(** grid1d.py:515-520 (the special case for the last point, lines 515-516, is
    overwritten by the following test) and 650-654. *)
Definition absc_at (g : bgrid) (i : Z) : R :=
  if g_lin g then g_lo g + IZR i * g_step g else g_lo g * exp (IZR i * g_step g).

Definition rt2pi : R := sqrt (2 * PI).
(** grid1d.py:552-556, 561-565: the measure a peak is ranked by. *)
Definition msr (g : bgrid) (half : bool) (logA sig : R) : R :=
  if g_peak g then logA else logA + ln ((if half then 1/2 * sig else sig) * rt2pi).

(** grid1d.py:545-575 (and 599-636): the reports made when point [i] has been
    added, given the last three points. *)
Definition reports (g : bgrid) (i : Z) (x0 x1 x2 y0 y1 y2 : R) : list (R * label) :=
  (if IsPeak y0 y1 y2 then
     let '(logA, mean, sig) := PeakParams x0 x1 x2 y0 y1 y2 in
     [(msr g false logA sig, Lab (i - 1) logA mean sig)]
   else []) ++
  (if Z.eqb i 2 && Rltb y1 y0 then
     let sig := - (1/2) * (x1 - x0) / (y1 - y0) in
     [(msr g true y0 sig, Lab (i - 2) y0 x0 sig)]
   else []) ++
  (if Z.eqb i (g_n g - 1) && Rltb y1 y2 then
     let sig := 1/2 * (x2 - x1) / (y2 - y1) in
     [(msr g true y2 sig, Lab i y2 x2 sig)]
   else []).

Definition report_all (l : list (R * label)) : lml label -> lml label * res unit :=
  for_each l (fun p => lm_update (fst p) (snd p)).

(** grid1d.py:506-576, with a list of maxima: [todo] points are left, [i] is
    the next one, [x0 x1] and [y0 y1] the two points before it and [done] the
    values so far in reverse.  An exception from the list leaves the rest of
    the array zero. *)
Fixpoint step_loop (f : R -> R) (g : bgrid) (todo : nat) (i : Z) (x0 x1 : R)
    (done : list R) (m : lml label) : list R * (lml label * res unit) :=
  match todo with
  | O => (rev done, (m, Ok tt))
  | S todo =>
      let x := absc_at g i in
      let y := f x in
      let done' := y :: done in
      match (match done with
             | y1 :: y0 :: _ => report_all (reports g i x0 x1 x y0 y1 y) m
             | _ => (m, Ok tt)
             end) with
      | (m', Ok _) => step_loop f g todo (i + 1) x1 x done' m'
      | (m', Err e) => (rev done' ++ repeat 0 todo, (m', Err e))
      end
  end.

Definition stepfunc (f : R -> R) (g : bgrid) (m : lml label) : bgrid * lml label * res unit :=
  let '(v, (m', r)) := step_loop f g (Z.to_nat (g_n g)) 0 0 0 [] m in
  (set_vals v g, m', r).

(** grid1d.py:583-587 *)
Definition grid_absc (g : bgrid) : list R :=
  map (fun k => absc_at g (Z.of_nat k)) (seq 0 (Z.to_nat (g_n g))).
(** grid1d.py:579-636, for a function of an array that acts elementwise.
    "if self.lml" is false for an empty list of maxima, and for None. *)
Definition vec_reports (g : bgrid) (xs ys : list R) : list (R * label) :=
  flat_map (fun k => reports g (Z.of_nat k) (nth (k - 2) xs 0) (nth (k - 1) xs 0) (nth k xs 0)
                             (nth (k - 2) ys 0) (nth (k - 1) ys 0) (nth k ys 0))
           (seq 2 (length ys - 2)).
Definition vecfunc (f : R -> R) (g : bgrid) (m : lml label) : bgrid * lml label * res unit :=
  let xs := removelast (grid_absc g) ++ [g_hi g] in
  let ys := map f xs in
  let g' := set_vals ys (set_absc xs g) in
  match lm_list m with
  | [] => (g', m, Ok tt)
  | _ => let '(m', r) := report_all (vec_reports g xs ys) m in (g', m', r)
  end.

(** grid1d.py:638-671: abscissa, width, value (None before evaluation). *)
Definition point (g : bgrid) (i : Z) : res (R * R * option R) :=
  if Z.ltb i 0 || Z.leb (g_n g) i then Err ValueError
  else
    let k := Z.to_nat i in
    match (match g_absc g with
           | None => Ok (absc_at g i)
           | Some a => match nth_error a k with Some x => Ok x | None => Err IndexError end
           end) with
    | Err e => Err e
    | Ok x =>
        match (match g_vals g with
               | None => Ok None
               | Some v => match nth_error v k with Some y => Ok (Some y) | None => Err IndexError end
               end) with
        | Err e => Err e
        | Ok v =>
            let w := if Z.eqb i (g_n g - 1) then 0
                     else if g_lin g then g_step g else x * (exp (g_step g) - 1) in
            Ok (x, w, v)
        end
    end.

(** w[1:] - w[:-1] *)
Fixpoint diffs (l : list R) : list R :=
  match l with
  | a :: (b :: _) as l' => b - a :: diffs l'
  | _ => []
  end.
(** sum(0.5 * w * (v[:-1] + v[1:])) *)
Fixpoint wsum (w v : list R) : R :=
  match w, v with
  | h :: w', a :: (b :: _) as v' => 1/2 * h * (a + b) + wsum w' v'
  | _, _ => 0
  end.
Definition sum_list (l : list R) : R := fold_right Rplus 0 l.

Definition log_widths (g : bgrid) : list R :=
  diffs (match g_absc g with Some a => a | None => grid_absc g end).

(** grid1d.py:673-700 *)
Definition trapzd (g : bgrid) : res R :=
  match g_vals g with
  | None => Err RuntimeError
  | Some v =>
      if g_lin g then Ok (g_step g * (sum_list v - 1/2 * (hd 0 v + last v 0)))
      else Ok (wsum (log_widths g) v)
  end.

(** Python's max of a list; an empty one cannot occur here. *)
Fixpoint max_list (l : list R) : R :=
  match l with [] => 0 | [x] => x | x :: l' => Rmax x (max_list l') end.
(** numpy's clip(x, smallExp, 0.) with grid1d.py:16. *)
Definition smallExp : R := -725.
Definition clip (x : R) : R := Rmin (Rmax x smallExp) 0.

(** grid1d.py:702-733 *)
Definition logtrapzd (g : bgrid) : res R :=
  match g_vals g with
  | None => Err RuntimeError
  | Some v =>
      let w := if g_lin g then repeat (g_step g) (Z.to_nat (g_n g) - 1) else log_widths g in
      let fmax := max_list v in
      let fv := map (fun y => exp (clip (y - fmax))) v in
      Ok (fmax + ln (wsum w fv))
  end.

(** Python's round(x, 2), up to ties, and int(). *)
Definition round2 (x : R) : R := IZR (Int_part (100 * x + 1/2)) / 100.
Definition int_of (x : R) : Z := if Rleb 0 x then Int_part x else ceil x.

(** grid1d.py:789-825 *)
Definition subgrid (g : bgrid) (lo hi : R) : res bgrid :=
  if Rltb lo (g_lo g) || Rltb (g_hi g) hi then Err ValueError
  else
    let lnum := if g_lin g then lo - g_lo g else ln (lo / g_lo g) in
    let hnum := if g_lin g then hi - g_lo g else ln (hi / g_lo g) in
    let nlo := int_of (round2 (lnum / g_step g)) in
    let nhi := int_of (round2 (hnum / g_step g)) in
    if Rltb (1/1000 * g_step g) (Rabs (IZR nlo * g_step g - lnum)) then Err ValueError
    else if Rltb (1/1000 * g_step g) (Rabs (IZR nhi * g_step g - hnum)) then Err ValueError
    else
      match new_bgrid lo hi (nhi - nlo + 1) (g_lin g) (g_peak g) with
      | Err e => Err e
      | Ok s =>
          let slice l := firstn (Z.to_nat (nhi + 1) - Z.to_nat nlo) (skipn (Z.to_nat nlo) l) in
          Ok (BGrid (g_lo s) (g_hi s) (g_n s) (g_lin s) (g_peak s) (g_step s)
                (option_map slice (g_absc g)) (option_map slice (g_vals g)))
      end.

(** ** Grid1D, grid1d.py:829-963 *)

Record grid := Grid {
  G_nmax : option nat; G_lml : lml label; G_lin : bool; G_peak : bool; G_base : bgrid;
  G_ilist : rlist; G_nsig : Z; G_rpts : Z; G_tot : Z; G_func : option (R -> R);
  G_glist : list bgrid; G_rlml : lml label;
  (* whether refine has replaced the list made by __init__ *)
  G_refined : bool }.

(** grid1d.py:833-856; nsig and sigpts are integers. *)
Definition new_grid (lo hi : R) (n : Z) (lin : bool) (nmax : option nat) (dynrange : option R)
    (sigpts nsig : Z) (peak : bool) : res grid :=
  match new_bgrid lo hi n lin peak with
  | Err e => Err e
  | Ok b =>
      match new_rlist lo hi n lin with
      | Err e => Err e
      | Ok il => Ok (Grid nmax (new_lml nmax dynrange) lin peak b il nsig
                       (nsig * (sigpts - 1) + 1)%Z n None [b] (new_lml nmax None) false)
      end
  end.

(** grid1d.py:863-870 and 929-934 *)
Definition grid_point (fuel : nat) (s : grid) (n : Z) : res (R * R * option R) :=
  match nlocate fuel n (G_ilist s) with
  | Err e => Err e
  | Ok (i, k, _) => match nth_error (G_glist s) i with
                    | None => Err IndexError
                    | Some g => point g k
                    end
  end.

(** grid1d.py:881-886.  The base grid is a shared object: it is also the
    only element of [G_glist] until [refine] makes another list, which holds
    no reference to it. *)
Definition firstpass (f : R -> R) (s : grid) : grid * res unit :=
  let '(b, m, r) := stepfunc f (G_base s) (G_lml s) in
  let gl := if G_refined s then G_glist s else [b] in
  (Grid (G_nmax s) m (G_lin s) (G_peak s) b (G_ilist s) (G_nsig s) (G_rpts s) (G_tot s)
        (Some f) gl (G_rlml s) (G_refined s), r).

Definition with_ilist (il : rlist) (s : grid) : grid :=
  Grid (G_nmax s) (G_lml s) (G_lin s) (G_peak s) (G_base s) il (G_nsig s) (G_rpts s) (G_tot s)
       (G_func s) (G_glist s) (G_rlml s) (G_refined s).
Definition with_lml (m : lml label) (s : grid) : grid :=
  Grid (G_nmax s) m (G_lin s) (G_peak s) (G_base s) (G_ilist s) (G_nsig s) (G_rpts s) (G_tot s)
       (G_func s) (G_glist s) (G_rlml s) (G_refined s).

(** grid1d.py:902-905 *)
Fixpoint refine_list (l : list (R * label)) (s : grid) : grid * res unit :=
  match l with
  | [] => (s, Ok tt)
  | (_, lab) :: l' =>
      let lo := l_mean lab - IZR (G_nsig s) * l_sig lab in
      let hi := l_mean lab + IZR (G_nsig s) * l_sig lab in
      match update lo hi (G_rpts s) (G_ilist s) with
      | (il, Ok _) => refine_list l' (with_ilist il s)
      | (il, Err e) => (with_ilist il s, Err e)
      end
  end.

(** grid1d.py:912-917 *)
Definition grid_for (s : grid) (iv : ival) : res bgrid :=
  if Reqb (i_step iv) (i_step (rl_base (G_ilist s))) then subgrid (G_base s) (i_lo iv) (i_hi iv)
  else new_bgrid (i_lo iv) (i_hi iv) (i_n iv) (G_lin s) (G_peak s).
Fixpoint grids_for (s : grid) (l : list ival) : list bgrid * res unit :=
  match l with
  | [] => ([], Ok tt)
  | iv :: l' => match grid_for s iv with
                | Err e => ([], Err e)
                | Ok g => let '(gs, r) := grids_for s l' in (g :: gs, r)
                end
  end.

(** grid1d.py:923-927 *)
Fixpoint eval_grids (f : R -> R) (bstep : R) (l : list bgrid) (m : lml label)
  : list bgrid * (lml label * res unit) :=
  match l with
  | [] => ([], (m, Ok tt))
  | g :: l' =>
      if Reqb (g_step g) bstep then
        let '(gs, r) := eval_grids f bstep l' m in (g :: gs, r)
      else
        match stepfunc f g m with
        | (g', m', Ok _) => let '(gs, r) := eval_grids f bstep l' m' in (g' :: gs, r)
        | (g', m', Err e) => (g' :: l', (m', Err e))
        end
  end.

(** grid1d.py:888-927 *)
Definition refine (dynrange : option R) (s : grid) : grid * res unit :=
  match G_func s with
  | None => (s, Err RuntimeError)
  | Some f =>
      match (match dynrange with
             | None => (s, Ok tt)
             | Some r => if Reqb r 0 then (s, Ok tt)
                         else let '(m, x) := limitRange r (G_lml s) in (with_lml m s, x)
             end) with
      | (s, Err e) => (s, Err e)
      | (s, Ok _) =>
          match refine_list (lm_list (G_lml s)) s with
          | (s, Err e) => (s, Err e)
          | (s, Ok _) =>
              let '(gs, r) := grids_for s (rl_il (G_ilist s)) in
              let out gl m := Grid (G_nmax s) (G_lml s) (G_lin s) (G_peak s) (G_base s) (G_ilist s)
                                   (G_nsig s) (G_rpts s) (rl_npts (G_ilist s)) (G_func s) gl m true in
              match r with
              | Err e => (out gs (new_lml (G_nmax s) None), Err e)
              | Ok _ => let '(gs', (m, r)) := eval_grids f (g_step (G_base s)) gs (new_lml (G_nmax s) None) in
                        (out gs' m, r)
              end
          end
      end
  end.

(** grid1d.py:936-943 *)
Fixpoint trapzd_sum (acc : R) (l : list bgrid) : res R :=
  match l with
  | [] => Ok acc
  | g :: l' => match trapzd g with Err e => Err e | Ok t => trapzd_sum (acc + t) l' end
  end.
Definition grid_trapzd (s : grid) : res R := trapzd_sum 0 (G_glist s).

(** grid1d.py:952-957 *)
Fixpoint logtrapzd_sum (lsum : R) (l : list bgrid) : res R :=
  match l with
  | [] => Ok lsum
  | g :: l' =>
      match logtrapzd g with
      | Err e => Err e
      | Ok t =>
          let '(t, lsum) := if Rltb lsum t then (lsum, t) else (t, lsum) in
          logtrapzd_sum (lsum + ln (1 + exp (t - lsum))) l'
      end
  end.
(** grid1d.py:945-963 *)
Definition grid_logtrapzd (s : grid) : res R :=
  match G_glist s with
  | [] => Err IndexError
  | g :: l => match logtrapzd g with Err e => Err e | Ok t => logtrapzd_sum t l end
  end.
