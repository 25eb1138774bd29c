(** Model of the moments of package/inference/grid/grid1d.py, lines 735-787
    and 965-989, and of package/inference/utils/numutils.py, lines 11-21.

    Doubles are real numbers.  The number of moments is None or an integer.  A
    tuple of numbers is a list, and so is the number returned alone. *)

From Coq Require Import ZArith List Bool Arith Reals.
From Verif Require Import Exn Instances RefModel.
Import ListNotations.
Open Scope R_scope.

(** "not nmom" *)
Definition falsy (nmom : option Z) : bool := match nmom with None => true | Some k => Z.eqb k 0 end.

(** Product of arrays of the same length *)
Fixpoint times (a b : list R) : list R :=
  match a, b with
  | x :: a', y :: b' => x * y :: times a' b'
  | _, _ => []
  end.

(** grid1d.py:735-787.  The abscissas are kept in the grid. *)
Definition logtrapzd_mom (nmom : option Z) (g : bgrid) : bgrid * res (list R) :=
  match g_vals g with
  | None => (g, Err RuntimeError)
  | Some v =>
      if negb (falsy nmom) && negb (match nmom with Some k => Z.eqb k 1 || Z.eqb k 2 | None => false end) then (g, Err ValueError)
      else
        let absc := match g_absc g with Some a => a | None => grid_absc g end in
        let g' := set_absc absc g in
        let w := diffs absc in
        let fmax := max_list v in
        let fvals := map (fun y => exp (clip (y - fmax))) v in
        let quad := fmax + ln (wsum w fvals) in
        if falsy nmom then (g', Ok [quad])
        else
          let fvals := map (fun y => y * exp (fmax - quad)) fvals in
          let ignd := times absc fvals in
          let mom1 := wsum w ignd in
          match nmom with
          | Some 1%Z => (g', Ok [quad; mom1])
          | _ => (g', Ok [quad; mom1; wsum w (times absc ignd)])
          end
  end.

(** grid1d.py:971-976: the calls for the grids, up to the first that raises *)
Fixpoint moms_of (nmom : option Z) (l : list bgrid) : list bgrid * res (list (list R)) :=
  match l with
  | [] => ([], Ok [])
  | g :: l' =>
      let (g', r) := logtrapzd_mom nmom g in
      match r with
      | Err e => (g' :: l', Err e)
      | Ok m => let (gs, rs) := moms_of nmom l' in (g' :: gs, match rs with Err e => Err e | Ok ms => Ok (m :: ms) end)
      end
  end.
(** Column k of an array *)
Definition column (k : nat) (vals : list (list R)) : list R := map (fun r => nth k r 0) vals.

(** The base grid is the same object as the only one in the list until the
    first refinement (see firstpass). *)
Definition with_glist (gl : list bgrid) (s : grid) : grid :=
  Grid (G_nmax s) (G_lml s) (G_lin s) (G_peak s) (if G_refined s then G_base s else hd (G_base s) gl) (G_ilist s) (G_nsig s) (G_rpts s) (G_tot s)
       (G_func s) gl (G_rlml s) (G_refined s).

(** grid1d.py:965-989.  There is no method trapzd_log. *)
Definition grid_logtrapzd_mom (nmom : option Z) (s : grid) : grid * res (list R) :=
  if falsy nmom then (s, Err AttributeError)
  else
    let (gl, r) := moms_of nmom (G_glist s) in
    let s' := with_glist gl s in
    match r with
    | Err e => (s', Err e)
    | Ok vals =>
        let qvals := column 0 vals in
        let qmax := max_list qvals in
        let lquad := qmax + ln (sum_list (map (fun q => exp (q - qmax)) qvals)) in
        let facs := map (fun q => exp (q - lquad)) qvals in
        let mom1 := sum_list (times facs (column 1 vals)) in
        match nmom with
        | Some 1%Z => (s', Ok [lquad; mom1])
        | _ => (s', Ok [lquad; mom1; sum_list (times facs (column 2 vals))])
        end
    end.

(** ** flatten, numutils.py:11-21 *)

(** What flatten is given: numbers, tuples and lists, one-dimensional arrays
    of numbers, strings; dictionaries and other things with an item 0 are not
    modelled.  A number of an array is a number. *)
Inductive item : Type :=
| Num (x : R)
| Seq (l : list item)
| Arr (l : list R)
| Str (cs : list nat).

(** item[0] *)
Definition item0 (i : item) : res item :=
  match i with
  | Num _ => Err TypeError
  | Seq (x :: _) => Ok x
  | Arr (x :: _) => Ok (Num x)
  | Str (c :: _) => Ok (Str [c])
  | _ => Err IndexError
  end.
(** item[1:], when there is an item[0] *)
Definition item1 (i : item) : item :=
  match i with
  | Num x => Num x
  | Seq l => Seq (tl l)
  | Arr l => Arr (tl l)
  | Str cs => Str (tl cs)
  end.
(** Its truth value: that of an array of one number is that of the number, and
    that of an empty array False *)
Definition truth (i : item) : res bool :=
  match i with
  | Num x => Ok (negb (Reqb x 0))
  | Seq l => Ok (negb (Nat.eqb (length l) 0))
  | Arr [] => Ok false
  | Arr [x] => Ok (negb (Reqb x 0))
  | Arr _ => Err ValueError
  | Str cs => Ok (negb (Nat.eqb (length cs) 0))
  end.

(** numutils.py:11-21; [depth] is the number of nested calls the interpreter
    still allows.  Every exception is caught, and then the whole item is
    appended to what is there. *)
Fixpoint flatten (depth : nat) (args : list item) : res (list item) :=
  match depth with
  | O => Err RecursionError
  | S depth' =>
      Ok (flat_map (fun i =>
        match item0 i with
        | Err _ => [i]
        | Ok x =>
            match flatten depth' [x] with
            | Err _ => [i]
            | Ok r =>
                match truth (item1 i) with
                | Err _ => r ++ [i]
                | Ok false => r
                | Ok true => match flatten depth' [item1 i] with Err _ => r ++ [i] | Ok r' => r ++ r' end
                end
            end
        end) args)
  end.
