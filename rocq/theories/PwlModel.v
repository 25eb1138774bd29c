(** Model of package/inference/mc/pwlinear.py and of Population1D in
    population.py:185-236.

    Doubles are real numbers.  Where the code divides by a zero norm its
    arrays hold infinities and NaNs; the model then has x / 0 there, about
    which nothing can be proved. *)

From Coq Require Import ZArith String List Bool Arith Reals.
From Verif Require Import Exn Instances McModel.
Import ListNotations.
Open Scope R_scope.

(** numpy's linspace; the step is NaN, here None, if there is one point. *)
Definition linspace (lo hi : R) (n : nat) : list R * option R :=
  let step := (hi - lo) / INR (n - 1) in
  (map (fun i => lo + INR i * step) (seq 0 n), if Nat.eqb n 1 then None else Some step).
(** max() of a sequence that is not empty. *)
Definition pymax (x : R) (l : list R) : R := fold_left Rmax l x.

(** pwlinear.py:44-59: how the abscissas are given. *)
Inductive domain := Ends (lo hi : R) | Points (absc : list R) | Missing.
Inductive stepkind := SLin | SOther.

Record grid := Grid { g_lo : R; g_hi : R; g_absc : list R; g_even : option (option R) }.
(** pwlinear.py:44-59.  [g_even] is None for step = None, else the step. *)
Definition abscissas (d : domain) (step : stepkind) (n : nat) : res grid :=
  match d with
  | Ends lo hi =>
      match step with
      | SOther => Err NotImplementedError
      | SLin => let (a, delta) := linspace lo hi n in Ok (Grid lo hi a (Some delta))
      end
  | Missing => Err ValueError
  | Points a =>
      if negb (Nat.eqb (length a) n) then Err ValueError
      else match a with
           | [] => Err IndexError
           | x :: _ => Ok (Grid x (last a 0) a None)
           end
  end.

(** pwlinear.py:62-70: the relative values, and which of them are selected.
    log(0) is minus infinity, and below 0 it is NaN; so is 0/0. *)
Definition relative (logvals : bool) (cut : R) (vals : list R) : res (list R * list nat) :=
  match vals with
  | [] => Err ValueError
  | v :: vs =>
      let top := pymax v vs in
      if logvals then
        let wvals := map (fun x => x - top) vals in
        let above := fun x => if Rltb cut 0 then false else if Reqb cut 0 then true else Rltb (ln cut) x in
        let below := fun x => if Rltb cut 0 then false else if Reqb cut 0 then false else Rleb x (ln cut) in
        let selected := filter (fun i => above (nth i wvals 0)) (seq 0 (length vals)) in
        Ok (map (fun x => if below x then 0 else if above x then exp x else x) wvals, selected)
      else if Reqb top 0 then Ok (vals, [])
      else
        let wvals := map (fun x => x / top) vals in
        Ok (wvals, filter (fun i => Rltb cut (nth i wvals 0)) (seq 0 (length vals)))
  end.

(** pwlinear.py:74-82 *)
Fixpoint group (region : list nat) (sel : list nat) : list (list nat) :=
  match sel with
  | [] => [region]
  | n :: sel' => if Nat.eqb n (last region 0%nat + 1) then group (region ++ [n]) sel' else region :: group [n] sel'
  end.
(** pwlinear.py:87-92 and 95-100; the test lo > 0 is made for the first
    region only, [first]. *)
Definition widen (wvals : list R) (n : nat) (first : bool) (region : list nat) : nat * nat :=
  let lo := nth 0 region 0%nat in
  let hi := last region 0%nat in
  ((if (if first then Nat.ltb 0 lo else true) && Rltb 0%R (nth lo wvals 0%R) then lo - 1 else lo)%nat,
   (if Nat.ltb hi (n - 1) && Rltb 0%R (nth hi wvals 0%R) then hi + 1 else hi)%nat).
Definition ranges (wvals : list R) (n : nat) (regions : list (list nat)) : list (nat * nat) :=
  match regions with
  | [] => []
  | r :: rs => widen wvals n true r :: map (widen wvals n false) rs
  end.

Record pwl := Pwl {
  w_grid : grid; w_n : nat; w_nintvls : nat; w_regions : list (nat * nat * R * R);
  w_wts : list R; w_norm : R; w_vals : list R; w_intvls : list (R * R); w_pdf : list (R * R);
  w_centers : list R; w_widths : list R }.

(** pwlinear.py:114-118, 121-122, elementwise. *)
Definition pairs (l : list R) (lo hi : nat) : list (R * R) := map (fun i => (nth i l 0, nth (i + 1) l 0)) (seq lo (hi - lo)).
Definition areas (wvals absc : list R) (lo hi : nat) : list R :=
  map (fun i => 1/2 * (nth i wvals 0 + nth (i + 1) wvals 0) * (nth (i + 1) absc 0 - nth i absc 0)) (seq lo (hi - lo)).

(** pwlinear.py:18-132 *)
Definition new_pwl (d : domain) (vals : list R) (step : stepkind) (logvals : bool) (cut : R) : res (pwl * @popn nat) :=
  match abscissas d step (length vals) with
  | Err e => Err e
  | Ok g =>
      match relative logvals cut vals with
      | Err e => Err e
      | Ok (wvals, []) => Err IndexError
      | Ok (wvals, s :: sel) =>
          let rs := ranges wvals (length vals) (group [s] sel) in
          let absc := g_absc g in
          let wts := concat (map (fun r => areas wvals absc (fst r) (snd r)) rs) in
          let norm := rsum wts in
          let nz := map (fun x => x / norm) wts in
          let intvls := concat (map (fun r => pairs absc (fst r) (snd r)) rs) in
          match new_popn None (Some nz) (fun i => i) with
          | Err e => Err e
          | Ok o =>
              Ok (Pwl g (length vals) (fold_left (fun k r => k + (snd r - fst r))%nat rs 0%nat)
                    (map (fun r => (fst r, snd r, nth (fst r) absc 0, nth (snd r) absc 0)) rs)
                    nz norm (map (fun x => x / norm) wvals) intvls
                    (concat (map (fun r => pairs wvals (fst r) (snd r)) rs))
                    (map (fun ab => 1/2 * (fst ab + snd ab)) intvls) (map (fun ab => snd ab - fst ab) intvls), o)
          end
      end
  end.

Section Sampling.
Variable C : Type.

(** numpy.random.rand() *)
Definition np_rand : @popn nat * world C -> (@popn nat * world C) * res R := fun s =>
  let (o, w) := s in
  let (k, r) := rk_double (np_rk (w_np C w)) in
  ((o, World C (NpState k (np_extra (w_np C w))) (w_loc C w) (w_c C w)), r).
(** rand(n) *)
Fixpoint np_rands (n : nat) : @popn nat * world C -> (@popn nat * world C) * res (list R) :=
  match n with
  | O => ret []
  | S n' => (u <- np_rand;; us <- np_rands n';; ret (u :: us))%exn
  end.
(** pwlinear.py:145-150 and, elementwise, 157-166 *)
Definition invert (ab p : R * R) (u : R) : R :=
  let (lo, hi) := ab in
  let (plo, phi) := p in
  if Reqb plo phi then lo + (hi - lo) * u
  else let r := (hi - lo) / (phi - plo) in lo - r * plo + r * sqrt (plo ^ 2 + (phi ^ 2 - plo ^ 2) * u).
Definition at_index {A} (l : list A) (i : nat) : res A := match nth_error l i with Some a => Ok a | None => Err IndexError end.
(** pwlinear.py:141-150 *)
Definition sample_one (fuel : nat) (p : pwl) : @popn nat * world C -> (@popn nat * world C) * res R :=
  (idx <- popn_sample C fuel 1;;
   index <- (fun s => (s, at_index idx 0));;
   ab <- (fun s => (s, at_index (w_intvls p) index));;
   q <- (fun s => (s, at_index (w_pdf p) index));;
   u <- np_rand;;
   ret (invert ab q u))%exn.
Fixpoint all_at {A} (l : list A) (is : list nat) : res (list A) :=
  match is with
  | [] => Ok []
  | i :: is' =>
      match at_index l i, all_at l is' with Ok a, Ok r => Ok (a :: r) | Err e, _ => Err e | _, Err e => Err e end
  end.
Fixpoint inverts (abs ps : list (R * R)) (us : list R) : list R :=
  match abs, ps, us with ab :: abs', p :: ps', u :: us' => invert ab p u :: inverts abs' ps' us' | _, _, _ => [] end.
(** pwlinear.py:152-167 *)
Definition sample_many (fuel : nat) (n : Z) (p : pwl) : @popn nat * world C -> (@popn nat * world C) * res (list R) :=
  (idx <- popn_sample C fuel n;;
   abs <- (fun s => (s, all_at (w_intvls p) idx));;
   qs <- (fun s => (s, all_at (w_pdf p) idx));;
   us <- np_rands (Z.to_nat n);;
   ret (inverts abs qs us))%exn.
End Sampling.

(** pwlinear.py:197-203 *)
Fixpoint inside (x : R) (regions : list (nat * nat * R * R)) : option (nat * nat * R * R) :=
  match regions with
  | [] => None
  | r :: rs => let '(_, _, a, b) := r in if Rleb a x && Rleb x b then Some r else inside x rs
  end.
(** pwlinear.py:187-215.  A step of 0 or NaN makes the argument of int()
    NaN; otherwise the argument is not negative. *)
Definition pdf1 (p : pwl) (x : R) : res R :=
  match inside x (w_regions p) with
  | None => Ok 0
  | Some (k, _, a, _) =>
      match g_even (w_grid p) with
      | None => Err NotImplementedError
      | Some None => Err ValueError
      | Some (Some delta) =>
          if Reqb delta 0 then Err ValueError
          else
            let i := (k + Z.to_nat (to_int ((x - a) / delta)))%nat in
            match nth_error (w_vals p) i, nth_error (w_vals p) (i + 1) with
            | Some v, Some v' =>
                let absc := g_absc (w_grid p) in
                Ok (v + (v' - v) * (x - nth i absc 0) / (nth (i + 1) absc 0 - nth i absc 0))
            | _, _ => Err IndexError
            end
      end
  end.
(** pwlinear.py:179-185 for a vector *)
Fixpoint pdf_all (p : pwl) (xs : list R) : res (list R) :=
  match xs with
  | [] => Ok []
  | x :: xs' =>
      match pdf1 p x with
      | Err e => Err e
      | Ok d => match pdf_all p xs' with Ok ds => Ok (d :: ds) | Err e => Err e end
      end
  end.

(** ** Population1D *)

Section Hazard.
(** numpy's argsort *)
Variable argsort : list R -> list nat.
(** The argument err: not given, a list, or an array. *)
Inductive errs := NoErr | ErrList (l : list R) | ErrArray (l : list R).
Record popn1 := Popn1 { v_vals : list R; v_weights : list R; v_err : option (list R); v_cdf : list R; v_hazard : list R }.

(** array(l)[indices] *)
Definition take_at (l : list R) (is : list nat) : res (list R) := all_at l is.
(** if l == None: for an array of numbers.  The comparison is made for each
    element, and an array other than of one element has no truth value. *)
Definition is_none_array (l : list R) : res bool :=
  match l with [_] => Ok false | _ => Err ValueError end.

(** population.py:192-202, vals an array *)
Definition new_popn1 (vals weights : list R) (err : errs) : res popn1 :=
  let indices := argsort vals in
  match take_at vals indices, take_at weights indices with
  | Ok v, Ok w =>
      let e := match err with
               | NoErr => Ok None
               | ErrList l => match take_at l indices with Ok e => Ok (Some e) | Err x => Err x end
               | ErrArray l =>
                   match is_none_array l with
                   | Err x => Err x
                   | Ok _ => match take_at l indices with Ok e => Ok (Some e) | Err x => Err x end
                   end
               end in
      match e with
      | Err x => Err x
      | Ok e =>
          match new_popn (Some v) (Some w) (fun _ => 0) with
          | Err x => Err x
          | Ok _ => let cdf := cumsum w in Ok (Popn1 v w e cdf (rev cdf))
          end
      end
  | Err x, _ => Err x
  | _, Err x => Err x
  end.

(** population.py:218-222 *)
Fixpoint steps (vals hazard : list R) (absc ord : list R) : list R * list R :=
  match vals, hazard with
  | x :: vals', p :: hazard' => steps vals' hazard' (absc ++ [x; x]) (ord ++ [last ord 0; p])
  | _, _ => (absc, ord)
  end.
Record points := Points5 { h_absc : list R; h_ord : list R; h_bars : option (list R * list R * list R) }.
(** population.py:204-236 *)
Definition haz_pts (o : popn1) (start stop : option R) : res points :=
  match v_vals o with
  | [] => Err IndexError
  | x0 :: _ =>
      let xn := last (v_vals o) 0 in
      let start := match start with Some s => s | None => x0 end in
      let stop := match stop with Some s => s | None => xn end in
      if Rltb x0 start || Rltb stop xn then Err ValueError
      else
        let (absc, ord) := steps (v_vals o) (v_hazard o) [start] [1] in
        let absc := absc ++ [stop] in
        let ord := ord ++ [0] in
        match v_err o with
        | None => Ok (Points5 absc ord None)
        | Some e =>
            match is_none_array e with
            | Err x => Err x
            | Ok _ =>
                let n := length (v_vals o) in
                let mids := map (fun i => 1/2 * (nth i (v_vals o) 0 + nth (i + 1) (v_vals o) 0)) (seq 0 (n - 1)) in
                Ok (Points5 absc ord (Some (mids ++ [1/2 * (xn + stop)], v_hazard o, e)))
            end
        end
  end.
End Hazard.
