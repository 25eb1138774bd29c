(** Model of the on/off counting inferences:
    package/inference/count/_cbmlike.f:138-669 and count/onoff.py:38-210.

    Floating-point numbers are real numbers (no rounding, overflow, infinity
    or NaN); counts are natural numbers.  The log gamma function is a
    parameter [G] of the functions using it; gammln below is the one in the
    code. *)

From Coq Require Import ZArith List Bool Arith Reals.
From Verif Require Import Exn PieModel Instances.
Import ListNotations.
Open Scope R_scope.

(** Conversion of a real*8 to an integer: towards zero. *)
Definition trunc (x : R) : Z := if Rleb 0 x then Int_part x else (- Int_part (- x))%Z.

(** Fortran arrays: the elements by index. *)
Definition arr := nat -> R.
Definition aset (c : arr) (i : nat) (v : R) : arr := fun j => if Nat.eqb j i then v else c j.

(** ** sigctp, _cbmlike.f:138-181 *)
Section Sigctp.
Variable n_on : nat.
Variables tfac n : R.

(** _cbmlike.f:168-171, i from k-1 down to 0. *)
Fixpoint ctp_down (k : nat) (c : arr) (sum : R) : arr * R :=
  match k with
  | O => (c, sum)
  | S i =>
      let ci := c (S i) * (((n - INR i) / (INR n_on - INR i)) / tfac) in
      ctp_down i (aset c i ci) (sum + ci)
  end.
(** _cbmlike.f:172-175, [count] steps from i. *)
Fixpoint ctp_up (count i : nat) (c : arr) (sum : R) : arr * R :=
  match count with
  | O => (c, sum)
  | S m =>
      let ci := c (i - 1)%nat * (tfac * ((INR n_on - INR i + 1) / (n - INR i + 1))) in
      ctp_up m (S i) (aset c i ci) (sum + ci)
  end.
End Sigctp.
(** The index from which the recursion starts, _cbmlike.f:163-165. *)
Definition ctp_mode (n_on : nat) (t_on : R) (n_off : nat) (t_off : R) : nat :=
  Z.to_nat (Z.min (Z.max (trunc (INR n_on - t_on * INR n_off / t_off + 1)) 0) (Z.of_nat n_on)).
(** The whole routine; [c0] is what the output array contains before. *)
Definition sigctp (c0 : arr) (n_on : nat) (t_on : R) (n_off : nat) (t_off : R) : list R :=
  let tfac := 1 + t_off / t_on in
  let n := INR (n_on + n_off) in
  let mode := ctp_mode n_on t_on n_off t_off in
  let '(c, sum) := ctp_down n_on tfac n mode (aset c0 mode 1) 1 in
  let '(c, sum) := ctp_up n_on tfac n (n_on - mode) (S mode) c sum in
  map (fun i => c i / sum) (seq 0 (S n_on)).

(** ** gammln, _cbmlike.f:642-669 *)
Fixpoint lanczos (cof : list R) (x ser : R) : R :=
  match cof with
  | [] => ser
  | c :: cof' => let x := x + 1 in lanczos cof' x (ser + c / x)
  end.
Definition gammln (xx : R) : R :=
  let x := xx - 1 in
  let tmp := x + 11/2 in
  let tmp := (x + 1/2) * ln tmp - tmp in
  let ser := lanczos [7618009173 / 10^8; - (8650532033 / 10^8); 2401409822 / 10^8;
                      - (1231739516 / 10^9); 120858003 / 10^11; - (536382 / 10^11)] x 1 in
  tmp + ln (250662827465 / 10^11 * ser).

(** ** ppois, _cbmlike.f:556-596: the saved variables a and ntop. *)
Record pois := Pois { p_a : arr; p_ntop : nat }.
(** _cbmlike.f:570 sets a(1) and ntop; the rest of a is whatever it was. *)
Definition pois0 (junk : arr) : pois := Pois (aset junk 1 1) 0.

(** _cbmlike.f:583-585, [count] steps from j. *)
Fixpoint fill (count j : nat) (a : arr) : arr :=
  match count with
  | O => a
  | S m => fill m (S j) (aset a (S j) (INR j * a j))
  end.

Section Pois.
Variable G : R -> R.

(** _cbmlike.f:556-596; n is not negative here. *)
Definition ppois (n : nat) (dm : R) (s : pois) : pois * R :=
  if Reqb dm 0 then (s, if Nat.eqb n 0 then 1 else 0)
  else if Nat.leb n (p_ntop s) then (s, dm ^ n * exp (- dm) / p_a s (S n))
  else if Nat.leb n 32 then
    let a := fill (n - p_ntop s) (S (p_ntop s)) (p_a s) in
    (Pois a n, dm ^ n * exp (- dm) / a (S n))
  else (s, exp (INR n * ln dm - dm - G (INR n + 1))).

(** lppois, _cbmlike.f:599-639.  b is not saved: at every call it holds
    whatever was in memory, [junk].  minus infinity is -1d100. *)
Fixpoint lfill (count j : nat) (a b : arr) : arr * arr :=
  match count with
  | O => (a, b)
  | S m =>
      let aj := INR j * a j in
      lfill m (S j) (aset a (S j) aj) (aset b (S j) (ln aj))
  end.
Definition lppois (junk : arr) (n : nat) (dm : R) (s : pois) : pois * R :=
  if Reqb dm 0 then (s, if Nat.eqb n 0 then 0 else - (10 ^ 100))
  else if Nat.leb n (p_ntop s) then (s, INR n * ln dm - dm - junk (S n))
  else if Nat.leb n 32 then
    let '(a, b) := lfill (n - p_ntop s) (S (p_ntop s)) (p_a s) junk in
    (Pois a n, INR n * ln dm - dm - b (S n))
  else (s, INR n * ln dm - dm - G (INR n + 1)).

(** psigc, _cbmlike.f:184-203: the sum from i, over c(i), c(i+1), ... *)
Fixpoint psigc_loop (t_on st : R) (c : list R) (i : nat) (acc : R) (s : pois) : pois * R :=
  match c with
  | [] => (s, acc)
  | ci :: c' =>
      let '(s, p) := ppois i st s in
      psigc_loop t_on st c' (S i) (acc + ci * t_on * p) s
  end.
Definition psigc (s t_on : R) (c : list R) (w : pois) : pois * R := psigc_loop t_on (s * t_on) c 0 0 w.

(** ** The series, _cbmlike.f:288-396 *)
(** _cbmlike.f:336-343 and, with another stt, 233-241. *)
Definition largest (n_on n_off : nat) (stt : R) : Z :=
  let nn := INR (n_on + n_off) in
  let nns := nn + stt - 1 in
  let disc := nns * nns + 4 * (nn - INR n_on * stt) in
  if Rleb 0 disc then Z.min (trunc (1/2 * (nns - sqrt disc) + 1)) (Z.of_nat n_on)
  else Z.of_nat n_on.

(** slml_offset, _cbmlike.f:206-257 *)
Definition slml_offset (n_on : nat) (t_on : R) (n_off : nat) (t_off : R) : R :=
  let stt := (INR n_on / t_on - INR n_off / t_off) * (t_on + t_off) in
  let km := largest n_on n_off stt in
  if Z.leb km 0 then
    let arg2 := INR n_on + 1 in
    let arg1 := arg2 + INR n_off in
    G arg1 - G arg2
  else
    let arg2 := INR n_on - IZR km + 1 in
    let arg1 := arg2 + INR n_off in
    let arg3 := IZR km + 1 in
    IZR km * ln stt + G arg1 - G arg2 - G arg3 - (INR n_on - INR n_off * t_on / t_off).

Section Series.
Variables n_on n_off : nat.
Variables stt low s t_on : R.
Let nn := INR (n_on + n_off).

(** _cbmlike.f:373-379: from k, downwards; at most [count] rounds. *)
Fixpoint sl_down (count : nat) (k : Z) (term slike : R) (nt : nat) : R * nat :=
  match count with
  | O => (slike, nt)
  | S m =>
      let k := (k - 1)%Z in
      let term := term * (nn - IZR k) * (IZR k + 1) / (stt * (INR n_on - IZR k)) in
      let slike := slike + term in
      if Rltb low term then sl_down m k term slike (S nt) else (slike, S nt)
  end.
(** _cbmlike.f:384-390 *)
Fixpoint sl_up (count : nat) (k : Z) (term slike : R) (nt : nat) : R * nat :=
  match count with
  | O => (slike, nt)
  | S m =>
      let k := (k + 1)%Z in
      let term := term * stt * (INR n_on - IZR k + 1) / (IZR k * (nn - IZR k + 1)) in
      let slike := slike + term in
      if Rltb low term then sl_up m k term slike (S nt) else (slike, S nt)
  end.
(** _cbmlike.f:527-534 and 539-546, with the derivative. *)
Fixpoint sld_down (count : nat) (k : Z) (term slike dsl : R) (nt : nat) : R * R * nat :=
  match count with
  | O => (slike, dsl, nt)
  | S m =>
      let k := (k - 1)%Z in
      let term := term * (nn - IZR k) * (IZR k + 1) / (stt * (INR n_on - IZR k)) in
      let slike := slike + term in
      let dsl := dsl + term * (IZR k / s - t_on) in
      if Rltb low term then sld_down m k term slike dsl (S nt) else (slike, dsl, S nt)
  end.
Fixpoint sld_up (count : nat) (k : Z) (term slike dsl : R) (nt : nat) : R * R * nat :=
  match count with
  | O => (slike, dsl, nt)
  | S m =>
      let k := (k + 1)%Z in
      let term := term * stt * (INR n_on - IZR k + 1) / (IZR k * (nn - IZR k + 1)) in
      let slike := slike + term in
      let dsl := dsl + term * (IZR k / s - t_on) in
      if Rltb low term then sld_up m k term slike dsl (S nt) else (slike, dsl, S nt)
  end.
End Series.

(** What slmlike returns: the value and nt with ierr = 0, or ierr = 1. *)
Inductive slm := Slm (v : R) (nt : nat) | Ierr.
(** slmlike, _cbmlike.f:288-396.  The loops go down km times at most (k >= 0)
    and up n_on - km times (k <= n_on). *)
Definition slmlike (s : R) (n_on : nat) (t_on : R) (n_off : nat) (t_off offset cut : R) : slm :=
  if Reqb s 0 then Slm (G (INR n_on + INR n_off + 1) - G (INR n_on + 1) - offset) 1
  else
    let stt := s * (t_on + t_off) in
    let km := largest n_on n_off stt in
    let arg2 := INR n_on - IZR km + 1 in
    let arg1 := arg2 + INR n_off in
    let arg3 := IZR km + 1 in
    let lterm := IZR km * ln stt + G arg1 - G arg2 - G arg3 - s * t_on - offset in
    if Rltb lterm (-700) || Rltb 700 lterm then Ierr
    else
      let lterm := exp lterm in
      let low := cut * lterm in
      let '(slike, nt) := sl_down n_on n_off stt low (Z.to_nat km) km lterm lterm 1 in
      let '(slike, nt) := sl_up n_on n_off stt low (Z.to_nat (Z.of_nat n_on - km)) km lterm slike nt in
      Slm (ln slike) nt.

Inductive slmd := Slmd (v d : R) (nt : nat) | Ierrd.
(** slmliked, _cbmlike.f:440-553 *)
Definition slmliked (s : R) (n_on : nat) (t_on : R) (n_off : nat) (t_off offset cut : R) : slmd :=
  if Reqb s 0 then
    let sll := G (INR n_on + INR n_off + 1) - G (INR n_on + 1) - offset in
    let term := ln (1 + t_off / t_on) + G (INR n_on + INR n_off + 1 - 1) - G (INR n_on + 1 - 1) - offset in
    Slmd sll (t_on * (exp (term - sll) - 1)) 1
  else
    let stt := s * (t_on + t_off) in
    let km := largest n_on n_off stt in
    let arg2 := INR n_on - IZR km + 1 in
    let arg1 := arg2 + INR n_off in
    let arg3 := IZR km + 1 in
    let lterm := IZR km * ln stt + G arg1 - G arg2 - G arg3 - s * t_on - offset in
    if Rltb lterm (-700) || Rltb 700 lterm then Ierrd
    else
      let lterm := exp lterm in
      let low := cut * lterm in
      let dsl := lterm * (IZR km / s - t_on) in
      let '(slike, dsl, nt) := sld_down n_on n_off stt low s t_on (Z.to_nat km) km lterm lterm dsl 1 in
      let '(slike, dsl, nt) := sld_up n_on n_off stt low s t_on (Z.to_nat (Z.of_nat n_on - km)) km lterm slike dsl nt in
      Slmd (ln slike) (dsl / slike) nt.
End Pois.

(** ** OnOff, onoff.py:38-210 *)
(** The object; the saved variables of ppois belong to the module. *)
Record onoff := OnOff { o_on_cts : nat; o_on : R; o_off_cts : nat; o_off : R; o_cut : R;
                        o_offset : R; o_signal : option (list R) }.
Record oworld := OWorld { ob : onoff; po : pois }.

(** A signal rate: a float, a 1-D array of floats or of integers, an array of
    another dimension (with more than one element), a Python sequence. *)
Inductive rate := RFloat (s : R) | RFloats (l : list R) | RInts (l : list Z) | RArray | RSequence.
(** What comes back: a float, or an array of floats or of integers. *)
Inductive answer := AFloat (v : R) | AFloats (l : list R) | AInts (l : list Z).

Section Methods.
Variable G : R -> R.
(** The contents of new output arrays. *)
Variable c0 : arr.

(** onoff.py:38-77 *)
Definition new_onoff (on_cts : nat) (on_intvl : R) (off_cts : nat) (off_intvl cutoff : R) : onoff :=
  OnOff on_cts on_intvl off_cts off_intvl cutoff (slml_offset G on_cts on_intvl off_cts off_intvl) None.

Definition like (o : onoff) (s : R) : slm :=
  slmlike G s (o_on_cts o) (o_on o) (o_off_cts o) (o_off o) (o_offset o) (o_cut o).

(** onoff.py:110-115 *)
Fixpoint likes (o : onoff) (l : list R) : res (list R) :=
  match l with
  | [] => Ok []
  | s :: l' =>
      match like o s with
      | Ierr => Err ValueError
      | Slm v _ => match likes o l' with Ok r => Ok (v :: r) | Err e => Err e end
      end
  end.

(** onoff.py:79-115.  float() of an array with one element succeeds;
    zeros_like an integer array is an integer array, storing into which
    truncates. *)
Definition siglml (o : onoff) (r : rate) : res answer :=
  let scalar s := match like o s with Ierr => Err ValueError | Slm v _ => Ok (AFloat v) end in
  match r with
  | RFloat s => scalar s
  | RFloats [s] => scalar s
  | RInts [z] => scalar (IZR z)
  | RFloats l => match likes o l with Ok v => Ok (AFloats v) | Err e => Err e end
  | RInts l => match likes o (map IZR l) with Ok v => Ok (AInts (map trunc v)) | Err e => Err e end
  | RArray => Err ValueError
  | RSequence => Err AttributeError
  end.

(** onoff.py:157-159, 202-204 *)
Definition signal (w : oworld) : oworld * list R :=
  match o_signal (ob w) with
  | Some p => (w, p)
  | None =>
      let o := ob w in
      let p := sigctp c0 (o_on_cts o) (o_on o) (o_off_cts o) (o_off o) in
      (OWorld (OnOff (o_on_cts o) (o_on o) (o_off_cts o) (o_off o) (o_cut o) (o_offset o) (Some p)) (po w), p)
  end.

Fixpoint densities (t_on : R) (p : list R) (l : list R) (s : pois) : pois * list R :=
  match l with
  | [] => (s, [])
  | x :: l' =>
      let '(s, v) := psigc G x t_on p s in
      let '(s, vs) := densities t_on p l' s in
      (s, v :: vs)
  end.

(** onoff.py:135-170 *)
Definition sigmp (r : rate) (w : oworld) : oworld * res answer :=
  let '(w, p) := signal w in
  let scalar s := let '(q, v) := psigc G s (o_on (ob w)) p (po w) in (OWorld (ob w) q, Ok (AFloat v)) in
  match r with
  | RFloat s => scalar s
  | RFloats [s] => scalar s
  | RInts [z] => scalar (IZR z)
  | RFloats l => let '(q, v) := densities (o_on (ob w)) p l (po w) in (OWorld (ob w) q, Ok (AFloats v))
  | RInts l => let '(q, v) := densities (o_on (ob w)) p (map IZR l) (po w) in (OWorld (ob w) q, Ok (AInts (map trunc v)))
  | RArray => (w, Err ValueError)
  | RSequence => (w, Err AttributeError)
  end.

(** onoff.py:184-210.  A slice of a NumPy array is a view: the array returned
    and the one kept in p_signal are the same memory. *)
Inductive pn := Prob (p : R) | View.
Definition pnsig (n : option Z) (w : oworld) : oworld * res pn :=
  let '(w, p) := signal w in
  match n with
  | None | Some 0%Z => (w, Ok View)
  | Some z =>
      if Z.ltb z 0 || Z.ltb (Z.of_nat (o_on_cts (ob w))) z then (w, Err ValueError)
      else match nth_error p (Z.to_nat z) with
           | Some v => (w, Ok (Prob v))
           | None => (w, Err IndexError)
           end
  end.

Fixpoint set_nth (l : list R) (i : nat) (v : R) : list R :=
  match l, i with
  | [], _ => []
  | _ :: l', O => v :: l'
  | x :: l', S i' => x :: set_nth l' i' v
  end.
(** The caller assigns to an element of an array pnsig returned before. *)
Definition write_view (i : nat) (v : R) (w : oworld) : oworld :=
  let o := ob w in
  OWorld (OnOff (o_on_cts o) (o_on o) (o_off_cts o) (o_off o) (o_cut o) (o_offset o)
           (option_map (fun p => set_nth p i v) (o_signal o))) (po w).
End Methods.
