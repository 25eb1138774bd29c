(** Model of package/inference/gauss: vbamodule.c and vecba.py.

    Doubles are real numbers; C integers are unbounded.  Arrays are the lists
    of their elements in C order.  Reading or writing outside an array, or
    reading what was not written, gives [BadMemory]. *)

From Coq Require Import List Bool Arith Reals.
From Verif Require Import Exn Instances McModel.
Import ListNotations.
Open Scope R_scope.

Notation "'let!' x ':=' m 'in' k" := (match m with Ok x => k | Err e => Err e end)
  (at level 200, x name, m at level 100, k at level 200, right associativity).

(** ** C arrays and loops *)

Definition rd {A} (p : list A) (i : nat) : res A :=
  match nth_error p i with Some v => Ok v | None => Err BadMemory end.
Definition wr {A} (p : list A) (i : nat) (v : A) : res (list A) :=
  if Nat.ltb i (length p) then Ok (upd i v p) else Err BadMemory.
(** A loop over the values in l of its variable. *)
Fixpoint iter {S} (l : list nat) (body : nat -> S -> res S) (s : S) : res S :=
  match l with
  | [] => Ok s
  | i :: l' => let! s' := body i s in iter l' body s'
  end.

(** A two-dimensional array. *)
Record mat := Mat { rows : nat; cols : nat; cells : list R }.

(** ** vbamodule.c *)

(** vbamodule.c:161-164 and 176-179 *)
Definition dot (p : list R) (an : nat) (q : list R) (bn n : nat) : res R :=
  iter (seq 0 n) (fun i sum => let! x := rd p (an + i) in let! y := rd q (bn + i) in Ok (sum + x * y)) 0.
(** vbamodule.c:152-167 *)
Definition c_metric (dm : list R) (nmod nsamp : nat) : res (list R) :=
  iter (seq 0 nmod) (fun a m =>
    let an := (a * nsamp)%nat in
    iter (seq 0 nmod) (fun b m =>
      let bn := (b * nsamp)%nat in
      let! sum := dot dm an dm bn nsamp in
      wr m (a * nmod + b) sum) m) (repeat 0 (nmod * nmod)).
(** vbamodule.c:170-181 *)
Definition c_proj (dm sm : list R) (nmod nsamp : nat) : res (list R) :=
  iter (seq 0 nmod) (fun a p =>
    let an := (a * nsamp)%nat in
    let! sum := dot dm an sm 0 nsamp in
    wr p a sum) (repeat 0 nmod).
(** vbamodule.c:195-197: m goes down from a-1 to 0. *)
Definition c_less (cf : list R) (an bn a : nat) (sum : R) : res R :=
  iter (rev (seq 0 a)) (fun m sum => let! x := rd cf (an + m) in let! y := rd cf (bn + m) in Ok (sum - x * y)) sum.
(** vbamodule.c:192-207, the body of the loop over b.  [diag] is not
    initialised. *)
Definition chol_body (nmod a b : nat) (st : list R * list (option R) * R) : res (list R * list (option R) * R) :=
  let '(cf, diag, rdet) := st in
  let an := (a * nmod)%nat in
  let bn := (b * nmod)%nat in
  let! x := rd cf (a * nmod + b) in
  let! sum := c_less cf an bn a x in
  if Nat.eqb a b then
    if Rleb sum 0 then Err ValueError
    else let! diag := wr diag a (Some (sqrt sum)) in Ok (cf, diag, rdet * sqrt sum)
  else
    let! o := rd diag a in
    match o with
    | None => Err BadMemory
    | Some d => let! cf := wr cf (bn + a) (sum / d) in Ok (cf, diag, rdet)
    end.
(** vbamodule.c:185-208 *)
Definition c_cholesky (metric : list R) (nmod : nat) : res (list R * list (option R) * R) :=
  iter (seq 0 nmod) (fun a st => iter (seq a (nmod - a)) (chol_body nmod a) st)
       (metric, repeat None nmod, 1).
(** vbamodule.c:212-219 *)
Definition c_tidy (cf : list R) (diag : list (option R)) (nmod : nat) : res (list R) :=
  iter (seq 0 nmod) (fun a cf =>
    let an := (a * nmod)%nat in
    iter (seq a (nmod - a)) (fun b cf =>
      if Nat.eqb a b then
        let! o := rd diag a in
        match o with None => Err BadMemory | Some d => wr cf (an + a) d end
      else wr cf (an + b) 0) cf) cf.
(** vbamodule.c:226-233 *)
Definition c_forward (cf p : list R) (nmod : nat) (ad : list R) : res (list R) :=
  iter (seq 0 nmod) (fun a ad =>
    let an := (a * nmod)%nat in
    let! s := rd p a in
    let! sum := iter (rev (seq 0 a)) (fun b sum => let! x := rd cf (an + b) in let! y := rd ad b in Ok (sum - x * y)) s in
    let! d := rd cf (an + a) in
    wr ad a (sum / d)) ad.
(** vbamodule.c:234-240 *)
Definition c_backward (cf : list R) (nmod : nat) (ad : list R) : res (list R) :=
  iter (rev (seq 0 nmod)) (fun a ad =>
    let! s := rd ad a in
    let! sum := iter (seq (a + 1) (nmod - (a + 1))) (fun b sum => let! x := rd cf (b * nmod + a) in let! y := rd ad b in Ok (sum - x * y)) s in
    let! d := rd cf (a * nmod + a) in
    wr ad a (sum / d)) ad.

(** What metricAnalysis returns, vbamodule.c:252-255 *)
Record analysis := Analysis {
  an_metric : mat; an_L : mat; an_rdet : R; an_proj : list R; an_amps : list R; an_suf : R }.
(** vbamodule.c:109-267.  Arguments are taken to be arrays of doubles. *)
Definition metricAnalysis (dmat : mat) (smpls : list R) : res analysis :=
  if negb (Nat.eqb (cols dmat) (length smpls)) then Err ValueError
  else
    let nmod := rows dmat in
    let nsamp := cols dmat in
    let! metric := c_metric (cells dmat) nmod nsamp in
    let! proj := c_proj (cells dmat) smpls nmod nsamp in
    let! st := c_cholesky metric nmod in
    let '(cf, diag, rdet) := st in
    let! cf := c_tidy cf diag nmod in
    let! ad := c_forward cf proj nmod (repeat 0 nmod) in
    let! ad := c_backward cf nmod ad in
    let! sum := iter (seq 0 nmod) (fun a sum => let! x := rd ad a in let! y := rd proj a in Ok (sum + x * y)) 0 in
    Ok (Analysis (Mat nmod nmod metric) (Mat nmod nmod cf) rdet proj ad sum).

(** vbamodule.c:305-314 *)
Definition c_invert (nmod : nat) (cv : list R) : res (list R) :=
  iter (seq 0 nmod) (fun a cv =>
    let an := (a * nmod)%nat in
    let! d := rd cv (an + a) in
    let! cv := wr cv (an + a) (1 / d) in
    iter (seq (a + 1) (nmod - (a + 1))) (fun b cv =>
      let bn := (b * nmod)%nat in
      let! sum := iter (seq a (b - a)) (fun m sum => let! x := rd cv (bn + m) in let! y := rd cv (m * nmod + a) in Ok (sum - x * y)) 0 in
      let! d := rd cv (bn + b) in
      wr cv (bn + a) (sum / d)) cv) cv.
(** vbamodule.c:315-322 *)
Definition c_square (nmod : nat) (cv : list R) : res (list R) :=
  iter (seq 0 nmod) (fun a cv =>
    let an := (a * nmod)%nat in
    iter (seq a (nmod - a)) (fun b cv =>
      let! sum := iter (seq b (nmod - b)) (fun m sum => let! x := rd cv (m * nmod + a) in let! y := rd cv (m * nmod + b) in Ok (sum + x * y)) 0 in
      wr cv (an + b) sum) cv) cv.
(** vbamodule.c:323-328 *)
Definition c_mirror (nmod : nat) (cv : list R) : res (list R) :=
  iter (seq 0 nmod) (fun a cv =>
    let an := (a * nmod)%nat in
    iter (seq (a + 1) (nmod - (a + 1))) (fun b cv =>
      let! x := rd cv (an + b) in
      wr cv (b * nmod + a) x) cv) cv.
(** vbamodule.c:276-339.  The number of columns is not looked at. *)
Definition covar (cfmetric : mat) : res mat :=
  let nmod := rows cfmetric in
  let! cv := c_invert nmod (cells cfmetric) in
  let! cv := c_square nmod cv in
  let! cv := c_mirror nmod cv in
  Ok (Mat nmod (cols cfmetric) cv).

(** ** vecba.py *)

(** What a basis function returns: a number or a vector. *)
Inductive bval := BScalar (r : R) | BVec (l : list R).
(** Broadcasting to n elements, as numpy does in an assignment. *)
Definition broadcast (n : nat) (v : bval) : res (list R) :=
  match v with
  | BScalar r => Ok (repeat r n)
  | BVec l => if Nat.eqb (length l) n then Ok l
              else match l with [r] => Ok (repeat r n) | _ => Err ValueError end
  end.
(** v / sigs, then the assignment to a row of as many elements *)
Definition over_sigs (v : bval) (sigs : list R) : res (list R) :=
  let! l := broadcast (length sigs) v in
  Ok (map (fun xs => fst xs / snd xs) (combine l sigs)).
(** modvals[a,:] = row *)
Definition set_row (m : mat) (a : nat) (row : list R) : mat :=
  Mat (rows m) (cols m) (firstn (a * cols m) (cells m) ++ row ++ skipn (a * cols m + cols m) (cells m)).
(** sum(ampl[:,newaxis]*modvals, 0) *)
Definition weighted_rows (ampl : list R) (m : mat) : list R :=
  map (fun j => fold_right Rplus 0 (map (fun a => nth a ampl 0 * nth (a * cols m + j) (cells m) 0) (seq 0 (rows m)))) (seq 0 (cols m)).
Definition minus (l m : list R) : list R := map (fun xy => fst xy - snd xy) (combine l m).
Definition square_sum (l : list R) : R := fold_right Rplus 0 (map (fun x => x * x) l).

(** Comparison of tuples of floats. *)
Fixpoint same_pars (p q : list R) : bool :=
  match p, q with
  | [], [] => true
  | x :: p', y :: q' => (Reqb x y && same_pars p' q')%bool
  | _, _ => false
  end.
Definition is_pars (p : list R) (o : option (list R)) : bool :=
  match o with Some q => same_pars p q | None => false end.

(** The attributes that both classes set (49-56, 107-111 and 176-183, 237-241).
    [m_done]: metric, L, proj and ampl, which are missing at first. *)
Record memo := Memo {
  m_pars : option (list R); m_suf : option R; m_Q : option R; m_Jac : option R;
  m_modvals : mat; m_done : option (mat * mat * list R * list R) }.
Definition fresh_memo (M N : nat) : memo := Memo None None None None (Mat M N (repeat 0 (M * N))) None.

(** 107-111 and 237-241.  [have_vba]: whether vba is the compiled module; in the
    sources as they are it is a bare object (vecba.py:9).  Division by zero
    raises after the parameters have been stored. *)
Definition finish (have_vba : bool) (smpls : list R) (dsqr : R) (params : list R) : memo -> memo * res unit :=
  fun s =>
    if have_vba then
      match metricAnalysis (m_modvals s) smpls with
      | Err e => (s, Err e)
      | Ok r =>
          let done := Some (an_metric r, an_L r, an_proj r, an_amps r) in
          let put J := Memo (Some params) (Some (an_suf r)) (Some (dsqr - an_suf r)) (Some J) (m_modvals s) done in
          if Reqb (an_rdet r) 0 then (put (an_rdet r), Err ZeroDivisionError)
          else (put (1 / an_rdet r), Ok tt)
      end
    else (s, Err AttributeError).
Definition put_row (a : nat) (row : list R) (s : memo) : memo :=
  Memo (m_pars s) (m_suf s) (m_Q s) (m_Jac s) (set_row (m_modvals s) a row) (m_done s).

Open Scope exn_scope.

Section BA.
Variable have_vba : bool.
(** What the setup function returns; the basis functions and setup function
    take the parameters and the abscissas.  They are functions of their
    arguments and may raise. *)
Variable U : Type.

Record ba := Ba {
  ba_basis : list (list R -> list R -> option U -> res bval);
  ba_absc : list R; ba_sigs : list R; ba_setup : option (list R -> list R -> res U);
  ba_std : list R; ba_dsqr : R; ba_memo : memo }.

(** BA.__init__, vecba.py:28-56.  [data] by rows; [ncol]: their length.
    Division by a zero sigma, which gives an infinity in numpy, is not
    modelled. *)
Definition new_ba basis (data : list (list R)) (ncol : nat) (sigma : option R) setup : res ba :=
  if Nat.ltb ncol 2 then Err IndexError
  else
    let absc := map (fun r => nth 0 r 0) data in
    let smpls := map (fun r => nth 1 r 0) data in
    let rest sigs :=
      let std := map (fun xs => fst xs / snd xs) (combine smpls sigs) in
      Ok (Ba basis absc sigs setup std (square_sum std) (fresh_memo (length basis) (length data))) in
    match sigma with
    | Some s => if negb (Nat.eqb ncol 2) then Err ValueError else rest (repeat s (length data))
    | None => if Nat.eqb ncol 3 then rest (map (fun r => nth 2 r 0) data) else Err ValueError
    end.

Definition on_memo {A} (f : memo -> memo * res A) : ba -> ba * res A :=
  fun o => let (s, r) := f (ba_memo o) in
           (Ba (ba_basis o) (ba_absc o) (ba_sigs o) (ba_setup o) (ba_std o) (ba_dsqr o) s, r).
Definition lift {S A} (r : res A) : S -> S * res A := fun s => (s, r).

(** vecba.py:101-103 *)
Fixpoint fill_rows (basis : list (list R -> list R -> option U -> res bval)) (params absc : list R) (aux : option U) (sigs : list R) (a : nat)
  : memo -> memo * res unit :=
  match basis with
  | [] => ret tt
  | g :: basis' =>
      (v <- lift (g params absc aux) ;;
       row <- lift (over_sigs v sigs) ;;
       modify (put_row a row) ;;;
       fill_rows basis' params absc aux sigs (S a))
  end.
(** vecba.py:82-111; what it returns is not used. *)
Definition calc_marg_stats (params : list R) : ba -> ba * res unit :=
  fun o =>
    if is_pars params (m_pars (ba_memo o)) then (o, Ok tt)
    else
      match match ba_setup o with None => Ok None | Some f => let! u := f params (ba_absc o) in Ok (Some u) end with
      | Err e => (o, Err e)
      | Ok aux =>
          on_memo (fill_rows (ba_basis o) params (ba_absc o) aux (ba_sigs o) 0 ;;;
                   finish have_vba (ba_std o) (ba_dsqr o) params) o
      end.
(** vecba.py:61-80 *)
Definition marg_stats (params : list R) : ba -> ba * res (option R * option R * option R) :=
  (calc_marg_stats params ;;;
   o <- get ;;
   ret (m_Q (ba_memo o), m_suf (ba_memo o), m_Jac (ba_memo o))).
(** vecba.py:118-120 and 144-146 *)
Definition update (params : list R) : ba -> ba * res unit :=
  fun o => if match params with [] => false | _ => negb (is_pars params (m_pars (ba_memo o))) end
           then calc_marg_stats params o else (o, Ok tt).
(** vecba.py:113-123 *)
Definition amplitudes (params : list R) : ba -> ba * res (list R) :=
  (update params ;;;
   o <- get ;;
   match m_done (ba_memo o) with None => raise AttributeError | Some (_, _, _, ampl) => ret ampl end).
(** vecba.py:125-137 *)
Definition ba_covar : ba -> ba * res mat :=
  fun o => match m_pars (ba_memo o) with
           | None => (o, Err ValueError)
           | Some _ =>
               if have_vba then
                 match m_done (ba_memo o) with None => (o, Err AttributeError) | Some (_, L, _, _) => (o, covar L) end
               else (o, Err AttributeError)
           end.
(** vecba.py:139-150 *)
Definition residuals (params : list R) : ba -> ba * res (list R) :=
  (update params ;;;
   o <- get ;;
   match m_done (ba_memo o) with
   | None => raise AttributeError
   | Some (_, _, _, ampl) => ret (minus (ba_std o) (weighted_rows ampl (m_modvals (ba_memo o))))
   end).
End BA.

Section BAObj.
Variable have_vba : bool.
(** The object: its state, set_nonlin, and std_basis as functions of the state.
    The samples do not change. *)
Variable O : Type.
Variable set_nonlin : list R -> O -> O * res unit.
Variable std_basis : list (O -> res bval).
Variable std_smpls : list R.

Record bo := Bo { bo_obj : O; bo_dsqr : R; bo_memo : memo }.

(** BAObj.__init__, vecba.py:164-183 *)
Definition new_bo (obj : O) : bo :=
  Bo obj (square_sum std_smpls) (fresh_memo (length std_basis) (length std_smpls)).
(** vecba.py:232-233 *)
Fixpoint fill_rows_o (basis : list (O -> res bval)) (obj : O) (a : nat) : memo -> memo * res unit :=
  match basis with
  | [] => ret tt
  | g :: basis' =>
      (v <- lift (g obj) ;;
       row <- lift (broadcast (length std_smpls) v) ;;
       modify (put_row a row) ;;;
       fill_rows_o basis' obj (S a))
  end.
(** vecba.py:220-241 *)
Definition calc_marg_stats_o (params : list R) : bo -> bo * res unit :=
  fun o =>
    if is_pars params (m_pars (bo_memo o)) then (o, Ok tt)
    else
      match set_nonlin params (bo_obj o) with
      | (obj, Err e) => (Bo obj (bo_dsqr o) (bo_memo o), Err e)
      | (obj, Ok _) =>
          let (s, r) := (fill_rows_o std_basis obj 0 ;;; finish have_vba std_smpls (bo_dsqr o) params) (bo_memo o) in
          (Bo obj (bo_dsqr o) s, r)
      end.
(** vecba.py:185-218 *)
Definition marg_stats_o (params : list R) : bo -> bo * res (option R * option R * option R) :=
  (calc_marg_stats_o params ;;;
   o <- get ;;
   ret (m_Q (bo_memo o), m_suf (bo_memo o), m_Jac (bo_memo o))).
(** vecba.py:248-250 and 273-275 *)
Definition update_o (params : list R) : bo -> bo * res unit :=
  fun o => if match params with [] => false | _ => negb (is_pars params (m_pars (bo_memo o))) end
           then calc_marg_stats_o params o else (o, Ok tt).
(** vecba.py:243-253 *)
Definition amplitudes_o (params : list R) : bo -> bo * res (list R) :=
  (update_o params ;;;
   o <- get ;;
   match m_done (bo_memo o) with None => raise AttributeError | Some (_, _, _, ampl) => ret ampl end).
(** vecba.py:255-266 *)
Definition bo_covar : bo -> bo * res mat :=
  fun o => match m_pars (bo_memo o) with
           | None => (o, Err ValueError)
           | Some _ =>
               if have_vba then
                 match m_done (bo_memo o) with None => (o, Err AttributeError) | Some (_, L, _, _) => (o, covar L) end
               else (o, Err AttributeError)
           end.
(** vecba.py:268-279 *)
Definition residuals_o (params : list R) : bo -> bo * res (list R) :=
  (update_o params ;;;
   o <- get ;;
   match m_done (bo_memo o) with
   | None => raise AttributeError
   | Some (_, _, _, ampl) => ret (minus std_smpls (weighted_rows ampl (m_modvals (bo_memo o))))
   end).
End BAObj.
