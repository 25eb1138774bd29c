(** Model of sandbox/asurv: _asurvkm.f as _asurvkm.pyf makes it available, and
    KM.py.

    Doubles are real numbers; integers are unbounded.  An array of doubles is a
    function from indices, counted from 1 as in Fortran, to what memory holds.
    Fortran does not check indices: the cells after the array can be read too,
    and what they and the cells not yet written hold is an argument.  Writing
    outside an array gives BadMemory, except in KMDIF, where the cells after the
    array are part of the result.

    Left out: ATIE, RISK, LTOT and INDEXX of XVAR and SORT1, and NTEMP of KMADJ,
    which no result depends on; PLESTM, which is PLEST1 with other dimensions;
    plots. *)

From Coq Require Import List Bool Arith ZArith Reals.
From Verif Require Import Exn Instances McModel BaModel.
Import ListNotations.
Open Scope R_scope.

Definition mem := nat -> R.
Definition put {A} (m : nat -> A) (i : nat) (v : A) : nat -> A := fun k => if (k =? i)%nat then v else m k.
(** An assignment to an element of an array of n elements *)
Definition store {A} (n : nat) (m : nat -> A) (i : nat) (v : A) : res (nat -> A) :=
  if ((1 <=? i) && (i <=? n))%nat then Ok (put m i v) else Err BadMemory.
Definition exchange {A} (m : nat -> A) (j k : nat) : nat -> A := put (put m j (m k)) k (m j).

(** _asurvkm.f:935-948, the loop over K for one J *)
Definition sort_pass {A} (j : nat) (st : (nat -> A) * mem) : (nat -> A) * mem :=
  fold_left (fun st k =>
    let '(id, y) := st in
    if Rltb (y j) (y k) then (exchange id j k, exchange y j k) else st) (seq 1 (j - 1)) st.
(** _asurvkm.f:904-953, SORT1 *)
Definition sort1 {A} (ntot : nat) (st : (nat -> A) * mem) : (nat -> A) * mem :=
  if (ntot =? 1)%nat then st else fold_left (fun st i => sort_pass (ntot - i + 1) st) (seq 1 ntot) st.

(** _asurvkm.f:810-828: the sign of the limits, or None if both kinds occur *)
Definition xvar_sign (ntot : nat) (ind : nat -> Z) : option Z :=
  let isign := fold_left (fun s i => if (ind i =? 0)%Z then s else Z.sgn (ind i)) (seq 1 ntot) 1%Z in
  if forallb (fun i => (ind i =? 0)%Z || (Z.sgn (ind i) =? isign)%Z) (seq 1 ntot) then Some isign else None.

(** What XVAR makes: IU, ZU, IC, ZC *)
Record split := Split { x_iu : nat; x_zu : mem; x_ic : nat; x_zc : mem }.
(** _asurvkm.f:851-875 *)
Definition xvar_split (ntot : nat) (isave : nat -> Z) (xt zu zc : mem) : res split :=
  iter (seq 1 ntot) (fun i s =>
    if (Z.abs (isave i) =? 0)%Z then
      let iu := (x_iu s + 1)%nat in
      let! zu := store ntot (x_zu s) iu (xt i) in
      Ok (Split iu zu (x_ic s) (x_zc s))
    else
      let ic := (x_ic s + 1)%nat in
      let! zc := store ntot (x_zc s) ic (xt i) in
      Ok (Split (x_iu s) (x_zu s) ic zc)) (Split 0 zu 0 zc).

(** _asurvkm.f:588-602: limits that are not less than the last detection become
    detections.  The result has U, NU, NC and NCHANGE; ICHANGE is -1 if NCHANGE
    is not 0.  C is not changed. *)
Fixpoint pl_change (ntot : nat) (c : mem) (nc : nat) (u : mem) (nu nchange : nat) : res (mem * nat * nat * nat) :=
  match nc with
  | O => Ok (u, nu, nc, nchange)
  | S nc' =>
      if Rleb (u nu) (c nc) then
        let! u := store ntot u (nu + 1) (c nc) in
        pl_change ntot c nc' u (nu + 1) (nchange + 1)
      else Ok (u, nu, nc, nchange)
  end.

(** _asurvkm.f:610-614: the first J from k to nc with C(J) not less than x, and
    KK; n is the number of steps left *)
Fixpoint pl_scan (c : mem) (x : R) (j n kk k1 : nat) : nat * nat :=
  match n with
  | O => (k1, kk)
  | S n' => if Rleb x (c j) then (j, kk) else pl_scan c x (j + 1) n' (kk + 1) j
  end.
(** _asurvkm.f:604-622: the ranks L *)
Definition pl_ranks (u c : mem) (nu nc : nat) : nat -> nat :=
  if (nc =? 0)%nat then (fun i => i)
  else
    snd (fold_left (fun st i =>
      let '(k, kk, k1, l) := st in
      let '(k1, kk) := if (kk =? nc)%nat then (k1, kk) else pl_scan c (u i) k (nc + 1 - k) kk k1 in
      (k1, kk, k1, put l i (i + kk)%nat)) (seq 1 nu) (1%nat, 0%nat, 0%nat, fun _ => 0%nat)).

Record curve := Curve { p_pt : R; p_v1 : R; p_s : mem; p_v : mem }.
(** _asurvkm.f:626-640 *)
Definition pl_curve (xnt : R) (l : nat -> nat) (nu : nat) (s v : mem) : curve :=
  fold_left (fun st i =>
    let xl := INR (l i) in
    let pt := p_pt st * ((xnt - xl) / (xnt - xl + 1)) in
    let s := put (p_s st) i pt in
    if Rleb (xnt - xl) 0 then Curve pt (p_v1 st) s (put (p_v st) i 0)
    else
      let v1 := p_v1 st + 1 / ((xnt - xl) * (xnt - xl + 1)) in
      Curve pt v1 s (put (p_v st) i (sqrt (pt ^ 2 * v1)))) (seq 1 nu) (Curve 1 0 s v).

(** _asurvkm.f:649-658: the mean.  [i] and [k] as there. *)
Fixpoint pl_mean (fuel : nat) (u s : mem) (nu i k : nat) (smean : R) : res R :=
  match fuel with
  | O => Err OutOfFuel
  | S fuel =>
      if Reqb (u (i + k)%nat) (u (i - 1)%nat) then pl_mean fuel u s nu i (k + 1) smean
      else if (i + k <=? nu)%nat then
        let smean := smean + s (i + k - 1)%nat * (u (i + k)%nat - u (i - 1)%nat) in
        if (i + k <? nu)%nat then pl_mean fuel u s nu (i + k + 1) 0 smean else Ok smean
      else Ok smean
  end.

(** _asurvkm.f:664-675: the area under the curve from U(I-1) *)
Fixpoint pl_area (fuel : nat) (u s : mem) (nu i k : nat) (ssum : R) : res R :=
  match fuel with
  | O => Err OutOfFuel
  | S fuel =>
      if Reqb (u (i + k)%nat) (u (i - 1)%nat) && negb (i + k <=? nu)%nat then pl_area fuel u s nu i (k + 1) ssum
      else
        let ssum := ssum + s (i + k - 1)%nat * (u (i + k)%nat - u (i - 1)%nat) in
        if (i + k <? nu)%nat then pl_area fuel u s nu (i + k + 1) 0 ssum else Ok ssum
  end.
(** _asurvkm.f:679-683 *)
Fixpoint pl_tied (fuel : nat) (u : mem) (j kd : nat) : res nat :=
  match fuel with
  | O => Err OutOfFuel
  | S fuel => if Rleb (u (j - 1 + kd)%nat) (u (j - 1)%nat) then pl_tied fuel u j (kd + 1) else Ok kd
  end.
(** _asurvkm.f:662-696: the variance of the mean *)
Fixpoint pl_var (fuel : nat) (u s : mem) (l : nat -> nat) (nu : nat) (xnt : R) (j : nat) (var : R) : res R :=
  match fuel with
  | O => Err OutOfFuel
  | S fuel' =>
      let! ssum := pl_area fuel u s nu j 0 0 in
      let! kd := pl_tied fuel u j 1 in
      let xl := INR (l (j - 1)%nat) in
      let d := INR kd in
      let b := xnt - xl - d + 1 in
      if Reqb b 0 then Ok var
      else
        let var := var + ssum * ssum * d / ((xnt - xl + 1) * b) in
        if (j + kd <=? nu)%nat then pl_var fuel' u s l nu xnt (j + kd) var else Ok var
  end.

Record plest := Plest { e_u : mem; e_nu : nat; e_nc : nat; e_nchange : nat; e_s : mem; e_v : mem; e_mean : R; e_sigma : R }.
(** _asurvkm.f:538-700, PLEST1.  Without detections U(0) is read at line 589, or
    line 649 reads after the end of an array without elements.  [fuel] is for the
    loops that read memory until it differs. *)
Definition plest1 (fuel ntot : nat) (u c : mem) (nu nc : nat) (s v : mem) : res plest :=
  if (nu =? 0)%nat then Err BadMemory
  else
    let! ch := pl_change ntot c nc u nu 0 in
    let '(u, nu, nc, nchange) := ch in
    let xnt := INR (nu + nc) in
    let l := pl_ranks u c nu nc in
    let cv := pl_curve xnt l nu s v in
    let! smean := pl_mean fuel u (p_s cv) nu 2 0 (u 1%nat) in
    let! var := pl_var fuel u (p_s cv) l nu xnt 2 0 in
    Ok (Plest u nu nc nchange (p_s cv) (p_v cv) smean (sqrt var)).

(** _asurvkm.f:171-174 and 200-204: exchange with change of sign *)
Definition turn_pair (iu i : nat) (z : mem) : mem :=
  let t := z i * (-1) in
  put (put z i (z (iu - i + 1)%nat * (-1))) (iu - i + 1)%nat t.
(** _asurvkm.f:168-192, 199-208: a sequence reversed with its signs changed *)
Definition turn (iu : nat) (z : mem) : mem :=
  let j := (iu / 2)%nat in
  let z := fold_left (fun z i => turn_pair iu i z) (seq 1 j) z in
  if (2 * j =? iu)%nat then z else put z (j + 1) (z (j + 1)%nat * (-1)).
(** _asurvkm.f:175-177 *)
Definition turn_f (iu : nat) (f : mem) : mem := fold_left (fun f i => exchange f i (iu - i + 1)) (seq 1 (iu / 2)) f.
(** _asurvkm.f:179-183 *)
Definition turn_v (iu : nat) (v : mem) : mem := fold_left (fun v i => exchange v i (iu - i)) (seq 1 (iu / 2)) v.
(** _asurvkm.f:159-162 *)
Definition jumps (s : mem) : mem := fun i => if (i =? 1)%nat then 1 - s 1%nat else s (i - 1)%nat - s i.
(** _asurvkm.f:213-218 *)
Definition above (iu : nat) (s f : mem) : mem :=
  fun i => if ((1 <=? i) && (i <=? iu))%nat then fold_left (fun a j => a - f j) (seq 1 i) 1 else s i.

(** _asurvkm.f:229-233: the elements after K moved forward by one *)
Definition close (k iu : nat) (z : mem) : mem := fold_left (fun z i => put z i (z (i + 1)%nat)) (seq k (iu - k)) z.
Record adj := Adj { a_zu : mem; a_iu : nat; a_s : mem; a_v : mem }.
(** _asurvkm.f:227-239 *)
Fixpoint unique (fuel k : nat) (a : adj) : res adj :=
  match fuel with
  | O => Err OutOfFuel
  | S fuel =>
      let '(k, a) := if Reqb (a_zu a k) (a_zu a (k + 1)%nat)
                     then (k, Adj (close k (a_iu a) (a_zu a)) (a_iu a - 1) (close k (a_iu a) (a_s a)) (close k (a_iu a) (a_v a)))
                     else ((k + 1)%nat, a) in
      if (k <? a_iu a)%nat then unique fuel k a else Ok a
  end.
(** _asurvkm.f:133-242, KMADJ *)
Definition kmadj (zu zc : mem) (iu ic : nat) (s v : mem) (isign : Z) : res (adj * mem) :=
  let '(zu, zc, s, v) :=
    if (isign <? 0)%Z
    then (turn iu zu, turn ic zc, above iu s (turn_f iu (jumps s)), turn_v iu v)
    else (zu, zc, s, v) in
  let! a := unique (2 * iu + 2) 1 (Adj zu iu s v) in
  Ok (a, zc).

(** Results of KMESTM *)
Record estm := Estm { k_s : mem; k_v : mem; k_mean : R; k_error : R; k_nu : Z; k_zu : mem; k_nc : Z; k_zc : mem }.
(** _asurvkm.f:5-127, KMESTM, with what XVAR does at lines 835-849.  None: IERR
    is -1.  [m_u], [m_c], [m_s] and [m_v] are what ZXU, ZXC, SX and VX hold at
    first. *)
Definition kmestm (fuel ntot : nat) (ind : nat -> Z) (x m_u m_c m_s m_v : mem) : res (option estm) :=
  match xvar_sign ntot ind with
  | None => Ok None
  | Some isign =>
      let '(isave, xt) := sort1 ntot (ind, fun i => if ((1 <=? i) && (i <=? ntot))%nat then IZR isign * x i else 0) in
      let! sp := xvar_split ntot isave xt m_u m_c in
      let zu := snd (sort1 (x_iu sp) (fun _ => tt, x_zu sp)) in
      let zc := snd (sort1 (x_ic sp) (fun _ => tt, x_zc sp)) in
      let! e := plest1 fuel ntot zu zc (x_iu sp) (x_ic sp) m_s m_v in
      let! r := kmadj (e_u e) zc (e_nu e) (e_nc e) (e_s e) (e_v e) isign in
      let '(a, zc) := r in
      let n := Z.of_nat (e_nchange e) in
      Ok (Some (Estm (a_s a) (a_v a) (IZR isign * e_mean e) (e_sigma e)
                     (Z.of_nat (a_iu a) - n)%Z (a_zu a) (Z.of_nat (e_nc e) + n)%Z zc))
  end.

(** _asurvkm.f:284-288 *)
Definition dif_f (s : mem) : mem := fun i => if (i =? 1)%nat then 1 - s 1%nat else Rabs (s i - s (i - 1)%nat).
(** _asurvkm.f:300-327.  [j] is the bin; the assignment to DIFF(J) is made before
    J is compared with LSTEP. *)
Fixpoint dif_bins (fuel : nat) (f zu bs bl : mem) (iu lstep i j : nat) (diff : mem) : res mem :=
  match fuel with
  | O => Err OutOfFuel
  | S fuel =>
      let next diff := dif_bins fuel f zu bs bl iu lstep i (j + 1) (put diff (j + 1) 0) in
      if (j <=? lstep)%nat then
        if Rltb (zu i) (bs j) then
          if (iu <=? i)%nat then next diff
          else dif_bins fuel f zu bs bl iu lstep (i + 1) j diff
        else if Rleb (bl j) (zu i) then next diff
        else
          let diff := put diff j (diff j + f i) in
          if (i <? iu)%nat then dif_bins fuel f zu bs bl iu lstep (i + 1) j diff else next diff
      else Ok diff
  end.
(** _asurvkm.f:248-345, KMDIF; the results are BS, BL and DIFF, of which LSTEP
    elements are in the arrays *)
Definition kmdif (iu : nat) (s zu : mem) (ntot : R) (start binsiz : R) (lstep : nat) (m : mem) : res (mem * mem * mem) :=
  let bs := fun j => start + binsiz * (INR j - 1) in
  let bl := fun j => start + binsiz * INR j in
  let! diff := dif_bins (iu + lstep + 2) (dif_f s) zu bs bl iu lstep 1 1 (put m 1 0) in
  Ok (bs, bl, fun i => if ((1 <=? i) && (i <=? lstep))%nat then diff i * ntot else diff i).

(** _asurvkm.f:752-758: the first gap from l that contains ty *)
Fixpoint quart_scan (u s : mem) (ty : R) (j n : nat) : option (R * nat) :=
  match n with
  | O => None
  | S n' =>
      if Rleb ty (s j) && Rleb (s (j + 1)%nat) ty
      then Some (u j - (s j - ty) / (s j - s (j + 1)%nat) * (u j - u (j + 1)%nat), (j + 1)%nat)
      else quart_scan u s ty (j + 1) n'
  end.
(** _asurvkm.f:747-761, one percentile *)
Definition quart_one (u s : mem) (iu : nat) (ty : R) (l : nat) : R * nat :=
  if Rltb (s 1%nat) ty then (u 1%nat - (ty - s 1%nat) / (1 - s 1%nat) * (u 1%nat - 0), l)
  else match quart_scan u s ty l (iu - l) with Some r => r | None => (0, l) end.
(** _asurvkm.f:707-764, QUART *)
Definition quart (u s : mem) (iu : nat) : R * R * R :=
  if (iu <=? 3)%nat then (0, 0, 0)
  else
    let '(a, l) := quart_one u s iu (3 / 4) 1 in
    let '(b, l) := quart_one u s iu (1 / 2) l in
    let '(c, _) := quart_one u s iu (1 / 4) l in
    (a, b, c).

(** ** KM.py *)

(** Arrays from and to lists *)
Definition of_list {A} (d : A) (l : list A) : nat -> A := fun i => nth (i - 1) l d.
Definition to_list (n : nat) (m : mem) : list R := map m (seq 1 n).
(** l[:n] *)
Definition upto {A} (n : Z) (l : list A) : list A :=
  if (n <? 0)%Z then firstn (length l - Z.to_nat (- n)) l else firstn (Z.to_nat n) l.
(** The truth value of an argument that is None or a list *)
Definition truth (o : option (list R)) : bool := match o with Some (_ :: _) => true | _ => false end.

(** Attributes of a KM object *)
Record km := Km { km_cdf : list R; km_err : list R; km_mean : R; km_std : R; km_nu : Z; km_uncens : list R; km_nc : Z;
                  km_cens : list R; km_ntot : nat; km_wts : list R; km_sums : list R }.

(** KM.py:26-52: what kmestm is given, or the exception *)
Definition km_args (dtxns ulims llims all : option (list R)) (ind : option (list Z)) : res (list Z * list R) :=
  match all with
  | Some x =>
      if truth dtxns || truth ulims || truth llims then Err ValueError
      else match ind with
           | None => Err ValueError
           | Some i => if (length i =? length x)%nat then Ok (i, x) else Err ValueError
           end
  | None =>
      match ulims, llims with
      | Some _, Some _ => Err ValueError
      | Some lim, None =>
          match dtxns with
          | None => Err ValueError
          | Some d => Ok (repeat 0%Z (length d) ++ repeat 1%Z (length lim), d ++ lim)
          end
      | None, Some _ => Err NameError
      | None, None => Err ValueError
      end
  end.
(** KM.py:64-67 *)
Definition km_weights (cdf : list R) : res (list R) :=
  match rev cdf with
  | [] => Err IndexError
  | last :: _ => Ok (map (fun i => nth i cdf 0 - nth (i + 1) cdf 0) (seq 0 (length cdf - 1)) ++ [last])
  end.
(** cumsum *)
Fixpoint cumsum (a : R) (l : list R) : list R := match l with [] => [] | x :: l' => (a + x) :: cumsum (a + x) l' end.
(** KM.py:17-68.  The arguments are lists; the points are in order already when
    Population1D (population.py:192-202, PwlModel.v) orders them, and of its
    attributes only weights and cdf are kept (if NU is negative the points need
    not be in order, and the model has the weights as they are).  The arrays f2py makes are filled
    with zeros; [far] is what memory holds after the array of points. *)
Definition new_km (fuel : nat) (far : mem) (dtxns ulims llims all : option (list R)) (ind : option (list Z)) : res km :=
  let! a := km_args dtxns ulims llims all ind in
  let '(ind, x) := a in
  let n := length x in
  let! o := kmestm fuel n (of_list 0%Z ind) (of_list 0 x) (fun i => if (i <=? n)%nat then 0 else far i)
                   (fun _ => 0) (fun _ => 0) (fun _ => 0) in
  match o with
  | None => Err ValueError
  | Some k =>
      let cdf := upto (k_nu k) (to_list n (k_s k)) in
      let! wts := km_weights cdf in
      Ok (Km cdf (upto (k_nu k) (to_list n (k_v k))) (k_mean k) (k_error k) (k_nu k) (upto (k_nu k) (to_list n (k_zu k)))
             (k_nc k) (upto (k_nc k) (to_list n (k_zc k))) n wts (cumsum 0 wts))
  end.
(** KM.py:70-77: the bins, from the sums of the weights *)
Definition km_diff (k : km) (nb : nat) (start w : R) (m : mem) : res (mem * mem * mem) :=
  kmdif (length (km_sums k)) (of_list 0 (km_sums k)) (of_list 0 (km_uncens k)) (INR (km_ntot k)) start w nb m.
(** KM.py:79-87 *)
Definition km_quartiles (k : km) : res (R * R * R) :=
  if (km_nu k <? 4)%Z then Err ValueError
  else Ok (quart (of_list 0 (km_uncens k)) (of_list 0 (km_cdf k)) (length (km_uncens k))).
