(** Model of DCUHRE, package/inference/integrate/dcuhre_py.f with the
    subroutines in dadhre.f, dtrhre.f, drlhre.f, dfshre.f, dinhre.f, d132re.f,
    d113re.f, d09hre.f and d07hre.f (dchhre.f is in CubModel.v), as dcuhre.pyf
    makes it available.

    Doubles are real numbers; constants written in single precision have the
    value they have there.  FUNSUB is a function f from points to the values
    of its components, numbered from 1.  An array with a column for each
    component is a function of the component; the tables W, SCALES, NORMS and
    RULPTS are functions of their indices, in the ranges of the loops; G is a
    function from columns to lists.  A column of each of VALUES, ERRORS, CENTRS,
    HWIDTS, GREATE and DIR together is a record, and DIR is an integer.
    MDIV is 1 (dcuhre_py.f:376).

    Not modelled: going on with an earlier calculation (RESTAR = 1), which gives
    NotImplementedError. *)

From Coq Require Import List Bool Arith ZArith Reals.
From Verif Require Import Exn Instances McModel BaModel ObsModel AdModel CubModel DcTables.
Import ListNotations.
Open Scope R_scope.

Definition vec := nat -> R.

(** A rule, as DINHRE gets it from D132RE, D113RE, D09HRE or D07HRE: WTLENG, W,
    G, RULPTS and ERRCOF *)
Record table := Table { t_len : nat; t_w : nat -> nat -> R; t_g : nat -> list R; t_pts : nat -> R; t_ec : nat -> R }.

(** d07hre.f:143-148 and d09hre.f:199-204 *)
Definition errcof (i : nat) : R := match i with 1%nat => 5 | 2%nat => 5 | 3%nat => 1 | 4%nat => 5 | 5%nat => 1 / 2 | _ => 1 / 4 end.

(** d07hre.f:129-139 and d09hre.f:185-195: the weights of the null rules and the
    weights of the centre, from the weights W(J,I), I > 1, of d07hre.f:82-108 and
    d09hre.f:86-155 *)
Definition finish_w (wtleng : nat) (twondm : R) (rulpts : nat -> R) (w : nat -> nat -> R) (j i : nat) : R :=
  let cols := seq 2 (wtleng - 1) in
  match j with
  | 1%nat => match i with
         | 1%nat => fold_left (fun c i => c - rulpts i * (twondm * w 1%nat i)) cols twondm
         | _ => twondm * w 1%nat i
         end
  | _ => match i with
         | 1%nat => fold_left (fun c i => c - rulpts i * (w j i - w 1%nat i)) cols 0
         | _ => w j i - w 1%nat i
         end
  end.

(** d07hre.f:74, d09hre.f:75: 0.4707 in single precision *)
Definition lam0 : R := IZR 15794071 / IZR (2 ^ 25).
(** d07hre.f:76-78, d09hre.f:76-78 *)
Definition lam1 : R := 4 / (15 - 5 / lam0).
Definition ratio : R := (1 - lam1 / lam0) / 27.
Definition lam2 : R := (5 - 7 * lam1 - 35 * ratio) / (7 - 35 * lam1 / 3 - 35 * ratio / lam0).

(** A column of G: the values, and zeros *)
Definition gens (ndim : nat) (l : list R) : list R := l ++ repeat 0 (ndim - length l).

(** D07HRE *)
Section D07.
Variable ndim : nat.
(** d07hre.f:75 *)
Definition lamp7 : R := 9 / 16.
(** d07hre.f:67 *)
Definition twondm : R := IZR (2 ^ Z.of_nat ndim).
Definition nd : R := INR ndim.
(** d07hre.f:65-70 *)
Definition pts7 (j : nat) : R :=
  match j with
  | 1%nat => 1
  | 5%nat => 2 * nd * (nd - 1)
  | 6%nat => twondm
  | _ => 2 * nd
  end.
(** d07hre.f:82-108 *)
Definition w7_16 : R := 1 / (3 * lam0) ^ 3 / twondm.
Definition w7_15 : R := (1 - 5 * lam0 / 3) / (60 * (lam1 - lam0) * lam1 ^ 2).
Definition w7_13 : R := (1 - 5 * lam2 / 3 - 5 * twondm * w7_16 * lam0 * (lam0 - lam2)) / (10 * lam1 * (lam1 - lam2)) - 2 * (nd - 1) * w7_15.
Definition w7_12 : R := (1 - 5 * lam1 / 3 - 5 * twondm * w7_16 * lam0 * (lam0 - lam1)) / (10 * lam2 * (lam2 - lam1)).
Definition w7_26 : R := 1 / (36 * lam0 ^ 3) / twondm.
Definition w7_25 : R := (1 - 9 * twondm * w7_26 * lam0 ^ 2) / (36 * lam1 ^ 2).
Definition w7_23 : R := (1 - 5 * lam2 / 3 - 5 * twondm * w7_26 * lam0 * (lam0 - lam2)) / (10 * lam1 * (lam1 - lam2)) - 2 * (nd - 1) * w7_25.
Definition w7_22 : R := (1 - 5 * lam1 / 3 - 5 * twondm * w7_26 * lam0 * (lam0 - lam1)) / (10 * lam2 * (lam2 - lam1)).
Definition w7_36 : R := 5 / (108 * lam0 ^ 3) / twondm.
Definition w7_35 : R := (1 - 9 * twondm * w7_36 * lam0 ^ 2) / (36 * lam1 ^ 2).
Definition w7_33 : R := (1 - 5 * lamp7 / 3 - 5 * twondm * w7_36 * lam0 * (lam0 - lamp7)) / (10 * lam1 * (lam1 - lamp7)) - 2 * (nd - 1) * w7_35.
Definition w7_34 : R := (1 - 5 * lam1 / 3 - 5 * twondm * w7_36 * lam0 * (lam0 - lam1)) / (10 * lamp7 * (lamp7 - lam1)).
Definition w7_46 : R := 1 / (54 * lam0 ^ 3) / twondm.
Definition w7_45 : R := (1 - 18 * twondm * w7_46 * lam0 ^ 2) / (72 * lam1 ^ 2).
Definition w7_43 : R := (1 - 10 * lam2 / 3 - 10 * twondm * w7_46 * lam0 * (lam0 - lam2)) / (20 * lam1 * (lam1 - lam2)) - 2 * (nd - 1) * w7_45.
Definition w7_42 : R := (1 - 10 * lam1 / 3 - 10 * twondm * w7_46 * lam0 * (lam0 - lam1)) / (20 * lam2 * (lam2 - lam1)).
Definition raw7 (j i : nat) : R :=
  match j, i with
  | 1%nat, 2%nat => w7_12 | 1%nat, 3%nat => w7_13 | 1%nat, 5%nat => w7_15 | 1%nat, 6%nat => w7_16
  | 2%nat, 2%nat => w7_22 | 2%nat, 3%nat => w7_23 | 2%nat, 5%nat => w7_25 | 2%nat, 6%nat => w7_26
  | 3%nat, 3%nat => w7_33 | 3%nat, 4%nat => w7_34 | 3%nat, 5%nat => w7_35 | 3%nat, 6%nat => w7_36
  | 4%nat, 2%nat => w7_42 | 4%nat, 3%nat => w7_43 | 4%nat, 5%nat => w7_45 | 4%nat, 6%nat => w7_46
  | _, _ => 0
  end.
(** d07hre.f:112-123 *)
Definition g7 (j : nat) : list R :=
  match j with
  | 6%nat => repeat (sqrt lam0) ndim
  | 5%nat => gens ndim [sqrt lam1; sqrt lam1]
  | 2%nat => gens ndim [sqrt lam2]
  | 3%nat => gens ndim [sqrt lam1]
  | 4%nat => gens ndim [sqrt lamp7]
  | _ => gens ndim []
  end.
Definition d07hre : table := Table 6 (finish_w 6 twondm pts7 raw7) g7 pts7 errcof.
End D07.

(** D09HRE *)
Section D09.
Variable ndim : nat.
Let nd := nd ndim.
Let tw := twondm ndim.
(** d09hre.f:79-82 *)
Definition ratio9 : R := ratio * (1 - lam2 / lam0) / 3.
Definition lam3 : R := (7 - 9 * (lam2 + lam1) + 63 * lam2 * lam1 / 5 - 63 * ratio9) / (9 - 63 * (lam2 + lam1) / 5 + 21 * lam2 * lam1 - 63 * ratio9 / lam0).
Definition lamp9 : R := 1 / 16.
(** dchhre.f:185-186 *)
Definition len9 : nat := if Nat.eqb ndim 2 then 8 else 9.
(** d09hre.f:64-71.  The quotient is an integer *)
Definition pts9 (j : nat) : R :=
  if Nat.eqb j len9 then tw
  else match j with
  | 1%nat => 1
  | 6%nat => 2 * nd * (nd - 1)
  | 7%nat => 4 * nd * (nd - 1)
  | 8%nat => 4 * nd * (nd - 1) * (nd - 2) / 3
  | _ => 2 * nd
  end.
(** d09hre.f:86-155: the weights W(J,I); w9_j9 is W(J,WTLENG).  W(J,8) is used
    as a factor of NDIM - 2 in two dimensions too, where it is W(J,WTLENG). *)
Definition w9_19 : R := 1 / (3 * lam0) ^ 4 / tw.
Definition w9_18 : R := if Nat.ltb 2 ndim then (1 - 1 / (3 * lam0)) / (6 * lam1) ^ 3 else w9_19.
Definition w9_17 : R := (1 - 7 * (lam0 + lam1) / 5 + 7 * lam0 * lam1 / 3) / (84 * lam1 * lam2 * (lam2 - lam0) * (lam2 - lam1)).
Definition w9_16 : R := (1 - 7 * (lam0 + lam2) / 5 + 7 * lam0 * lam2 / 3) / (84 * lam1 * lam1 * (lam1 - lam0) * (lam1 - lam2)) - w9_17 * lam2 / lam1 - 2 * (nd - 2) * w9_18.
Definition w9_14 : R := (1 - 9 * ((lam0 + lam1 + lam2) / 7 - (lam0 * lam1 + lam0 * lam2 + lam1 * lam2) / 5) - 3 * lam0 * lam1 * lam2) / (18 * lam3 * (lam3 - lam0) * (lam3 - lam1) * (lam3 - lam2)).
Definition w9_13 : R := (1 - 9 * ((lam0 + lam1 + lam3) / 7 - (lam0 * lam1 + lam0 * lam3 + lam1 * lam3) / 5) - 3 * lam0 * lam1 * lam3) / (18 * lam2 * (lam2 - lam0) * (lam2 - lam1) * (lam2 - lam3)) - 2 * (nd - 1) * w9_17.
Definition w9_12 : R := (1 - 9 * ((lam0 + lam2 + lam3) / 7 - (lam0 * lam2 + lam0 * lam3 + lam2 * lam3) / 5) - 3 * lam0 * lam2 * lam3) / (18 * lam1 * (lam1 - lam0) * (lam1 - lam2) * (lam1 - lam3)) - 2 * (nd - 1) * (w9_17 + w9_16 + (nd - 2) * w9_18).
Definition w9_29 : R := 1 / (108 * lam0 ^ 4) / tw.
Definition w9_28 : R := if Nat.ltb 2 ndim then (1 - 27 * tw * w9_29 * lam0 ^ 3) / (6 * lam1) ^ 3 else w9_29.
Definition w9_27 : R := (1 - 5 * lam1 / 3 - 15 * tw * w9_29 * lam0 ^ 2 * (lam0 - lam1)) / (60 * lam1 * lam2 * (lam2 - lam1)).
Definition w9_26 : R := (1 - 9 * (8 * lam1 * lam2 * w9_27 + tw * w9_29 * lam0 ^ 2)) / (36 * lam1 * lam1) - 2 * w9_28 * (nd - 2).
Definition w9_24 : R := (1 - 7 * ((lam1 + lam2) / 5 - lam1 * lam2 / 3 + tw * w9_29 * lam0 * (lam0 - lam1) * (lam0 - lam2))) / (14 * lam3 * (lam3 - lam1) * (lam3 - lam2)).
Definition w9_23 : R := (1 - 7 * ((lam1 + lam3) / 5 - lam1 * lam3 / 3 + tw * w9_29 * lam0 * (lam0 - lam1) * (lam0 - lam3))) / (14 * lam2 * (lam2 - lam1) * (lam2 - lam3)) - 2 * (nd - 1) * w9_27.
Definition w9_22 : R := (1 - 7 * ((lam2 + lam3) / 5 - lam2 * lam3 / 3 + tw * w9_29 * lam0 * (lam0 - lam2) * (lam0 - lam3))) / (14 * lam1 * (lam1 - lam2) * (lam1 - lam3)) - 2 * (nd - 1) * (w9_27 + w9_26 + (nd - 2) * w9_28).
Definition w9_39 : R := 5 / (324 * lam0 ^ 4) / tw.
Definition w9_38 : R := if Nat.ltb 2 ndim then (1 - 27 * tw * w9_39 * lam0 ^ 3) / (6 * lam1) ^ 3 else w9_39.
Definition w9_37 : R := (1 - 5 * lam1 / 3 - 15 * tw * w9_39 * lam0 ^ 2 * (lam0 - lam1)) / (60 * lam1 * lam2 * (lam2 - lam1)).
Definition w9_36 : R := (1 - 9 * (8 * lam1 * lam2 * w9_37 + tw * w9_39 * lam0 ^ 2)) / (36 * lam1 * lam1) - 2 * w9_38 * (nd - 2).
Definition w9_35 : R := (1 - 7 * ((lam1 + lam2) / 5 - lam1 * lam2 / 3 + tw * w9_39 * lam0 * (lam0 - lam1) * (lam0 - lam2))) / (14 * lamp9 * (lamp9 - lam1) * (lamp9 - lam2)).
Definition w9_33 : R := (1 - 7 * ((lam1 + lamp9) / 5 - lam1 * lamp9 / 3 + tw * w9_39 * lam0 * (lam0 - lam1) * (lam0 - lamp9))) / (14 * lam2 * (lam2 - lam1) * (lam2 - lamp9)) - 2 * (nd - 1) * w9_37.
Definition w9_32 : R := (1 - 7 * ((lam2 + lamp9) / 5 - lam2 * lamp9 / 3 + tw * w9_39 * lam0 * (lam0 - lam2) * (lam0 - lamp9))) / (14 * lam1 * (lam1 - lam2) * (lam1 - lamp9)) - 2 * (nd - 1) * (w9_37 + w9_36 + (nd - 2) * w9_38).
Definition w9_49 : R := 2 / (81 * lam0 ^ 4) / tw.
Definition w9_48 : R := if Nat.ltb 2 ndim then (2 - 27 * tw * w9_49 * lam0 ^ 3) / (6 * lam1) ^ 3 else w9_49.
Definition w9_47 : R := (2 - 15 * lam1 / 9 - 15 * tw * w9_49 * lam0 * (lam0 - lam1)) / (60 * lam1 * lam2 * (lam2 - lam1)).
Definition w9_46 : R := (1 - 9 * (8 * lam1 * lam2 * w9_47 + tw * w9_49 * lam0 ^ 2)) / (36 * lam1 * lam1) - 2 * w9_48 * (nd - 2).
Definition w9_44 : R := (2 - 7 * ((lam1 + lam2) / 5 - lam1 * lam2 / 3 + tw * w9_49 * lam0 * (lam0 - lam1) * (lam0 - lam2))) / (14 * lam3 * (lam3 - lam1) * (lam3 - lam2)).
Definition w9_43 : R := (2 - 7 * ((lam1 + lam3) / 5 - lam1 * lam3 / 3 + tw * w9_49 * lam0 * (lam0 - lam1) * (lam0 - lam3))) / (14 * lam2 * (lam2 - lam1) * (lam2 - lam3)) - 2 * (nd - 1) * w9_47.
Definition w9_42 : R := (2 - 7 * ((lam2 + lam3) / 5 - lam2 * lam3 / 3 + tw * w9_49 * lam0 * (lam0 - lam2) * (lam0 - lam3))) / (14 * lam1 * (lam1 - lam2) * (lam1 - lam3)) - 2 * (nd - 1) * (w9_47 + w9_46 + (nd - 2) * w9_48).
Definition w9_52 : R := 1 / (6 * lam1).
Definition raw9 (j i : nat) : R :=
  if Nat.eqb i len9 then match j with 1%nat => w9_19 | 2%nat => w9_29 | 3%nat => w9_39 | 4%nat => w9_49 | _ => 0 end
  else match j, i with
  | 1%nat, 2%nat => w9_12 | 1%nat, 3%nat => w9_13 | 1%nat, 4%nat => w9_14 | 1%nat, 6%nat => w9_16 | 1%nat, 7%nat => w9_17 | 1%nat, 8%nat => w9_18
  | 2%nat, 2%nat => w9_22 | 2%nat, 3%nat => w9_23 | 2%nat, 4%nat => w9_24 | 2%nat, 6%nat => w9_26 | 2%nat, 7%nat => w9_27 | 2%nat, 8%nat => w9_28
  | 3%nat, 2%nat => w9_32 | 3%nat, 3%nat => w9_33 | 3%nat, 5%nat => w9_35 | 3%nat, 6%nat => w9_36 | 3%nat, 7%nat => w9_37 | 3%nat, 8%nat => w9_38
  | 4%nat, 2%nat => w9_42 | 4%nat, 3%nat => w9_43 | 4%nat, 4%nat => w9_44 | 4%nat, 6%nat => w9_46 | 4%nat, 7%nat => w9_47 | 4%nat, 8%nat => w9_48
  | 5%nat, 2%nat => w9_52
  | _, _ => 0
  end.
(** d09hre.f:159-179 *)
Definition g9 (j : nat) : list R :=
  if Nat.eqb j len9 then repeat (sqrt lam0) ndim
  else match j with
  | 8%nat => gens ndim [sqrt lam1; sqrt lam1; sqrt lam1]
  | 7%nat => gens ndim [sqrt lam1; sqrt lam2]
  | 6%nat => gens ndim [sqrt lam1; sqrt lam1]
  | 5%nat => gens ndim [sqrt lamp9]
  | 4%nat => gens ndim [sqrt lam3]
  | 3%nat => gens ndim [sqrt lam2]
  | 2%nat => gens ndim [sqrt lam1]
  | _ => gens ndim []
  end.
Definition d09hre : table := Table len9 (finish_w len9 tw pts9 raw9) g9 pts9 errcof.
End D09.

(** The literals of DcTables.v *)
Definition absc (l : list Z) (i : nat) : R := IZR (nth (i - 1) l 0%Z) / 10 ^ 16.
Definition wts (l : list Z) (i : nat) : R := IZR (nth (i - 1) l 0%Z) / 10 ^ 21.

(** D132RE *)
Section D132.
(** d132re.f:116-119 *)
Definition w132 (j : nat) : nat -> R :=
  match j with 1%nat => wts dim2w_1 | 2%nat => wts dim2w_2 | 3%nat => wts dim2w_3 | 4%nat => wts dim2w_4 | 5%nat => wts dim2w_5 | _ => fun _ => 0 end.
(** d132re.f:123-147 *)
Definition g132 (j : nat) : list R :=
  let d := absc dim2g in
  match j with
  | 2%nat => [d 1%nat; 0] | 3%nat => [d 2%nat; 0] | 4%nat => [d 3%nat; 0] | 5%nat => [d 4%nat; 0] | 6%nat => [d 5%nat; 0]
  | 7%nat => [d 6%nat; d 6%nat] | 8%nat => [d 7%nat; d 7%nat] | 9%nat => [d 8%nat; d 8%nat] | 10%nat => [d 9%nat; d 9%nat] | 11%nat => [d 10%nat; d 10%nat]
  | 12%nat => [d 11%nat; d 12%nat] | 13%nat => [d 13%nat; d 14%nat] | 14%nat => [d 15%nat; d 16%nat]
  | _ => [0; 0]
  end.
(** d132re.f:151-157 *)
Definition pts132 (j : nat) : R := if Nat.eqb j 1 then 1 else if Nat.leb j 11 then 4 else 8.
(** d132re.f:161-166 *)
Definition ec132 (i : nat) : R := match i with 1%nat => 10 | 2%nat => 10 | 3%nat => 1 | 4%nat => 5 | 5%nat => 1 / 2 | _ => 1 / 4 end.
Definition d132re : table := Table 14 w132 g132 pts132 ec132.
End D132.

(** D113RE *)
Section D113.
(** d113re.f:115-118 *)
Definition w113 (j : nat) : nat -> R :=
  match j with 1%nat => wts dim3w_1 | 2%nat => wts dim3w_2 | 3%nat => wts dim3w_3 | 4%nat => wts dim3w_4 | 5%nat => wts dim3w_5 | _ => fun _ => 0 end.
(** d113re.f:122-149 *)
Definition g113 (j : nat) : list R :=
  let d := absc dim3g in
  match j with
  | 2%nat => [d 1%nat; 0; 0] | 3%nat => [d 2%nat; 0; 0] | 4%nat => [d 3%nat; 0; 0] | 5%nat => [d 4%nat; 0; 0] | 6%nat => [d 5%nat; 0; 0]
  | 7%nat => [d 6%nat; d 6%nat; 0] | 8%nat => [d 7%nat; d 7%nat; 0]
  | 9%nat => [d 8%nat; d 8%nat; d 8%nat] | 10%nat => [d 9%nat; d 9%nat; d 9%nat] | 11%nat => [d 10%nat; d 10%nat; d 10%nat]
  | 12%nat => [d 12%nat; d 11%nat; d 11%nat] | 13%nat => [d 13%nat; d 13%nat; d 14%nat]
  | _ => [0; 0; 0]
  end.
(** d113re.f:153-165 *)
Definition pts113 (j : nat) : R := if Nat.eqb j 1 then 1 else if Nat.leb j 6 then 6 else if Nat.leb j 8 then 12 else if Nat.leb j 11 then 8 else 24.
(** d113re.f:169-174 *)
Definition ec113 (i : nat) : R := match i with 1%nat => 4 | 2%nat => 4 | 3%nat => 1 / 2 | 4%nat => 3 | 5%nat => 1 / 2 | _ => 1 / 4 end.
Definition d113re : table := Table 13 w113 g113 pts113 ec113.
End D113.

(** DFSHRE, dfshre.f:69-115 *)
Section Dfshre.
Variable f : list R -> vec.
Variable ndim : nat.
Variables center hwidth : list R.
(** Lines 75-77 *)
Definition dfs_point (g : list R) : res (list R) :=
  iter (seq 1 ndim) (fun i x =>
    let! c := rd1 center i in
    let! gi := rd1 g i in
    let! h := rd1 hwidth i in
    wr1 x i (c + gi * h)) (repeat 0 ndim).
(** Lines 82-86; true: go to 40 *)
Fixpoint dfs_flip (is : list nat) (g x : list R) : res (bool * list R * list R) :=
  match is with
  | [] => Ok (false, g, x)
  | i :: is' =>
      let! gi := rd1 g i in
      let! g := wr1 g i (- gi) in
      let! c := rd1 center i in
      let! h := rd1 hwidth i in
      let! x := wr1 x i (c + (- gi) * h) in
      if Rltb (- gi) 0 then Ok (true, g, x) else dfs_flip is' g x
  end.
(** Lines 78-86 *)
Fixpoint dfs_signs (fuel : nat) (g x : list R) (fulsms : vec) : res (list R * vec) :=
  match fuel with
  | O => Err OutOfFuel
  | S fuel' =>
      let fulsms := fun j => fulsms j + f x j in
      let! r := dfs_flip (seq 1 ndim) g x in
      let '(again, g, x) := r in
      if (again : bool) then dfs_signs fuel' g x fulsms else Ok (g, fulsms)
  end.
(** Lines 93-101.  LXCHNG has no value at first *)
Definition dfs_turn (i : nat) (gi : R) (g : list R) : res (list R * nat * option nat) :=
  iter (seq 1 ((i - 1) / 2)) (fun l st =>
    let '(g, ixchng, lxchng) := (st : list R * nat * option nat) in
    let! gl := rd1 g l in
    let! b := rd1 g (i - l) in
    let! g := wr1 g l b in
    let! g := wr1 g (i - l) gl in
    let ixchng := if Rleb gl gi then (ixchng - 1)%nat else ixchng in
    let lxchng := if Rltb gi b then Some l else lxchng in
    Ok (g, ixchng, lxchng)) (g, (i - 1)%nat, None).
(** Lines 91-107: the next permutation, None after the last one *)
Fixpoint dfs_next (g : list R) (is : list nat) : res (option (list R)) :=
  match is with
  | [] => Ok None
  | i :: is' =>
      let! a := rd1 g (i - 1) in
      let! gi := rd1 g i in
      if Rltb gi a then
        let! r := dfs_turn i gi g in
        let '(g, ixchng, lxchng) := r in
        let! b := rd1 g ixchng in
        let! ixchng := (if Rleb b gi then match lxchng with Some l => Ok l | None => Err BadMemory end else Ok ixchng) in
        let! b := rd1 g ixchng in
        let! g := wr1 g i b in
        let! g := wr1 g ixchng gi in
        Ok (Some g)
      else dfs_next g is'
  end.
Fixpoint dfs_perms (fuel : nat) (g : list R) (fulsms : vec) : res (list R * vec) :=
  match fuel with
  | O => Err OutOfFuel
  | S fuel' =>
      let! x := dfs_point g in
      let! r := dfs_signs (2 ^ ndim) g x fulsms in
      let (g, fulsms) := (r : list R * vec) in
      let! next := dfs_next g (seq 2 (ndim - 1)) in
      match next with
      | None => Ok (g, fulsms)
      | Some g => dfs_perms fuel' g fulsms
      end
  end.
(** Lines 111-115 *)
Definition dfs_back (g : list R) : res (list R) :=
  iter (seq 1 (ndim / 2)) (fun i g =>
    let! gi := rd1 g i in
    let! b := rd1 g (ndim - i + 1) in
    let! g := wr1 g i b in
    wr1 g (ndim - i + 1) gi) g.
(** FULSMS and G *)
Definition dfshre (g : list R) : res (vec * list R) :=
  let! r := dfs_perms (S ndim ^ ndim) g (fun _ => 0) in
  let! g := dfs_back (fst r) in
  Ok (snd r, g).
End Dfshre.

(** DINHRE, dinhre.f:90-106: SCALES and NORMS *)
Definition scales (t : table) (k i : nat) : R :=
  if Reqb (t_w t (k + 1)%nat i) 0 then 100 else - t_w t (k + 2)%nat i / t_w t (k + 1)%nat i.
Definition normsum (t : table) (k i : nat) : R :=
  fold_left (fun s j => s + t_pts t j * Rabs (t_w t (k + 2)%nat j + scales t k i * t_w t (k + 1)%nat j)) (seq 1 (t_len t)) 0.
Definition norms (ndim : nat) (t : table) (k i : nat) : R := twondm ndim / normsum t k i.
(** dinhre.f:78-107.  A division by zero would give values that are not finite. *)
Definition dinhre (ndim : nat) (keyf : Z) : res table :=
  let t := (if (keyf =? 1)%Z then d132re else if (keyf =? 2)%Z then d113re else if (keyf =? 3)%Z then d09hre ndim else d07hre ndim) in
  if existsb (fun k => existsb (fun i => Reqb (normsum t k i) 0) (seq 1 (t_len t))) (seq 1 3) then Err NotFinite
  else Ok t.

(** DRLHRE *)
Section Drlhre.
Variable f : list R -> vec.
Variables ndim numfun : nat.
Variable t : table.
Let w := t_w t.

Record axes := Axes { x_bas : vec; x_null : nat -> vec; x_difmax : R; x_divaxn : nat }.
(** drlhre.f:117-123: RGNVOL and the longest side *)
Definition drl_volume (hwidth : list R) : res (R * nat) :=
  iter (seq 1 ndim) (fun i st =>
    let! h := rd1 hwidth i in
    let! d := rd1 hwidth (snd st) in
    Ok (fst st * h, if Rltb d h then i else snd st)) (1, 1%nat).
(** drlhre.f:133-164; v is RGNERR *)
Definition drl_axes (center hwidth : list R) (g2 g3 : R) (v : vec) (st : axes) : res axes :=
  let ratio := (g3 / g2) ^ 2 in
  iter (seq 1 ndim) (fun i st =>
    let! c := rd1 center i in
    let! h := rd1 hwidth i in
    let! x := wr1 center i (c - h * g2) in
    let n5 := f x in
    let! x := wr1 center i (c + h * g2) in
    let n6 := f x in
    let! x := wr1 center i (c - h * g3) in
    let n7 := f x in
    let! x := wr1 center i (c + h * g3) in
    let n8 := f x in
    let frthdf := fun j => 2 * (1 - ratio) * v j - (n7 j + n8 j) + ratio * (n5 j + n6 j) in
    let difsum := fold_left (fun s j => if Reqb (v j + frthdf j / 4) (v j) then s else s + Rabs (frthdf j)) (seq 1 numfun) 0 in
    let null := fun k j => x_null st k j + w (k + 1)%nat 2%nat * (n5 j + n6 j) + w (k + 1)%nat 3%nat * (n7 j + n8 j) in
    let bas := fun j => x_bas st j + w 1%nat 2%nat * (n5 j + n6 j) + w 1%nat 3%nat * (n7 j + n8 j) in
    Ok (if Rltb (x_difmax st) difsum then Axes bas null difsum i else Axes bas null (x_difmax st) (x_divaxn st))) st.
(** drlhre.f:169-178 *)
Record sums := Sums { s_bas : vec; s_null : nat -> vec; s_g : nat -> list R }.
Definition drl_sums (center hwidth : list R) (st : sums) : res sums :=
  iter (seq 4 (t_len t - 3)) (fun i st =>
    let! r := dfshre f ndim center hwidth (s_g st i) in
    let (v, gi) := (r : vec * list R) in
    Ok (Sums (fun j => s_bas st j + w 1%nat i * v j) (fun k j => s_null st k j + w (k + 1)%nat i * v j)
             (fun c => if Nat.eqb c i then gi else s_g st c))) st.
(** drlhre.f:189-196 *)
Definition drl_search (null : nat -> vec) (j i : nat) : R :=
  fold_left (fun s k => Rmax s (Rabs (null (i + 1)%nat j + scales t i k * null i j) * norms ndim t i k)) (seq 1 (t_len t)) 0.
(** drlhre.f:197-203, without the volume *)
Definition drl_error (null : nat -> vec) (j : nat) : R :=
  let n1 := drl_search null j 1 in
  let n2 := drl_search null j 2 in
  let n3 := drl_search null j 3 in
  if Rleb (t_ec t 1 * n1) n2 && Rleb (t_ec t 2 * n2) n3 then t_ec t 3 * n1 else t_ec t 4 * Rmax (Rmax n1 n2) n3.
(** drlhre.f:117-205: BASVAL, RGNERR, DIRECT and G *)
Definition drlhre (center hwidth : list R) (g : nat -> list R) : res (vec * vec * nat * (nat -> list R)) :=
  let! vd := drl_volume hwidth in
  let v := f center in
  let! g2 := rd1 (g 2%nat) 1 in
  let! g3 := rd1 (g 3%nat) 1 in
  let! a := drl_axes center hwidth g2 g3 v (Axes (fun j => w 1%nat 1%nat * v j) (fun k j => w (k + 1)%nat 1%nat * v j) 0 (snd vd)) in
  let! s := drl_sums center hwidth (Sums (x_bas a) (x_null a) g) in
  Ok (fun j => fst vd * s_bas s j, fun j => fst vd * drl_error (s_null s) j, x_divaxn a, s_g s).
End Drlhre.

(** A column of the arrays for the regions *)
Record column := Column { c_val : vec; c_err : vec; c_great : R; c_axis : nat; c_cen : list R; c_hw : list R }.

(** DTRHRE with DVFLAG = 1, dtrhre.f:92-126: where the last region goes, and
    the others moved up *)
Fixpoint dtr_down (fuel sbrgns subrgn : nat) (r : column) (cs : list column) : res (nat * list column) :=
  match fuel with
  | O => Err OutOfFuel
  | S fuel' =>
      let subtmp := (2 * subrgn)%nat in
      if Nat.leb subtmp sbrgns then
        let! a := rd1 cs subtmp in
        let! subtmp :=
          (if Nat.eqb subtmp sbrgns then Ok subtmp
           else let! b := rd1 cs (subtmp + 1) in Ok (if Rltb (c_great a) (c_great b) then (subtmp + 1)%nat else subtmp)) in
        let! a := rd1 cs subtmp in
        if Rltb (c_great r) (c_great a) then
          let! cs := wr1 cs subrgn a in dtr_down fuel' sbrgns subtmp r cs
        else Ok (subrgn, cs)
      else Ok (subrgn, cs)
  end.
(** With DVFLAG = 2, dtrhre.f:127-155 *)
Fixpoint dtr_up (fuel subrgn : nat) (r : column) (cs : list column) : res (nat * list column) :=
  match fuel with
  | O => Err OutOfFuel
  | S fuel' =>
      let subtmp := (subrgn / 2)%nat in
      if Nat.leb 1 subtmp then
        let! a := rd1 cs subtmp in
        if Rltb (c_great a) (c_great r) then
          let! cs := wr1 cs subrgn a in dtr_up fuel' subtmp r cs
        else Ok (subrgn, cs)
      else Ok (subrgn, cs)
  end.
(** dtrhre.f:78-171 *)
Definition dtr_remove (sbrgns : nat) (cs : list column) : res (nat * list column) :=
  let! r := rd1 cs sbrgns in
  let sbrgns := (sbrgns - 1)%nat in
  let! p := dtr_down (S sbrgns) sbrgns 1 r cs in
  let! cs := (if Nat.ltb 0 sbrgns then wr1 (snd p) (fst p) r else Ok (snd p)) in
  Ok (sbrgns, cs).
Definition dtr_insert (sbrgns : nat) (cs : list column) : res (list column) :=
  let! r := rd1 cs sbrgns in
  let! p := dtr_up (S sbrgns) sbrgns r cs in
  if Nat.ltb 0 sbrgns then wr1 (snd p) (fst p) r else Ok (snd p).

(** DADHRE *)
Section Dadhre.
Variable f : list R -> vec.
Variables ndim numfun : nat.
Variable t : table.
Variable num : Z.

Record state := State { cols : list column; sbrgns : nat; result : vec; abserr : vec; neval : Z; gcols : nat -> list R }.

(** dadhre.f:348-355 for one region *)
Definition dad_rule (index : nat) (g : nat -> list R) (cs : list column) : res (list column * (nat -> list R)) :=
  let! c := rd1 cs index in
  let! r := drlhre f ndim numfun t (c_cen c) (c_hw c) g in
  let '(v, e, d, g) := r in
  let! cs := wr1 cs index (Column v e (c_great c) d (c_cen c) (c_hw c)) in
  Ok (cs, g).
(** dadhre.f:370-392 for a region with values v, estimated errors e, and those
    of the other half e' *)
Definition dad_error (oldres v v' e e' : vec) (j : nat) : R :=
  let est1 := Rabs (oldres j - (v j + v' j)) in
  let est2 := e j + e' j in
  (if Rltb 0 est2 then e j * (1 + t_ec t 5 * est1 / est2) else e j) + t_ec t 6 * est1.
Definition dad_greatest (e : vec) : R := fold_left (fun g j => if Rltb g (e j) then e j else g) (seq 1 numfun) 0.

(** dadhre.f:282-406, the lines between the tests *)
Definition dad_pass (st : state) : res state :=
  let pointr := (sbrgns st + 1)%nat in
  let! c := rd1 (cols st) 1 in
  let result1 := fun j => result st j - c_val c j in
  let abserr1 := fun j => abserr st j - c_err c j in
  let direct := c_axis c in
  let! h := rd1 (c_hw c) direct in
  let! hw := wr1 (c_hw c) direct (h / 2) in
  let! oldcen := rd1 (c_cen c) direct in
  let! low := wr1 (c_cen c) direct (oldcen - h / 2) in
  let! p := rd1 (cols st) pointr in
  let! cs := wr1 (cols st) pointr (Column (c_val p) (c_err p) (c_great p) direct low hw) in
  let oldres := c_val c in
  let! r := dtr_remove (sbrgns st) cs in
  let (sb, cs) := (r : nat * list column) in
  let! q := rd1 cs (pointr - 1) in
  let! high := wr1 low direct (oldcen + h / 2) in
  let! cs := wr1 cs (pointr - 1) (Column (c_val q) (c_err q) (c_great q) direct high hw) in
  let! r := dad_rule (sb + 1) (gcols st) cs in
  let (cs, g) := (r : list column * (nat -> list R)) in
  let! r := dad_rule (sb + 2) (gcols st) cs in
  let (cs, _) := (r : list column * (nat -> list R)) in
  let! a := rd1 cs (sb + 1) in
  let! b := rd1 cs (sb + 2) in
  let ea := dad_error oldres (c_val a) (c_val b) (c_err a) (c_err b) in
  let eb := dad_error oldres (c_val a) (c_val b) (c_err b) (c_err a) in
  let! cs := wr1 cs (sb + 1) (Column (c_val a) ea (dad_greatest ea) (c_axis a) (c_cen a) (c_hw a)) in
  let! cs := wr1 cs (sb + 2) (Column (c_val b) eb (dad_greatest eb) (c_axis b) (c_cen b) (c_hw b)) in
  let! cs := dtr_insert (sb + 1) cs in
  let! cs := dtr_insert (sb + 2) cs in
  Ok (State cs (sb + 2) (fun j => result1 j + c_val a j + c_val b j) (fun j => abserr1 j + ea j + eb j) (neval st + 2 * num) g).

(** dadhre.f:275-427: IFAIL and the state *)
Fixpoint dad_loop (fuel : nat) (minsub maxsub : Z) (epsabs epsrel : R) (st : state) : res (Z * state) :=
  match fuel with
  | O => Err OutOfFuel
  | S fuel' =>
      if (Z.of_nat (sbrgns st) + 1 <=? maxsub)%Z then
        let! st := dad_pass st in
        if (Z.of_nat (sbrgns st) <? minsub)%Z then dad_loop fuel' minsub maxsub epsabs epsrel st
        else if existsb (fun j => Rltb (epsrel * Rabs (result st j)) (abserr st j) && Rltb epsabs (abserr st j)) (seq 1 numfun)
        then dad_loop fuel' minsub maxsub epsabs epsrel st
        else Ok (0%Z, st)
      else Ok (1%Z, st)
  end.

(** dadhre.f:213-218 *)
Definition intsgn (a b : list R) : R := fold_left (fun s ab => if Rltb (snd ab) (fst ab) then - s else s) (combine a b) 1.

(** What DADHRE returns *)
Record output := Output { o_result : vec; o_abserr : vec; o_neval : Z; o_nsub : nat; o_ifail : Z; o_cols : list column }.
(** dadhre.f:213-448.  junk: the columns before they have values *)
Definition dadhre (a b : list R) (minsub maxsub : Z) (epsabs epsrel : R) (junk : column) : res output :=
  let cen := map (fun ab => (fst ab + snd ab) / 2) (combine a b) in
  let hw := map (fun ab => Rabs (snd ab - fst ab) / 2) (combine a b) in
  let! cs := wr1 (repeat junk (Z.to_nat maxsub)) 1 (Column (c_val junk) (c_err junk) (c_great junk) (c_axis junk) cen hw) in
  let! r := dad_rule 1 (t_g t) cs in
  let (cs, g) := (r : list column * (nat -> list R)) in
  let! c := rd1 cs 1 in
  let! cs := dtr_insert 1 cs in
  let! r := dad_loop (Z.to_nat maxsub) minsub maxsub epsabs epsrel (State cs 1 (fun j => 0 + c_val c j) (fun j => 0 + c_err c j) num g) in
  let (ifail, st) := (r : Z * state) in
  let! cs := iter (seq 1 (sbrgns st)) (fun i s => let! c := rd1 (cols st) i in Ok (fun j => fst s j + c_val c j, fun j => snd s j + c_err c j)) ((fun _ => 0) : vec, (fun _ => 0) : vec) in
  Ok (Output (fun j => fst cs j * intsgn a b) (snd cs) (neval st) (sbrgns st) ifail (cols st)).
End Dadhre.

(** dcuhre_py.f:388-431 with dchhre.f.  The columns have the room that NW gives
    them.  What is not set is as before: RESULT comes in, ABSERR and NEVAL are
    zeros from f2py.  The result: RESULT, ABSERR, NEVAL and IFAIL. *)
Definition keyf_of (ndim key : Z) : Z := if (key =? 0)%Z then (if (ndim =? 2)%Z then 1 else if (ndim =? 3)%Z then 2 else 3)%Z else key.
(** dchhre.f:194 and 198-202 *)
Definition maxsub_of (num maxpts : Z) : Z := (Z.quot (maxpts - num) (2 * num) + 1)%Z.
Definition minsub_of (num minpts : Z) : Z :=
  let m := (Z.quot (minpts - num) (2 * num) + 1)%Z in
  Z.max 2 (if (Z.rem (minpts - num) (2 * num) =? 0)%Z then m else m + 1)%Z.
Definition dcuhre (f : list R -> vec) (numfun : nat) (a b : list R) (minpts maxpts : Z) (epsabs epsrel : R) (key nw restar : Z) (junk : column) (result : vec) : res (vec * vec * Z * Z) :=
  let ndim := length a in
  let (ifail, num) := dchhre (Z.of_nat ndim) (Z.of_nat numfun) a b minpts maxpts epsabs epsrel key nw restar in
  if negb (ifail =? 0)%Z then Ok (result, fun _ => 0, 0%Z, ifail)
  else if (restar =? 1)%Z then Err NotImplementedError
  else
    let! t := dinhre ndim (keyf_of (Z.of_nat ndim) key) in
    let! o := dadhre f ndim numfun t num a b (minsub_of num minpts) (maxsub_of num maxpts) epsabs epsrel junk in
    Ok (o_result o, o_abserr o, o_neval o, o_ifail o).
