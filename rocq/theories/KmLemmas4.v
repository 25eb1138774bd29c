(** Mean and variance of PLEST1 *)

From Coq Require Import List Bool Arith ZArith Reals Lra Lia Permutation.
From Verif Require Import Exn Instances McModel BaModel KmModel KmSpec KmLemmas KmLemmas2 KmLemmas3.
Import ListNotations.
Open Scope R_scope.

Section Var.
Variables found limits : list R.
Variables u c : mem.
Variables nu nc : nat.
Hypothesis Hnu : (1 <= nu)%nat.
Hypothesis Hev : Permutation (events found limits) (map u (seq 1 nu)).
Hypothesis Hdat : Permutation (data found limits) (map u (seq 1 nu) ++ map c (seq 1 nc)).
Hypothesis Hu : incr u nu.
Hypothesis Hc : incr c nc.
Hypothesis Hlast : forall k, (1 <= k <= nc)%nat -> c k < u nu.
Variable s : mem.
Hypothesis Hs : forall i, (1 <= i <= nu)%nat -> s i = Q u c nu nc i.
Variable w : nat.
Hypothesis Hw : (nu < w)%nat.
Hypothesis Hwu : u nu < u w.
Hypothesis Hone : nu = 1%nat -> u 2%nat <> u 1%nat.

Let pts := points found limits.
Let QQ := Q u c nu nc.
Let Q0 : QQ nu = 0 := Q_last u c nu nc Hnu Hlast.
Let st := steps u c nu nc.

Lemma mean_eq : u 1%nat + st 1 nu = mean found limits.
Proof.
  assert (A : forall m, (1 <= m <= nu)%nat -> psum u c nu nc (fun x => x) m = u 1%nat + st 1 m - u m * QQ m).
  { induction m as [|m IH]; intros Hm; [lia|]. rewrite psum_S. fold QQ. destruct (Nat.eq_dec m 0) as [->|N].
    - unfold st. rewrite steps_0. unfold psum. cbn [seq map]. unfold total. cbn [fold_right]. change (QQ 0%nat) with 1. lra.
    - rewrite IH by lia. unfold st. rewrite steps_S by lia. fold QQ. lra. }
  unfold mean. rewrite <- (psum_all found limits u c nu nc Hnu Hev Hdat Hu (fun x => x)). rewrite A by lia. rewrite Q0. lra.
Qed.
Lemma excess_eq i : (1 <= i <= nu)%nat -> excess found limits (u i) = st i nu.
Proof.
  intros Hi. unfold excess. rewrite <- (psum_all found limits u c nu nc Hnu Hev Hdat Hu (fun x => Rmax (x - u i) 0)).
  assert (Z : forall m, (m <= i)%nat -> psum u c nu nc (fun x => Rmax (x - u i) 0) m = 0).
  { induction m as [|m IH]; intros Hm; [easy|]. rewrite psum_S, IH by lia. rewrite Rmax_right; [lra|].
    assert (X := Hu (S m) i ltac:(lia) ltac:(lia)). lra. }
  assert (A : forall m, (i <= m <= nu)%nat -> psum u c nu nc (fun x => Rmax (x - u i) 0) m = st i m - (u m - u i) * QQ m).
  { induction m as [|m IH]; intros Hm; [lia|]. destruct (Nat.eq_dec i (S m)) as [E|N].
    - rewrite Z by lia. unfold st. rewrite <- E, steps_0. lra.
    - rewrite psum_S, IH by lia. fold QQ. unfold st. rewrite steps_S by lia. fold QQ.
      rewrite Rmax_left; [lra|]. assert (X := Hu i (S m) ltac:(lia) ltac:(lia)). lra. }
  rewrite A by lia. rewrite Q0. lra.
Qed.
Lemma excess_last i : (1 <= i <= nu)%nat -> u i = u nu -> excess found limits (u i) = 0.
Proof. intros Hi E. rewrite E, excess_eq by lia. apply steps_0. Qed.

Let T x := excess found limits x ^ 2 * dead found limits x / (at_risk found limits x * (at_risk found limits x - dead found limits x)).
Lemma T_last i : (1 <= i <= nu)%nat -> u i = u nu -> T (u i) = 0.
Proof. intros Hi E. unfold T. rewrite excess_last by easy. unfold Rdiv. ring. Qed.

Lemma all_below i : (1 <= i <= nu)%nat -> u i = u nu ->
  total (map T (filter (fun x => Rlt_b x (u i)) pts)) = mean_var found limits.
Proof.
  intros Hi E. unfold mean_var. fold T. change (points found limits) with pts.
  assert (H : forall l, (forall x, In x l -> x <= u i) -> total (map T (filter (fun x => Rlt_b x (u i)) l)) = total (map T l)).
  { induction l as [|x l IH]; intros H; [easy|]. cbn [filter map]. unfold Rlt_b at 1. destruct (Rlt_dec x (u i)) as [L|L].
    - cbn [map]. unfold total in *. cbn [fold_right]. rewrite IH; [easy|]. intros y Hy. apply H. now right.
    - assert (X := H x (or_introl eq_refl)). replace x with (u i) by lra. rewrite IH by (intros y Hy; apply H; now right).
      unfold total. cbn [fold_right]. rewrite (T_last i Hi E). lra. }
  apply H. intros x Hx. apply (pts_in found limits u nu Hnu Hev) in Hx. destruct Hx as [k [Hk <-]]. rewrite E. apply Hu; lia.
Qed.

Lemma var_ok : forall fuel j var, (w + 2 <= fuel + j)%nat -> (2 <= j)%nat -> ((j <= nu)%nat \/ nu = 1%nat /\ j = 2%nat) ->
  (j = 2%nat \/ u (j - 2)%nat < u (j - 1)%nat) ->
  var = total (map T (filter (fun x => Rlt_b x (u (j - 1)%nat)) pts)) ->
  pl_var fuel u s (pl_ranks u c nu nc) nu (INR (nu + nc)) j var = Ok (mean_var found limits).
Proof.
  induction fuel as [|fuel IH]; intros j var Hf Hj Hjn Hfirst Hvar.
  { exfalso. destruct Hjn as [?|[? ?]]; lia. }
  assert (J1 : (1 <= j - 1 <= nu)%nat) by (destruct Hjn as [?|[? ?]]; lia).
  assert (LS : less u nu (u (j - 1)%nat) = (j - 2)%nat).
  { destruct (Nat.eq_dec j 2) as [->|J2]; [apply (less_first u nu Hnu Hu)|]. destruct Hfirst as [?|F]; [easy|].
    replace (j - 1)%nat with (j - 2 + 1)%nat in * by lia. apply (less_step u nu Hnu Hu); [lia | easy]. }
  cbn [pl_var]. cbv zeta.
  assert (AR : exists a, pl_area (S fuel) u s nu j 0 0 = Ok a /\ a = excess found limits (u (j - 1)%nat)).
  { destruct (le_lt_dec j nu) as [LE|GT].
    - exists (0 + st (j - 1) nu). split; [apply (area_in u c nu nc Hnu s Hs w Hw); lia|]. rewrite excess_eq by lia. lra.
    - destruct Hjn as [?|[N ->]]; [lia|].
      exists 0. split; [|symmetry; apply excess_last; [lia | now rewrite N]].
      rewrite (area_one u nu s fuel 0 N (Hone N)). f_equal. rewrite Hs by lia. fold QQ. rewrite <- N at 1. rewrite Q0. lra. }
  destruct AR as (a & -> & ->).
  destruct (tied_in u nu Hnu Hu w Hw Hwu (S fuel) j 1 ltac:(lia) Hj ltac:(lia) ltac:(lia) ltac:(lia)) as (kd & -> & K1 & K2 & K3).
  { intros i Hi _. f_equal. lia. }
  rewrite (ranks_ok u c nu nc Hnu Hu Hc (j - 1)%nat J1).
  set (x := u (j - 1)%nat) in *.
  assert (RK := risk_eq found limits u c nu nc Hnu Hdat x). rewrite LS in RK.
  assert (E1 : INR (nu + nc) - INR (j - 1 + cless c nc x) + 1 = at_risk found limits x).
  { rewrite (plus_INR (j - 1)). rewrite <- RK. rewrite !minus_INR by lia. simpl. lra. }
  replace (INR (nu + nc) - INR (j - 1 + cless c nc x) - INR kd + 1) with (at_risk found limits x - INR kd) by (rewrite <- E1; lra).
  rewrite E1.
  destruct (le_lt_dec (j - 1 + kd) nu) as [IN|OUT].
  - (* another group follows *)
    specialize (K3 IN).
    set (i := (j - 1 + kd - 1)%nat).
    assert (UI : u i = x) by (apply K2; unfold i; lia).
    assert (NX : (j - 1 + kd)%nat = (i + 1)%nat) by (unfold i; lia). rewrite NX in *.
    assert (LI : u i < u (i + 1)%nat) by now rewrite UI.
    assert (Hi : (1 <= i < nu)%nat) by lia.
    assert (DK : INR kd = dead found limits x).
    { assert (X := dead_eq found limits u nu Hnu Hev x). rewrite LS in X.
      rewrite <- UI in X. rewrite (lesseq_final u nu Hnu Hu i) in X by (try lia; now right). rewrite UI in X.
      replace i with (j - 2 + kd)%nat in X by lia. rewrite plus_INR in X. lra. }
    assert (RP : 1 <= at_risk found limits x - INR kd).
    { assert (X := left_two u c nu nc Hnu i Hi). rewrite (left_seen found limits u c nu nc Hnu Hdat i) in X.
      rewrite (seen_final found limits u nu Hnu Hev Hu i ltac:(lia) (or_intror LI)), UI in X. lra. }
    replace (Reqb (at_risk found limits x - INR kd) 0) with false by (unfold Reqb; destruct (Req_EM_T _ _); [lra | easy]).
    assert (V2 : var + excess found limits x * excess found limits x * INR kd / (at_risk found limits x * (at_risk found limits x - INR kd))
                 = total (map T (filter (fun y => Rlt_b y (u (i + 1)%nat)) pts))).
    { rewrite (below_sum T pts (u i) (u (i + 1)%nat) (pts_nodup found limits) (in_pts found limits u nu Hnu Hev i ltac:(lia)) LI
                (sep found limits u nu Hnu Hev Hu i Hi LI)).
      rewrite UI, <- Hvar, DK. unfold T. f_equal. unfold Rdiv. ring. }
    rewrite V2. destruct (Nat.leb_spec (j + kd) nu) as [LE|GT].
    + apply IH; [lia | lia | now left | |].
      * right. replace (j + kd - 2)%nat with i by lia. replace (j + kd - 1)%nat with (i + 1)%nat by lia. easy.
      * replace (j + kd - 1)%nat with (i + 1)%nat by lia. easy.
    + f_equal. apply all_below; [lia|]. f_equal. lia.
  - (* the last group *)
    assert (XL : x = u nu). { destruct (Nat.eq_dec (j - 1) nu) as [E|N]; [unfold x; now rewrite E|]. symmetry. apply K2; lia. }
    assert (VA : var = mean_var found limits) by (rewrite Hvar; now apply all_below).
    destruct (Reqb _ 0); [now rewrite VA|].
    replace (j + kd <=? nu)%nat with false by (symmetry; apply Nat.leb_gt; lia). f_equal.
    unfold x. rewrite (excess_last (j - 1) J1 XL), VA. unfold Rdiv. ring.
Qed.

Lemma plest_rest fuel : (w + 2 <= fuel)%nat ->
  pl_mean fuel u s nu 2 0 (u 1%nat) = Ok (mean found limits) /\
  pl_var fuel u s (pl_ranks u c nu nc) nu (INR (nu + nc)) 2 0 = Ok (mean_var found limits).
Proof.
  intros Hf. split.
  - rewrite <- mean_eq. apply (mean_ok u c nu nc Hnu Hu s Hs w Hw Hwu); try lia. intros j Hj _. f_equal. lia.
  - apply var_ok; [lia | lia | lia | now left|]. change (2 - 1)%nat with 1%nat.
    unfold pts. rewrite (first_none found limits u nu Hnu Hev Hu). easy.
Qed.
End Var.
