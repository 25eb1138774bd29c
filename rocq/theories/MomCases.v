(** Cases for the theorems about moments and flatten. *)

From Coq Require Import ZArith List Bool Arith Reals Sorted Lra Lia.
From Verif Require Import Exn Instances RefModel RefSpec RefLemmas6 RefLemmas7 RefLemmas8 RefCases MomModel MomSpec MomLemmas MomLemmas2 MomLemmas3.
Import ListNotations.
Local Open Scope R_scope.

Definition flat (x : R) : R := 0.
Definition no_peaks : lml label := new_lml None None.

Lemma points3 : gpoints true 0 2 3 = [0; 1; 2].
Proof. unfold gpoints, spaced. change (Z.to_nat 3) with 3%nat. cbn [seq map]. repeat f_equal; rewrite <- INR_IZR_INZ; cbn [INR]; field. Qed.
Lemma basic_case : exists g g' m' g'' q, new_bgrid 0 2 3 true true = Ok g /\ stepfunc flat g no_peaks = (g', m', Ok tt) /\
  logtrapzd g' = Ok q /\ logtrapzd_mom (Some 2%Z) g' = (g'', Ok [q; 1; 3 / 2]).
Proof.
  destruct (basic_moments flat 0 2 3 true true no_peaks) as (g & E & H); try lia; try lra; try discriminate.
  destruct (H stepfunc (or_introl eq_refl)) as (g' & m' & g'' & q & m1 & m2 & E1 & E2 & _ & _ & E3 & _ & _ & HM & _). clear H.
  exists g, g', m', g'', q. split; [exact E|]. split; [exact E1|]. split; [exact E2|]. rewrite E3. rewrite points3 in HM.
  destruct HM as [A B]; [intros; unfold flat; lra|]. unfold flat in A, B. cbn [trapezoid] in A, B. rewrite exp_0 in A, B.
  replace m1 with 1 by lra. replace m2 with (3 / 2) by lra. reflexivity.
Qed.

Lemma refined_case : forall calls, exists s s1 s3 lq m2, new_grid 0 10 11 true None (Some 100000) 11 4 true = Ok s /\ firstpass flat s = (s1, Ok tt) /\
  grid_logtrapzd_mom (Some 2%Z) (refines calls s1) = (s3, Ok [lq; 5; m2]).
Proof.
  intros calls. destruct (refined_moments flat 0 10 11 None (Some 100000) 11 4 true calls) as (s & s1 & E & E1 & H); try lia; try lra; try discriminate.
  destruct (grid_sums flat 0 10 11 None (Some 100000) 11 4 true calls) as (s' & s1' & E' & E1' & G); try lia; try lra; try discriminate.
  assert (s' = s) by congruence. subst s'. assert (s1' = s1) by congruence. subst s1'. cbv zeta in H, G. destruct G as (S & Hd & La & _).
  destruct H as (s3 & lq & m1 & m2 & _ & _ & E3 & _ & _ & HM & _). exists s, s1, s3, lq, m2. split; [exact E|]. split; [exact E1|]. rewrite E3.
  destruct HM as [A _]; [intros; unfold flat; lra|]. set (xs := all_points true 10 (rl_il (G_ilist (refines calls s1)))) in *. destruct xs as [|a l]; [discriminate|]. cbn in Hd. injection Hd as ->.
  assert (trapezoid (fun x => exp (flat x)) (0 :: l) = 10) as T0.
  { rewrite (trap_exact _ (fun x => x) l 0 S); [rewrite La; lra| |].
    - clear. generalize 0. induction l as [|b l IH]; intros a; [exact I|]. split; [intros x _; unfold flat; rewrite exp_0; ring|apply IH].
    - intros x _. unfold flat. rewrite exp_0. apply derivable_pt_lim_id. }
  assert (trapezoid (fun x => x * exp (flat x)) (0 :: l) = 50) as T1.
  { rewrite (trap_exact _ (fun x => 1 / 2 * x ^ 2) l 0 S); [rewrite La; lra| |].
    - clear. generalize 0. induction l as [|b l IH]; intros a; [exact I|]. split; [intros x _; unfold flat; rewrite exp_0; ring|apply IH].
    - intros x _. unfold flat. rewrite exp_0. replace (x * 1) with (1 / 2 * (INR 2 * x ^ 1)) by (cbn [INR]; field).
      apply (derivable_pt_lim_scal (fun x => x ^ 2)). apply (derivable_pt_lim_pow x 2). }
  rewrite T0, T1 in A. replace m1 with 5 by lra. reflexivity.
Qed.

Lemma default_case : exists s s1 lq, new_grid 0 10 11 true None (Some 100000) 11 4 true = Ok s /\ firstpass flat s = (s1, Ok tt) /\
  grid_logtrapzd s1 = Ok lq /\ grid_logtrapzd_mom None s1 = (s1, Err AttributeError).
Proof.
  destruct (refined_moments flat 0 10 11 None (Some 100000) 11 4 true []) as (s & s1 & E & E1 & H); try lia; try lra; try discriminate.
  destruct H as (s3 & lq & m1 & m2 & L & _). exists s, s1, lq. split; [exact E|]. split; [exact E1|]. split; [exact L|reflexivity].
Qed.

(** flatten(1, (2, (3, 4), 5), 6) *)
Definition six : list item := [Num 1; Seq [Num 2; Seq [Num 3; Num 4]; Num 5]; Num 6].
Lemma six_nested : List.Forall nested six.
Proof. repeat (constructor; try discriminate). Qed.
