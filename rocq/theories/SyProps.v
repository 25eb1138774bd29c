(** Properties of adapt with the rules of ADAPT: theorems only. *)

From Coq Require Import List Bool Arith ZArith Reals Lra Lia.
From Coquelicot Require Import Coquelicot.
From Verif Require Import Exn Instances AdModel AdSpec SyModel SySpec SyLemmas10 SyLemmas12 SyLemmas13 SyCases.
Import ListNotations.
Open Scope R_scope.

(** C78: the rule of order o integrates exactly each polynomial in which no
    exponent is greater than 3 and in no term more than o - 1 exponents are
    greater than 1. *)
Theorem C78_rules_exact : forall f p c h o, length h = length c -> (1 <= length c <= 20)%nat -> (forall a, In a h -> 0 < a) -> (1 <= o <= 12)%nat ->
  (forall x, between (low_corner c h) (high_corner c h) x -> f x = Ok (poly p x)) -> tame (o - 1) (length c) p ->
  exists z, rule f c h o = Ok (integral (low_corner c h) (high_corner c h) (poly p), z).
Proof. exact rule_inside. Qed.
Print Assumptions C78_rules_exact.
Example C78_rules_exact_case : exists z, rule (fun x => Ok (poly p2 x)) [1; 1] [1; 1] 3 = Ok (44 / 3, z).
Proof.
  rewrite <- p2_integral. apply C78_rules_exact; try reflexivity; try (cbn; lia).
  - intros a [<-|[<-|[]]]; lra.
  - exact p2_tame.
Qed.

(** The rule of order 4, with those of lower orders, takes points n evaluations. *)
Theorem C78_rule_points : forall f F c h o, length h = length c -> (1 <= length c <= 20)%nat -> (forall a, In a h -> 0 < a) -> (1 <= o <= 4)%nat ->
  (forall x, between (low_corner c h) (high_corner c h) x -> f x = Ok (F x)) -> exists v, rule f c h o = Ok (v, points (length c)).
Proof. exact rule_points. Qed.
Print Assumptions C78_rule_points.
Example C78_rule_points_case : exists v, rule (fun x => Ok (exp (nth 0 x 0))) [1; 1] [1; 1] 4 = Ok (v, 17%Z).
Proof.
  apply (C78_rule_points _ (fun x => exp (nth 0 x 0)) [1; 1] [1; 1] 4); try reflexivity; try (cbn; lia). intros a [<-|[<-|[]]]; lra.
Qed.

(** In 2 to 19 dimensions adapt returns the integral of such a polynomial, with
    the error estimate 0, unless the integral is 0. *)
Theorem C78_polynomials : forall f p lower upper, (forall x, between lower upper x -> f x = Ok (poly p x)) -> List.Forall2 Rlt lower upper ->
  forall relacc maxfac wrkfac, tame 1 (length lower) p -> (2 <= length lower <= 19)%nat -> integral lower upper (poly p) <> 0 -> 0 < relacc ->
  exists j, (1 <= j <= 50)%nat /\ let npts := ((2 * Z.of_nat j - 1) * (points (length lower) + 4 * Z.of_nat (length lower)))%Z in
    (rulcls (length lower) <= npts)%Z /\ adapt f (rule f) lower upper relacc maxfac wrkfac = Ok (Some (integral lower upper (poly p), 0, npts)).
Proof. exact inside_ok. Qed.
Print Assumptions C78_polynomials.
Example C78_polynomials_case : exists npts, adapt (fun x => Ok (poly (pone 15) x)) (rule (fun x => Ok (poly (pone 15) x))) (repeat 0 15) (repeat 1 15) (1 / 100) 100 1 = Ok (Some (1, 0, npts)).
Proof.
  destruct (C78_polynomials (fun x => Ok (poly (pone 15) x)) (pone 15) (repeat 0 15) (repeat 1 15) ltac:(reflexivity) (cube 15) (1 / 100) 100 1) as (j & _ & _ & E).
  - apply cubic_tame. apply pone_cubic.
  - cbn. lia.
  - rewrite pone_integral. lra.
  - lra.
  - rewrite pone_integral in E. eexists. exact E.
Qed.
(** Up to 9 dimensions it takes one application of the rule. *)
Theorem C78_cubics : forall f p lower upper, (forall x, between lower upper x -> f x = Ok (poly p x)) -> List.Forall2 Rlt lower upper ->
  forall relacc maxfac wrkfac, of_degree 3 (length lower) p -> (2 <= length lower <= 9)%nat -> integral lower upper (poly p) <> 0 -> 0 < relacc ->
  adapt f (rule f) lower upper relacc maxfac wrkfac = Ok (Some (integral lower upper (poly p), 0, (points (length lower) + 4 * Z.of_nat (length lower))%Z)).
Proof. intros f p lower upper F O relacc maxfac wrkfac D. apply (inside_low f p lower upper F O relacc maxfac wrkfac (cubic_tame _ _ D)). Qed.
Print Assumptions C78_cubics.
Example C78_cubics_case : adapt f3 (rule f3) lower3 upper3 (1 / 1000) 100 1 = Ok (Some (40 / 3, 0, 51%Z)).
Proof.
  assert (E := C78_cubics f3 p3 lower3 upper3 f3_inside order3 (1 / 1000) 100 1 p3_cubic). rewrite p3_integral in E. apply E; [cbn; lia|lra|lra].
Qed.

(** C79: that adapt integrates constants in all dimensions it accepts is false:
    in 20 dimensions it raises RuntimeError. *)
Theorem C79_constants_refuted : exists f lower upper relacc, (forall x, f x = Ok 1) /\ length lower = 20%nat /\ List.Forall2 Rlt lower upper /\ 0 < relacc /\
  forall maxfac wrkfac, adapt f (rule f) lower upper relacc maxfac wrkfac = Err RuntimeError.
Proof.
  exists (fun _ => Ok 1), (repeat 0 20), (repeat 1 20), (1 / 2). split; [reflexivity|]. split; [reflexivity|]. split; [apply cube|]. split; [lra|]. intros maxfac wrkfac.
  apply (inside_20 _ (pone 20) (repeat 0 20) (repeat 1 20)); [|apply cube|apply cubic_tame, pone_cubic|reflexivity].
  intros x [H _]. rewrite pone_is; [reflexivity|]. exact (f2_len _ _ H).
Qed.
Print Assumptions C79_constants_refuted.
Theorem C79_twenty_dimensions : forall f p lower upper, (forall x, between lower upper x -> f x = Ok (poly p x)) -> List.Forall2 Rlt lower upper ->
  forall relacc maxfac wrkfac, tame 1 (length lower) p -> length lower = 20%nat -> adapt f (rule f) lower upper relacc maxfac wrkfac = Err RuntimeError.
Proof. exact inside_20. Qed.
Print Assumptions C79_twenty_dimensions.
Example C79_twenty_dimensions_case : adapt (fun x => Ok (poly (pone 20) x)) (rule (fun x => Ok (poly (pone 20) x))) (repeat 0 20) (repeat 1 20) 10 100 1 = Err RuntimeError.
Proof. apply (C79_twenty_dimensions _ (pone 20)); [reflexivity|apply cube|apply cubic_tame, pone_cubic|reflexivity]. Qed.

(** C80: that adapt finds the integral of each polynomial of degree 1 in two
    dimensions is false: when the integral is zero it raises RuntimeError, for
    any tolerance up to 1. *)
Theorem C80_zero_refuted : exists f p lower upper relacc, (forall x, f x = Ok (poly p x)) /\ of_degree 1 2 p /\ List.Forall2 Rlt lower upper /\ length lower = 2%nat /\ 0 < relacc /\
  forall maxfac wrkfac, adapt f (rule f) lower upper relacc maxfac wrkfac = Err RuntimeError.
Proof.
  exists (fun x => Ok (poly px x)), px, [-1; 0], [1; 1], 1. split; [reflexivity|]. split; [intros c ks [E|[]]; injection E as <- <-; (split; [reflexivity|cbn; lia])|]. split; [exact orderx|]. split; [reflexivity|]. split; [lra|].
  intros maxfac wrkfac. apply (inside_zero _ px); [reflexivity|exact orderx|apply cubic_tame, px_cubic|cbn; lia|exact px_integral|lra].
Qed.
Print Assumptions C80_zero_refuted.
Theorem C80_zero_integrals : forall f p lower upper, (forall x, between lower upper x -> f x = Ok (poly p x)) -> List.Forall2 Rlt lower upper ->
  forall relacc maxfac wrkfac, tame 1 (length lower) p -> (2 <= length lower <= 20)%nat -> integral lower upper (poly p) = 0 -> relacc <= 1 ->
  adapt f (rule f) lower upper relacc maxfac wrkfac = Err RuntimeError.
Proof. exact inside_zero. Qed.
Print Assumptions C80_zero_integrals.
Example C80_zero_integrals_case : adapt (fun x => Ok (poly px x)) (rule (fun x => Ok (poly px x))) [-1; 0] [1; 1] (1 / 10) 100 1 = Err RuntimeError.
Proof. apply (C80_zero_integrals _ px); [reflexivity|exact orderx|apply cubic_tame, px_cubic|cbn; lia|exact px_integral|lra]. Qed.

(** C81: the integrand is only evaluated strictly between the limits: whatever
    it does elsewhere, the outcome is the same. *)
Theorem C81_inside_only : forall f g lower upper relacc maxfac wrkfac, List.Forall2 Rlt lower upper ->
  (forall x, between lower upper x -> f x = g x) ->
  adapt f (rule f) lower upper relacc maxfac wrkfac = adapt g (rule g) lower upper relacc maxfac wrkfac.
Proof. exact adapt_agree. Qed.
Print Assumptions C81_inside_only.
Example C81_inside_only_case : adapt f3 (rule f3) lower3 upper3 (1 / 10) 100 1 = adapt (fun x => Ok (poly p3 x)) (rule (fun x => Ok (poly p3 x))) lower3 upper3 (1 / 10) 100 1.
Proof. apply C81_inside_only; [exact order3|exact f3_inside]. Qed.
