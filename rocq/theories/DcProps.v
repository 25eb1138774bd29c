(** Properties of dcuhre: theorems only. *)

From Coq Require Import List Bool Arith ZArith Reals Permutation Lra Lia FunctionalExtensionality.
From Verif Require Import Exn Instances AdSpec SySpec DcModel DcSpec DcLemmas12 DcScale3 DcCases.
Import ListNotations.
Open Scope R_scope.

(** C84: the values that dcuhre returns are the sums over boxes that come from
    the whole one by halving a worst one again and again, with one good rule
    for all of them.  It stops when the accuracy is reached after minpts
    evaluations, or else when two boxes more would take more than maxpts. *)
Theorem C84_outcome : forall f numfun n key, (2 <= n)%nat -> key_ok n key -> exists rule, good_rule f n numfun key rule /\
  forall a b minpts maxpts epsabs epsrel nw junk result, length a = n -> acceptable numfun a b minpts maxpts epsabs epsrel key nw ->
  exists v e neval ifail rs, dcuhre f numfun a b minpts maxpts epsabs epsrel key nw 0 junk result = Ok (v, e, neval, ifail) /\
    pieces numfun rule (centre_of a b) (half_between a b) rs /\
    (forall j, v j = orientation a b * sum_of (fun r => p_val r j) rs) /\ (forall j, e j = sum_of (fun r => p_err r j) rs) /\
    neval = (rule_cost n key * (2 * Z.of_nat (length rs) - 1))%Z /\ (2 <= length rs)%nat /\ (neval <= maxpts)%Z /\
    ((ifail = 0%Z /\ (minpts <= neval)%Z /\ forall j, (1 <= j <= numfun)%nat -> accurate epsabs epsrel (v j) (e j)) \/
     (ifail = 1%Z /\ (maxpts < neval + 2 * rule_cost n key)%Z /\ ((minpts <= neval)%Z -> ~ forall j, (1 <= j <= numfun)%nat -> accurate epsabs epsrel (v j) (e j)))).
Proof. exact outcome. Qed.
Print Assumptions C84_outcome.
Example C84_outcome_case : exists v e ifail, dcuhre both 2 [0; 2] [1; 0] 0 100 (1 / 10) 0 4 100 0 column0 (fun _ => 0) = Ok (v, e, 63%Z, ifail).
Proof.
  destruct (C84_outcome both 2 2 4 ltac:(lia) ltac:(unfold key_ok; auto)) as (rule & _ & H). destruct (H [0; 2] [1; 0] 0%Z 100%Z (1 / 10) 0 100%Z column0 (fun _ => 0) eq_refl (box_ok 0 ltac:(lia))) as (v & e & neval & ifail & rs & E & _ & _ & _ & N & L & M & _).
  exists v, e, ifail. rewrite E. change (rule_cost 2 4) with 21%Z in N. replace neval with 63%Z by lia. reflexivity.
Qed.

(** The default rule takes 65 values for each box of two dimensions. *)
Example C84_default_case : forall f, exists v e ifail, dcuhre f 1 [0; 0] [1; 1] 0 200 (1 / 10) 0 0 100 0 column0 (fun _ => 0) = Ok (v, e, 195%Z, ifail).
Proof.
  intros f. destruct (C84_outcome f 1 2 0 ltac:(lia) ltac:(unfold key_ok; auto)) as (rule & _ & H). destruct (H [0; 0] [1; 1] 0%Z 200%Z (1 / 10) 0 100%Z column0 (fun _ => 0) eq_refl square_ok) as (v & e & neval & ifail & rs & E & _ & _ & _ & N & L & M & _).
  exists v, e, ifail. rewrite E. change (rule_cost 2 0) with 65%Z in N. replace neval with 195%Z by lia. reflexivity.
Qed.

(** Other arguments are refused: nothing is evaluated and result is as it was. *)
Theorem C84_refused : forall f numfun a b minpts maxpts epsabs epsrel key nw junk result, length b = length a ->
  ~ acceptable numfun a b minpts maxpts epsabs epsrel key nw ->
  exists ifail, (2 <= ifail <= 12)%Z /\ dcuhre f numfun a b minpts maxpts epsabs epsrel key nw 0 junk result = Ok (result, fun _ => 0, 0%Z, ifail).
Proof. exact refused. Qed.
Print Assumptions C84_refused.
Example C84_refused_case : exists ifail, (2 <= ifail <= 12)%Z /\ dcuhre both 2 [0; 2] [1; 2] 0 100 (1 / 10) 0 4 100 0 column0 (fun _ => 5) = Ok (fun _ => 5, fun _ => 0, 0%Z, ifail).
Proof.
  apply C84_refused; [reflexivity|]. intros (_ & _ & H & _). inversion H as [|? ? ? ? _ H']. inversion H' as [|? ? ? ? N _]. now apply N.
Qed.

(** A rule for two dimensions is refused in three. *)
Example C84_wrong_rule_case : forall f, exists ifail, (2 <= ifail <= 12)%Z /\ dcuhre f 1 [0; 0; 0] [1; 1; 1] 0 1000 (1 / 10) 0 1 1000 0 column0 (fun _ => 5) = Ok (fun _ => 5, fun _ => 0, 0%Z, ifail).
Proof. intros f. apply C84_refused; [reflexivity|]. intros (_ & _ & _ & H & _). unfold key_ok in H. cbn in H. lia. Qed.

(** C85: integrals of polynomials of degree 7 (key 4) or 9 are exact, with the
    limits in any order, and the error estimates are zero if the degree is at
    most 3 or 5. *)
Theorem C85_polynomials : forall f numfun a b minpts maxpts epsabs epsrel key nw junk result j p, acceptable numfun a b minpts maxpts epsabs epsrel key nw -> (3 <= rule_used (length a) key)%Z ->
  (forall x, in_box (centre_of a b) (half_between a b) x -> f x j = poly p x) -> of_degree (rule_degree (length a) key) (length a) p ->
  exists v e neval ifail, dcuhre f numfun a b minpts maxpts epsabs epsrel key nw 0 junk result = Ok (v, e, neval, ifail) /\ v j = integral a b (poly p) /\ (of_degree (null_degree (length a) key) (length a) p -> e j = 0).
Proof. exact DcLemmas12.exact. Qed.
Print Assumptions C85_polynomials.
Example C85_polynomials_case : exists v e neval ifail, dcuhre both 2 [0; 2] [1; 0] 0 100 (1 / 10) 0 4 100 0 column0 (fun _ => 0) = Ok (v, e, neval, ifail) /\ v 1%nat = - 20 / 3 /\ e 1%nat = 0.
Proof.
  destruct (C85_polynomials both 2 [0; 2] [1; 0] 0 100 (1 / 10) 0 4 100 column0 (fun _ => 0) 1 cubic (box_ok 0 ltac:(lia)) ltac:(discriminate) ltac:(reflexivity) (more_degree 3 2 cubic cubic_degree 7 ltac:(lia))) as (v & e & neval & ifail & E & V & Z).
  exists v, e, neval, ifail. split; [exact E|]. split; [rewrite V; exact cubic_integral|]. apply Z. exact cubic_degree.
Qed.
Example C85_degree_9_case : exists v e neval ifail, dcuhre (fun x _ => poly ninth x) 1 [0; 0; 0] [1; 1; 1] 0 1000 (1 / 10) 0 3 1000 0 column0 (fun _ => 0) = Ok (v, e, neval, ifail) /\ v 1%nat = 1 / 50.
Proof.
  destruct (C85_polynomials (fun x _ => poly ninth x) 1 [0; 0; 0] [1; 1; 1] 0 1000 (1 / 10) 0 3 1000 column0 (fun _ => 0) 1 ninth nine_ok ltac:(discriminate) ltac:(reflexivity) ninth_degree) as (v & e & neval & ifail & E & V & _).
  exists v, e, neval, ifail. split; [exact E|rewrite V; exact ninth_integral].
Qed.

(** The rules of two and three dimensions alone, of degree 13 and 11, are
    tables of 16 to 17 figures: the integrals are exact up to a few units of the
    last, relative to the volume and the largest value the terms can take. *)
Theorem C85_nearly : forall f numfun a b minpts maxpts epsabs epsrel key nw junk result j p, acceptable numfun a b minpts maxpts epsabs epsrel key nw ->
  (forall x, in_box (centre_of a b) (half_between a b) x -> f x j = poly p x) ->
  exists v e neval ifail, dcuhre f numfun a b minpts maxpts epsabs epsrel key nw 0 junk result = Ok (v, e, neval, ifail) /\
    (of_degree (rule_degree (length a) key) (length a) p -> Rabs (v j - integral a b (poly p)) <= value_tol (length a) key * (volume a b * reach p a b)) /\
    (of_degree (null_degree (length a) key) (length a) p -> 0 <= e j <= error_tol (length a) key * (volume a b * reach p a b)).
Proof. exact near. Qed.
Print Assumptions C85_nearly.
Example C85_degree_13_case : exists v e neval ifail, dcuhre (fun x _ => poly thirteenth x) 1 [0; 0] [1; 1] 0 200 (1 / 10) 0 0 100 0 column0 (fun _ => 0) = Ok (v, e, neval, ifail) /\ Rabs (v 1%nat - 1 / 56) <= 2 / 10 ^ 16.
Proof.
  destruct (C85_nearly (fun x _ => poly thirteenth x) 1 [0; 0] [1; 1] 0 200 (1 / 10) 0 0 100 column0 (fun _ => 0) 1 thirteenth square_ok ltac:(reflexivity)) as (v & e & neval & ifail & E & V & _).
  exists v, e, neval, ifail. split; [exact E|]. specialize (V thirteenth_degree). rewrite thirteenth_integral, square_volume, square_reach in V. rewrite !Rmult_1_r in V. exact V.
Qed.

(** C86: that IFAIL is 0 when the accuracy is reached within maxpts evaluations
    is false: minpts = maxpts = 84 fails for a function that is zero, with
    results that are right and errors of zero. *)
Theorem C86_accurate_refuted : exists f numfun a b minpts maxpts epsabs epsrel key nw, acceptable numfun a b minpts maxpts epsabs epsrel key nw /\
  forall junk result, exists v e neval, dcuhre f numfun a b minpts maxpts epsabs epsrel key nw 0 junk result = Ok (v, e, neval, 1%Z) /\ (neval <= maxpts)%Z /\ forall j, (1 <= j <= numfun)%nat -> v j = 0 /\ e j = 0 /\ accurate epsabs epsrel (v j) (e j).
Proof. exact tight_witness. Qed.
Print Assumptions C86_accurate_refuted.
(** It fails whenever no odd multiple of the cost of the rule lies between
    minpts and maxpts. *)
Theorem C86_no_room : forall f numfun a b minpts maxpts epsabs epsrel key nw junk result, acceptable numfun a b minpts maxpts epsabs epsrel key nw ->
  (forall k, ~ (minpts <= rule_cost (length a) key * (2 * k - 1) <= maxpts)%Z) ->
  exists v e neval, dcuhre f numfun a b minpts maxpts epsabs epsrel key nw 0 junk result = Ok (v, e, neval, 1%Z).
Proof. exact no_room. Qed.
Print Assumptions C86_no_room.
Example C86_no_room_case : forall f, exists v e neval, dcuhre f 1 [0; 0] [1; 1] 84 84 (1 / 10) 0 4 100 0 column0 (fun _ => 0) = Ok (v, e, neval, 1%Z).
Proof. intros f. apply (C86_no_room f 1 [0; 0] [1; 1] 84 84 (1 / 10) 0 4 100 column0 (fun _ => 0) tight_ok). exact tight_no_room. Qed.
(** When one does, all goes well for polynomials of degree 3, 5 or 7, if epsabs
    is not below the figures of the tables. *)
Theorem C86_room : forall f numfun a b minpts maxpts epsabs epsrel key nw junk result k, acceptable numfun a b minpts maxpts epsabs epsrel key nw ->
  (forall j, (1 <= j <= numfun)%nat -> exists p, of_degree (null_degree (length a) key) (length a) p /\ error_tol (length a) key * (volume a b * reach p a b) <= epsabs /\ forall x, in_box (centre_of a b) (half_between a b) x -> f x j = poly p x) ->
  (minpts <= rule_cost (length a) key * (2 * k - 1) <= maxpts)%Z ->
  exists v e neval, dcuhre f numfun a b minpts maxpts epsabs epsrel key nw 0 junk result = Ok (v, e, neval, 0%Z).
Proof. exact enough. Qed.
Print Assumptions C86_room.
Example C86_room_case : exists v e neval, dcuhre both 2 [0; 2] [1; 0] 63 100 (1 / 10) 0 4 100 0 column0 (fun _ => 0) = Ok (v, e, neval, 0%Z).
Proof.
  apply (C86_room both 2 [0; 2] [1; 0] 63 100 (1 / 10) 0 4 100 column0 (fun _ => 0) 2 (box_ok 63 ltac:(lia))).
  - intros j Hj. assert (C : j = 1%nat \/ j = 2%nat) by lia. destruct C as [-> | ->]; [exists cubic; split; [exact cubic_degree|split; [|reflexivity]]|exists []; split; [intros a ks []|split; [|reflexivity]]]; (replace (error_tol (length [0; 2]) 4) with 0 by reflexivity; rewrite Rmult_0_l; lra).
  - change (rule_cost (length [0; 2]) 4) with 21%Z. lia.
Qed.

Example C86_default_case : exists v e neval, dcuhre (fun x _ => poly plain x) 1 [0; 0; 0] [1; 1; 1] 0 400 (1 / 10) 0 0 100 0 column0 (fun _ => 0) = Ok (v, e, neval, 0%Z).
Proof.
  apply (C86_room (fun x _ => poly plain x) 1 [0; 0; 0] [1; 1; 1] 0 400 (1 / 10) 0 0 100 column0 (fun _ => 0) 2 cube_ok).
  - intros j Hj. exists plain. split; [exact plain_degree|]. split; [|reflexivity]. rewrite plain_reach, cube_volume. replace (error_tol (length [0; 0; 0]) 0) with (4 / 10 ^ 15) by reflexivity. lra.
  - change (rule_cost (length [0; 0; 0]) 0) with 127%Z. lia.
Qed.

(** C87: the function is evaluated nowhere but in the box, boundary included. *)
Theorem C87_inside : forall f f' numfun a b minpts maxpts epsabs epsrel key nw restar junk result, length b = length a ->
  (forall x, in_box (centre_of a b) (half_between a b) x -> f' x = f x) ->
  dcuhre f' numfun a b minpts maxpts epsabs epsrel key nw restar junk result = dcuhre f numfun a b minpts maxpts epsabs epsrel key nw restar junk result.
Proof. exact DcLemmas11.inside_same. Qed.
Print Assumptions C87_inside.
Example C87_inside_case : dcuhre (fun x j => if Rlt_dec (comp 1 x) 2 then both x j else 17) 2 [0; 2] [1; 0] 0 100 (1 / 10) 0 4 100 0 column0 (fun _ => 0) = dcuhre both 2 [0; 2] [1; 0] 0 100 (1 / 10) 0 4 100 0 column0 (fun _ => 0).
Proof.
  apply C87_inside; [reflexivity|]. intros x [_ Hx]. specialize (Hx 1%nat ltac:(cbn; lia)). apply functional_extensionality. intros j. destruct (Rlt_dec (comp 1 x) 2) as [|N]; [reflexivity|]. exfalso.
  change (comp 1 (centre_of [0; 2] [1; 0])) with ((0 + 1) / 2) in Hx. change (comp 1 (half_between [0; 2] [1; 0])) with (Rabs (1 - 0) / 2) in Hx. rewrite (Rabs_right (1 - 0)) in Hx by lra. revert Hx. unfold Rabs. destruct (Rcase_abs _); lra.
Qed.
(** Exchanging the limits of one variable changes the sign of the results and
    nothing else. *)
Theorem C87_exchanged_limits : forall f numfun a b minpts maxpts epsabs epsrel key nw junk result i, acceptable numfun a b minpts maxpts epsabs epsrel key nw -> (1 <= i <= length a)%nat ->
  exists v e neval ifail, dcuhre f numfun a b minpts maxpts epsabs epsrel key nw 0 junk result = Ok (v, e, neval, ifail) /\
    dcuhre f numfun (exchanged i a b) (exchanged i b a) minpts maxpts epsabs epsrel key nw 0 junk result = Ok (fun j => - v j, e, neval, ifail).
Proof. exact reversed. Qed.
Print Assumptions C87_exchanged_limits.
Example C87_exchanged_limits_case : forall f, exists v e neval ifail, dcuhre f 2 [0; 2] [1; 0] 0 100 (1 / 10) 0 4 100 0 column0 (fun _ => 0) = Ok (v, e, neval, ifail) /\
  dcuhre f 2 [0; 0] [1; 2] 0 100 (1 / 10) 0 4 100 0 column0 (fun _ => 0) = Ok (fun j => - v j, e, neval, ifail).
Proof. intros f. exact (C87_exchanged_limits f 2 [0; 2] [1; 0] 0 100 (1 / 10) 0 4 100 column0 (fun _ => 0) 2 (box_ok 0 ltac:(lia)) ltac:(cbn; lia)). Qed.

(** C88: units do not matter.  With lengths s times as large, another origin,
    values k times as large and epsabs accordingly, the results and errors are
    those in the new units, from the same number of evaluations.  What memory
    holds before does not matter either. *)
Theorem C88_units : forall f f' numfun a b minpts maxpts epsabs epsrel key nw junk junk' result result' s k o, 0 < s -> k <> 0 -> acceptable numfun a b minpts maxpts epsabs epsrel key nw ->
  (forall x j, length x = length a -> f' (moved s o x) j = k * f x j) ->
  exists v e neval ifail v' e', dcuhre f numfun a b minpts maxpts epsabs epsrel key nw 0 junk result = Ok (v, e, neval, ifail) /\
    dcuhre f' numfun (moved s o a) (moved s o b) minpts maxpts (s ^ length a * Rabs k * epsabs) epsrel key nw 0 junk' result' = Ok (v', e', neval, ifail) /\
    (forall j, v' j = s ^ length a * k * v j) /\ forall j, e' j = s ^ length a * Rabs k * e j.
Proof. exact units. Qed.
Print Assumptions C88_units.
Example C88_units_case : forall f junk junk', exists v e neval ifail v' e', dcuhre f 2 [0; 2] [1; 0] 0 100 (1 / 10) 0 4 100 0 junk (fun _ => 0) = Ok (v, e, neval, ifail) /\
  dcuhre (fun x j => - 3 * f (moved (1 / 2) [- 1 / 2; - 1] x) j) 2 [1; 6] [3; 2] 0 100 (6 / 5) 0 4 100 0 junk' (fun _ => 0) = Ok (v', e', neval, ifail) /\
  (forall j, v' j = - 12 * v j) /\ forall j, e' j = 12 * e j.
Proof.
  intros f junk junk'. destruct (C88_units f (fun x j => - 3 * f (moved (1 / 2) [- 1 / 2; - 1] x) j) 2 [0; 2] [1; 0] 0 100 (1 / 10) 0 4 100 junk junk' (fun _ => 0) (fun _ => 0) 2 (- 3) [1; 2] ltac:(lra) ltac:(lra) (box_ok 0 ltac:(lia))) as (v & e & neval & ifail & v' & e' & E & E' & V & W).
  { intros [|x [|y [|z l]]] j L; try discriminate. f_equal. f_equal. unfold moved, comp. cbn [length seq map nth Nat.sub]. f_equal; [field|]. f_equal. field. }
  exists v, e, neval, ifail, v', e'. split; [exact E|]. rewrite Rabs_left in E', W by lra.
  replace (moved 2 [1; 2] [0; 2]) with [1; 6] in E' by (unfold moved, comp; cbn [length seq map nth Nat.sub]; f_equal; [|f_equal]; ring). replace (moved 2 [1; 2] [1; 0]) with [3; 2] in E' by (unfold moved, comp; cbn [length seq map nth Nat.sub]; f_equal; [|f_equal]; ring).
  replace (2 ^ length [0; 2] * - (-3) * (1 / 10)) with (6 / 5) in E' by (cbn [length pow]; field). split; [exact E'|]. split; intros j; [rewrite V|rewrite W]; cbn [length pow]; ring.
Qed.
Theorem C88_memory : forall f numfun a b minpts maxpts epsabs epsrel key nw junk junk' result result', acceptable numfun a b minpts maxpts epsabs epsrel key nw ->
  dcuhre f numfun a b minpts maxpts epsabs epsrel key nw 0 junk' result' = dcuhre f numfun a b minpts maxpts epsabs epsrel key nw 0 junk result.
Proof. exact memory. Qed.
Print Assumptions C88_memory.
Example C88_memory_case : forall f junk result, dcuhre f 2 [0; 2] [1; 0] 0 100 (1 / 10) 0 4 100 0 junk result = dcuhre f 2 [0; 2] [1; 0] 0 100 (1 / 10) 0 4 100 0 column0 (fun _ => 0).
Proof. intros f junk result. apply C88_memory. exact (box_ok 0 ltac:(lia)). Qed.
