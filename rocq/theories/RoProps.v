(** Properties of romberg. *)

From Coq Require Import List Bool Arith Reals Lra Lia.
From Verif Require Import Instances RgSpec RoModel RoSpec RoLemmas RoLemmas2 RoLemmas3 RoLemmas4.
Import ListNotations.
Open Scope R_scope.

(** ** C99: romberg *)

(** It returns the last entry of the first row after row 0 whose last two entries
    differ by less than eps. *)
Theorem C99_result f a b eps fuel v : let T := table f a b in
  romberg fuel f a b eps = Some v <->
  exists n, (1 <= n <= fuel)%nat /\ v = T n n /\ Rabs (T (n - 1)%nat n - T n n) < eps /\ forall k, (1 <= k < n)%nat -> ~ Rabs (T (k - 1)%nat k - T k k) < eps.
Proof. exact (result_l f a b eps fuel v). Qed.
Print Assumptions C99_result.
Example C99_result_case : romberg 1 (fun t => t) 0 2 1 = Some 2.
Proof.
  apply C99_result. exists 1%nat. split; [lia|]. rewrite table_11. split; [field|]. split; [|intros k Hk; lia].
  cbn [Nat.sub table Nat.pow Nat.mul Nat.add]. unfold trapezoids, Sum. cbn [Nat.sub seq fold_right INR].
  match goal with |- Rabs ?e < 1 => replace e with 0 by field end. rewrite Rabs_R0. lra.
Qed.

(** For cubic polynomials the result is exact, after two rows at most. *)
Theorem C99_cubic f c0 c1 c2 c3 a b eps fuel : (forall t, f t = c0 + c1 * t + c2 * t ^ 2 + c3 * t ^ 3) -> 0 < eps -> (2 <= fuel)%nat ->
  let F t := c0 * t + c1 * t ^ 2 / 2 + c2 * t ^ 3 / 3 + c3 * t ^ 4 / 4 in romberg fuel f a b eps = Some (F b - F a).
Proof. exact (cubic_l f c0 c1 c2 c3 a b eps fuel). Qed.
Print Assumptions C99_cubic.
Example C99_cubic_case : romberg 2 (fun t => t ^ 3) 0 2 (1 / 1000) = Some 4.
Proof. rewrite (C99_cubic _ 0 0 0 1) by (lra || lia || (intros; ring)). f_equal. field. Qed.

(** For quintic polynomials it is exact unless the first row is accepted. *)
Theorem C99_quintic f c0 c1 c2 c3 c4 c5 a b eps fuel : (forall t, f t = c0 + c1 * t + c2 * t ^ 2 + c3 * t ^ 3 + c4 * t ^ 4 + c5 * t ^ 5) -> 0 < eps -> (3 <= fuel)%nat ->
  let F t := c0 * t + c1 * t ^ 2 / 2 + c2 * t ^ 3 / 3 + c3 * t ^ 4 / 4 + c4 * t ^ 5 / 5 + c5 * t ^ 6 / 6 in
  ~ Rabs (table f a b 0 1 - table f a b 1 1) < eps -> romberg fuel f a b eps = Some (F b - F a).
Proof. exact (quintic_l f c0 c1 c2 c3 c4 c5 a b eps fuel). Qed.
Print Assumptions C99_quintic.
Example C99_quintic_case : romberg 3 (fun t => t ^ 4) 0 1 (1 / 1000) = Some (1 / 5).
Proof.
  rewrite (C99_quintic _ 0 0 0 0 1 0); [f_equal; field|intros; ring|lra|lia|]. rewrite table_11.
  cbn [table Nat.pow Nat.mul Nat.add]. unfold trapezoids, Sum. cbn [Nat.sub seq fold_right INR].
  match goal with |- ~ Rabs ?e < _ => replace e with (7 / 96) by field end. rewrite Rabs_right; lra.
Qed.

(** For a function bounded by M between the limits it returns, after the first row n
    with 6 M |b - a| < eps (4^n - 1) at the latest. *)
Theorem C99_returns f a b M eps fuel : (forall t, Rmin a b <= t <= Rmax a b -> Rabs (f t) <= M) -> 6 * M * Rabs (b - a) < eps * (4 ^ fuel - 1) ->
  exists v, romberg fuel f a b eps = Some v.
Proof. intros H. exact (returns_l f a b M H eps fuel). Qed.
Print Assumptions C99_returns.
Example C99_returns_case : exists v, romberg 8 sin 0 3 (1 / 1000) = Some v.
Proof.
  apply (C99_returns _ _ _ 1); [intros t _; apply Rabs_le, SIN_bound|]. rewrite Rabs_right by lra. cbn [pow]. lra.
Qed.
Theorem C99_halts f a b M eps : (forall t, Rmin a b <= t <= Rmax a b -> Rabs (f t) <= M) -> 0 < eps -> exists fuel v, romberg fuel f a b eps = Some v.
Proof. intros H. exact (halts_l f a b M H eps). Qed.
Print Assumptions C99_halts.
Example C99_halts_case : forall eps, 0 < eps -> exists fuel v, romberg fuel sin 0 3 eps = Some v.
Proof. intros eps. apply (C99_halts _ _ _ 1). intros t _. apply Rabs_le, SIN_bound. Qed.

(** With the limits exchanged the result changes its sign. *)
Theorem C99_reversed f a b eps fuel : romberg fuel f b a eps = option_map Ropp (romberg fuel f a b eps).
Proof. exact (back_l f a b eps fuel). Qed.
Print Assumptions C99_reversed.
Example C99_reversed_case : romberg 2 (fun t => t ^ 3) 2 0 (1 / 1000) = Some (- (4)).
Proof. rewrite C99_reversed, C99_cubic_case. reflexivity. Qed.

(** In other units of the variable and of the function the result is the same. *)
Theorem C99_units f c p q a b eps fuel : c <> 0 -> q <> 0 ->
  romberg fuel (fun t => c * f (p + q * t)) a b (Rabs (c / q) * eps) = option_map (fun v => c / q * v) (romberg fuel f (p + q * a) (p + q * b) eps).
Proof. exact (units_l f c p q a b eps fuel). Qed.
Print Assumptions C99_units.
Example C99_units_case : romberg 2 (fun t => 6 * (1 + 2 * t) ^ 3) (- (1 / 2)) (1 / 2) (Rabs (6 / 2) * (1 / 1000)) = Some 12.
Proof.
  rewrite (C99_units (fun t => t ^ 3) 6 1 2) by lra. replace (1 + 2 * - (1 / 2)) with 0 by field. replace (1 + 2 * (1 / 2)) with 2 by field.
  rewrite C99_cubic_case. cbn [option_map]. f_equal. field.
Qed.

(** For a continuous function the results of late rows are near the integral: for
    each e there is a number of rows such that results that need more are within e. *)
Theorem C99_limit f F a b e : a < b -> (forall t, a <= t <= b -> derivable_pt_lim F t (f t)) -> (forall t, a <= t <= b -> continuity_pt f t) -> 0 < e ->
  exists N, forall eps fuel v, romberg N f a b eps = None -> romberg fuel f a b eps = Some v -> Rabs (v - (F b - F a)) < e.
Proof. intros Hab HF Hf. exact (limit_l f F a b Hab HF Hf e). Qed.
Print Assumptions C99_limit.
Example C99_limit_case : exists N, forall eps fuel v, romberg N exp 0 1 eps = None -> romberg fuel exp 0 1 eps = Some v -> Rabs (v - (exp 1 - exp 0)) < 1 / 1000.
Proof.
  apply (C99_limit exp exp); [lra|intros t _; apply derivable_pt_lim_exp| |lra]. intros t _. apply derivable_continuous_pt, derivable_pt_exp.
Qed.

(** For an accuracy that is not positive it never returns. *)
Theorem C99_never f a b eps fuel : eps <= 0 -> romberg fuel f a b eps = None.
Proof. exact (never_l f a b eps fuel). Qed.
Print Assumptions C99_never.
Example C99_never_case : romberg 7 (fun t => 0) 0 1 0 = None.
Proof. apply C99_never. lra. Qed.

(** The result need not have the accuracy eps. *)
Theorem C99_accuracy_refuted : exists f F a b eps v, (forall t, derivable_pt_lim F t (f t)) /\ 0 < eps /\ romberg 1 f a b eps = Some v /\ eps < Rabs (v - (F b - F a)).
Proof. exact accuracy_l. Qed.
Print Assumptions C99_accuracy_refuted.

(** For every accuracy asked for, its error can be as large as one likes. *)
Theorem C99_error eps D : 0 < eps -> exists f F a b v, (forall t, derivable_pt_lim F t (f t)) /\ romberg 1 f a b eps = Some v /\ D < Rabs (v - (F b - F a)).
Proof. exact (any_error_l eps D). Qed.
Print Assumptions C99_error.
Example C99_error_case : exists f F a b v, (forall t, derivable_pt_lim F t (f t)) /\ romberg 1 f a b (1 / 100000000) = Some v /\ 1000 < Rabs (v - (F b - F a)).
Proof. apply C99_error. lra. Qed.
