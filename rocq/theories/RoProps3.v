(** Properties of Rombergs_Integration_Method. *)

From Coq Require Import List Bool Arith ZArith Reals Lra Lia.
From Verif Require Import Instances RgSpec RoModel3 RoSpec RoSpec2 RoLemmas RoLemmas6.
Import ListNotations.
Open Scope R_scope.

(** ** C101: Rombergs_Integration_Method *)

(** With at least two columns (27 at most) the result is the last entry of the first
    row at which the column before the last has changed by less than the tolerance,
    and err = 0; without such a row it is the last entry of the last row, and err = -1.
    The factors are those of its table. *)
Theorem C101_result f a h tol max_cols : 0 < h -> let cols := Z.to_nat (Z.min max_cols 27) in (2 <= cols)%nat ->
  let T := table_with (fun m => nth (m - 1) richardson 0) f a (a + h) in
  let small k := Rabs (T (k - 1)%nat k - T (k - 1)%nat (k - 1)%nat) < tol in
  exists v err, Rombergs_Integration_Method a h tol max_cols f = Some (v, err) /\
  ((err = 0%Z /\ exists i, (1 <= i < cols)%nat /\ v = T i i /\ small i /\ forall j, (1 <= j < i)%nat -> ~ small j) \/
   (err = (-1)%Z /\ (forall j, (1 <= j < cols)%nat -> ~ small j) /\ v = T (cols - 1)%nat (cols - 1)%nat)).
Proof. intros H. exact (method_l f a h tol H max_cols). Qed.
Print Assumptions C101_result.
Example C101_result_case : Rombergs_Integration_Method 0 2 1 2 (fun t => t) = Some (2, 0%Z).
Proof.
  destruct (C101_result (fun t => t) 0 2 1 2 ltac:(lra) (le_n 2)) as (v & err & -> & D). change (Z.to_nat (Z.min 2 27)) with 2%nat in D.
  assert (E0 : trapezoids (fun t => t) 0 (0 + 2) (2 ^ 0) = 2) by (unfold trapezoids, Sum; cbn [Nat.pow Nat.sub seq fold_right INR]; field).
  assert (E1 : trapezoids (fun t => t) 0 (0 + 2) (2 ^ 1) = 2) by (unfold trapezoids, Sum; cbn [Nat.pow Nat.mul Nat.add Nat.sub seq fold_right INR]; field).
  destruct D as [(-> & i & Hi & -> & _)|(_ & L & _)].
  - replace i with 1%nat by lia. cbn [table_with]. change (1 - 1)%nat with 0%nat. rewrite E0, E1. do 2 f_equal. ring.
  - destruct (L 1%nat ltac:(lia)). change (1 - 1)%nat with 0%nat. cbn [table_with]. rewrite E0, E1. rewrite Rminus_diag_eq, Rabs_R0 by reflexivity. lra.
Qed.

(** The factors are 1 / (4^m - 1), up to 3 parts in 10^19. *)
Theorem C101_factors m : (1 <= m <= 26)%nat -> Rabs (nth (m - 1) richardson 0 * (4 ^ m - 1) - 1) <= 3 / 10 ^ 19.
Proof. exact (factors_l m). Qed.
Print Assumptions C101_factors.
Example C101_factors_case : Rabs (nth 1 richardson 0 * 15 - 1) <= 3 / 10 ^ 19.
Proof. pose proof (C101_factors 2 ltac:(lia)) as H. replace (4 ^ 2 - 1) with 15 in H by ring. exact H. Qed.

(** With one column or less the result is the mean of the values at the limits. *)
Theorem C101_one_column f a h tol max_cols : (max_cols <= 1)%Z -> Rombergs_Integration_Method a h tol max_cols f = Some ((f a + f (a + h)) / 2, (-1)%Z).
Proof. exact (one_column_l a h tol max_cols f). Qed.
Print Assumptions C101_one_column.
Example C101_one_column_case : Rombergs_Integration_Method 0 3 1 1 (fun t => t ^ 2) = Some (9 / 2, (-1)%Z).
Proof. rewrite C101_one_column by lia. do 2 f_equal. field. Qed.

(** So it is not the trapezoid, even for a constant function. *)
Theorem C101_trapezoid_refuted : exists f a h tol v, 0 < h /\ Rombergs_Integration_Method a h tol 1 f = Some (v, (-1)%Z) /\ v <> trapezoids f a (a + h) 1.
Proof.
  exists (fun _ => 1), 0, 2, 1, ((1 + 1) / 2). split; [lra|]. split; [exact (one_column_l 0 2 1 1 (fun _ => 1) ltac:(lia))|].
  unfold trapezoids, Sum. cbn [Nat.sub seq fold_right INR]. lra.
Qed.
Print Assumptions C101_trapezoid_refuted.
