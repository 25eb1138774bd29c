(** Properties of rombint. *)

From Coq Require Import List Bool Arith Reals Lra Lia.
From Verif Require Import Instances RgSpec RoModel RoModel2 RoSpec RoLemmas RoLemmas2 RoLemmas3 RoLemmas4 RoLemmas5 RoProps.
Import ListNotations.
Open Scope R_scope.

(** ** C100: rombint *)

(** It gives the last entry of row decdigs - 1 of Romberg's table. *)
Theorem C100_table f a b d : a <> b -> rombint f a b (S d) = Some (table f a b d d).
Proof. exact (rombint_l f a b d). Qed.
Print Assumptions C100_table.
Example C100_table_case : rombint (fun t => t ^ 2) 3 0 2 = Some (- (9)).
Proof. rewrite C100_table by lra. rewrite table_11. f_equal. field. Qed.

(** For equal limits, and without rows, it fails. *)
Theorem C100_refused f a b n : a = b \/ n = 0%nat -> rombint f a b n = None.
Proof. exact (refused_l f a b n). Qed.
Print Assumptions C100_refused.
Example C100_refused_case : rombint exp 1 1 10 = None.
Proof. apply C100_refused. left. reflexivity. Qed.

(** What romberg returns, rombint returns for one of the numbers of rows. *)
Theorem C100_romberg f a b eps fuel v : a <> b -> romberg fuel f a b eps = Some v -> exists n, (2 <= n <= S fuel)%nat /\ rombint f a b n = Some v.
Proof. exact (rombint_romberg_l f a b eps fuel v). Qed.
Print Assumptions C100_romberg.
Example C100_romberg_case : exists n, (2 <= n <= 3)%nat /\ rombint (fun t => t ^ 3) 0 2 n = Some 4.
Proof. apply (C100_romberg _ _ _ (1 / 1000)); [lra|]. exact C99_cubic_case. Qed.

(** For a continuous function its values tend to the integral. *)
Theorem C100_limit f F a b e : a < b -> (forall t, a <= t <= b -> derivable_pt_lim F t (f t)) -> (forall t, a <= t <= b -> continuity_pt f t) -> 0 < e ->
  exists N, forall n, (N <= n)%nat -> exists v, rombint f a b n = Some v /\ Rabs (v - (F b - F a)) < e.
Proof. exact (rombint_limit_l f F a b e). Qed.
Print Assumptions C100_limit.
Example C100_limit_case : exists N, forall n, (N <= n)%nat -> exists v, rombint exp 0 1 n = Some v /\ Rabs (v - (exp 1 - exp 0)) < 1 / 1000.
Proof.
  apply (C100_limit exp exp); [lra|intros t _; apply derivable_pt_lim_exp| |lra]. intros t _. apply derivable_continuous_pt, derivable_pt_exp.
Qed.

(** For every number of rows there is a function for which it gives 0 and the integral
    is 1/2. *)
Theorem C100_error n : (1 <= n)%nat -> exists f F, (forall t, derivable_pt_lim F t (f t)) /\ rombint f 0 1 n = Some 0 /\ F 1 - F 0 = 1 / 2.
Proof. exact (rombint_error_l n). Qed.
Print Assumptions C100_error.
Example C100_error_case : exists f F, (forall t, derivable_pt_lim F t (f t)) /\ rombint f 0 1 10 = Some 0 /\ F 1 - F 0 = 1 / 2.
Proof. apply C100_error. lia. Qed.

(** So its error is not below 10^(-decdigs), as its comment says. *)
Theorem C100_accuracy_refuted : exists f F a b n v, (forall t, derivable_pt_lim F t (f t)) /\ a < b /\ rombint f a b n = Some v /\ (1 / 10) ^ n < Rabs (v - (F b - F a)).
Proof.
  destruct (rombint_error_l 10 ltac:(lia)) as (f & F & H & R & I). exists f, F, 0, 1, 10%nat, 0. split; [exact H|]. split; [lra|]. split; [exact R|].
  rewrite I, Rminus_0_l, Rabs_Ropp, Rabs_right by lra. cbn [pow]. lra.
Qed.
Print Assumptions C100_accuracy_refuted.
