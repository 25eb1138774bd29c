(** romberg in other units; errors of any size. *)

From Coq Require Import List Bool Arith Reals Lra Lia.
From Coquelicot Require Import Coquelicot.
From Verif Require Import Instances RgSpec RgLemmas RoModel RoSpec RoLemmas RoLemmas2.
Import ListNotations.
Open Scope R_scope.

Lemma scale_some f f' a b a' b' r eps fuel v : r <> 0 -> (forall m n, table f' a' b' m n = r * table f a b m n) ->
  romberg fuel f a b eps = Some v -> romberg fuel f' a' b' (Rabs r * eps) = Some (r * v).
Proof.
  intros Hr E. rewrite !result_l. intros (n & H & -> & Sm & L).
  assert (D : forall k, Rabs (table f' a' b' (k - 1) k - table f' a' b' k k) < Rabs r * eps <-> Rabs (table f a b (k - 1) k - table f a b k k) < eps).
  { intros k. rewrite !E. rewrite <- Rmult_minus_distr_l, Rabs_mult. pose proof (Rabs_pos_lt r Hr) as P. split; intros X; [exact (Rmult_lt_reg_l _ _ _ P X)|exact (Rmult_lt_compat_l _ _ _ P X)]. }
  exists n. split; [exact H|]. split; [rewrite E; reflexivity|]. split; [apply D; exact Sm|]. intros k Hk X. apply (L k Hk), D, X.
Qed.
Lemma scale_l f f' a b a' b' r eps fuel : r <> 0 -> (forall m n, table f' a' b' m n = r * table f a b m n) ->
  romberg fuel f' a' b' (Rabs r * eps) = option_map (fun v => r * v) (romberg fuel f a b eps).
Proof.
  intros Hr E. destruct (romberg fuel f a b eps) as [v|] eqn:W; cbn [option_map]; [exact (scale_some f f' a b a' b' r eps fuel v Hr E W)|].
  destruct (romberg fuel f' a' b' (Rabs r * eps)) as [w|] eqn:W'; [|reflexivity].
  assert (Hi : / r <> 0) by (apply Rinv_neq_0_compat; exact Hr).
  apply (scale_some f' f a' b' a b (/ r)) in W'; [|exact Hi|intros m n; rewrite E; field; exact Hr].
  replace (Rabs (/ r) * (Rabs r * eps)) with eps in W'; [rewrite W in W'; discriminate|].
  rewrite <- Rmult_assoc, <- Rabs_mult, Rinv_l, Rabs_R1 by exact Hr. ring.
Qed.
Lemma Sum_times {A} c (g : A -> R) l : Sum (fun k => c * g k) l = c * Sum g l.
Proof. induction l as [|x l IH]; unfold Sum in *; cbn [fold_right]; [ring|]. rewrite IH. ring. Qed.
Lemma trapezoids_units f c p q a b n : q <> 0 -> (n <> 0)%nat -> trapezoids (fun t => c * f (p + q * t)) a b n = c / q * trapezoids f (p + q * a) (p + q * b) n.
Proof.
  intros Hq Hn. unfold trapezoids. assert (P : INR n <> 0) by (apply not_0_INR; exact Hn). rewrite (Sum_times c (fun k => f (p + q * (a + INR k * ((b - a) / INR n))))).
  rewrite (Sum_ext (fun k => f (p + q * (a + INR k * ((b - a) / INR n)))) (fun k => f (p + q * a + INR k * ((p + q * b - (p + q * a)) / INR n)))); [field; split; assumption|].
  intros k _. f_equal. field. exact P.
Qed.
Lemma table_units f c p q a b m n : q <> 0 -> table (fun t => c * f (p + q * t)) a b m n = c / q * table f (p + q * a) (p + q * b) m n.
Proof.
  intros Hq. revert n. induction m as [|m IH]; intros n; [apply (trapezoids_units f c p q a b (2 ^ n) Hq), pow2_nz|].
  set (g := fun t => c * f (p + q * t)) in *. set (A := p + q * a) in *. set (B := p + q * b) in *.
  change (table g a b m n + (table g a b m n - table g a b m (n - 1)) / (4 ^ S m - 1) = c / q * (table f A B m n + (table f A B m n - table f A B m (n - 1)) / (4 ^ S m - 1))).
  rewrite (IH n), (IH (n - 1)%nat). unfold Rdiv. ring.
Qed.
Lemma units_l f c p q a b eps fuel : c <> 0 -> q <> 0 ->
  romberg fuel (fun t => c * f (p + q * t)) a b (Rabs (c / q) * eps) = option_map (fun v => c / q * v) (romberg fuel f (p + q * a) (p + q * b) eps).
Proof.
  intros Hc Hq. apply scale_l; [apply Rmult_integral_contrapositive_currified; [exact Hc|apply Rinv_neq_0_compat; exact Hq]|].
  intros m n. apply table_units, Hq.
Qed.
Lemma any_error_l eps D : 0 < eps -> exists f F a b v, (forall t, derivable_pt_lim F t (f t)) /\ romberg 1 f a b eps = Some v /\ D < Rabs (v - (F b - F a)).
Proof.
  intros He. set (c := 210 * (Rabs D + 1)).
  exists (fun t => c * (t * (1 - t) * (1 - 2 * t)) ^ 2), (fun t => c * (t ^ 3 / 3 - 3 * t ^ 4 / 2 + 13 * t ^ 5 / 5 - 2 * t ^ 6 + 4 * t ^ 7 / 7)), 0, 1, 0.
  split; [|split].
  - intros t. apply is_derive_Reals. auto_derive; [exact I|]. field.
  - apply result_l. exists 1%nat. split; [lia|]. rewrite table_11. split; [field|]. split; [|intros k Hk; lia].
    cbn [Nat.sub table Nat.pow Nat.mul Nat.add]. unfold trapezoids, Sum. cbn [Nat.sub seq fold_right INR].
    match goal with |- Rabs ?e < _ => replace e with 0 by field end. rewrite Rabs_R0. exact He.
  - match goal with |- _ < Rabs ?e => replace e with (- (Rabs D + 1)) by (unfold c; field) end. rewrite Rabs_Ropp.
    pose proof (Rle_abs D). pose proof (Rabs_pos D). rewrite Rabs_right; lra.
Qed.
