(** Derivatives of the slopes, and the errors of SIXLIN. *)

From Coq Require Import List Bool Arith Reals Lra Lia.
From Coquelicot Require Import Coquelicot.
From Verif Require Import RgSpec RgLemmas.
Import ListNotations.
Open Scope R_scope.

Section Derivatives.
Variables u v : R.
Hypothesis Huv : 0 < u * v.
Lemma u_nz : u <> 0. Proof. intros E. rewrite E in Huv. lra. Qed.
Lemma v_nz : v <> 0. Proof. intros E. rewrite E in Huv. lra. Qed.
Lemma uv_nz : u + v <> 0.
Proof. intros E. replace v with (- u) in Huv by lra. pose proof (pow2_ge_0 u). lra. Qed.
Let r := sqrt ((1 + u ^ 2) * (1 + v ^ 2)).
Lemma r_pos : 0 < (1 + u ^ 2) * (1 + v ^ 2).
Proof. pose proof (pow2_ge_0 u). pose proof (pow2_ge_0 v). apply Rmult_lt_0_compat; lra. Qed.
Lemma r_sq : r ^ 2 = (1 + u ^ 2) * (1 + v ^ 2). Proof. apply pow2_sqrt. pose proof r_pos. lra. Qed.
Lemma r0 : 0 < r. Proof. apply sqrt_lt_R0, r_pos. Qed.
Lemma half_d1 : derivable_pt_lim (fun t => half_way t v) u (half_way u v / ((u + v) * r) * (1 + v ^ 2)).
Proof.
  pose proof uv_nz. pose proof r_pos. pose proof r0. pose proof r_sq as Q. apply is_derive_Reals. unfold half_way. auto_derive; [tauto|].
  replace ((1 + u * (u * 1)) * (1 + v * (v * 1))) with ((1 + u ^ 2) * (1 + v ^ 2)) by ring. fold r.
  apply Rminus_diag_uniq. match goal with |- ?e = 0 => replace e with (((1 + u ^ 2) * (1 + v ^ 2) - r ^ 2) / ((u + v) ^ 2 * r)) end; [rewrite Q; field; lra|]. field. lra.
Qed.
Lemma half_d2 : derivable_pt_lim (fun t => half_way u t) v (half_way u v / ((u + v) * r) * (1 + u ^ 2)).
Proof.
  pose proof uv_nz. pose proof r_pos. pose proof r0. pose proof r_sq as Q. apply is_derive_Reals. unfold half_way. auto_derive; [tauto|].
  replace ((1 + u * (u * 1)) * (1 + v * (v * 1))) with ((1 + u ^ 2) * (1 + v ^ 2)) by ring. fold r.
  apply Rminus_diag_uniq. match goal with |- ?e = 0 => replace e with (((1 + u ^ 2) * (1 + v ^ 2) - r ^ 2) / ((u + v) ^ 2 * r)) end; [rewrite Q; field; lra|]. field. lra.
Qed.
Variable s : R.
Hypothesis Hs : s * s = 1.
Let k := sqrt (4 + (v - 1 / u) ^ 2).
Lemma k_sq : k ^ 2 = 4 + (v - 1 / u) ^ 2. Proof. apply pow2_sqrt. pose proof (pow2_ge_0 (v - 1 / u)). lra. Qed.
Lemma k_pos : 0 < k. Proof. apply sqrt_lt_R0. pose proof (pow2_ge_0 (v - 1 / u)). lra. Qed.
Lemma nearest_d1 : derivable_pt_lim (fun t => nearest s t v) u (s * nearest s u v / (u ^ 2 * k)).
Proof.
  pose proof u_nz. pose proof k_pos. pose proof (pow2_ge_0 (v - 1 / u)) as G. apply is_derive_Reals. unfold nearest. auto_derive.
  - repeat split; try easy. replace (_ + _) with (4 + (v - 1 / u) ^ 2) by (field; easy). lra.
  - replace (4 + _) with (4 + (v - 1 / u) ^ 2) by (field; easy). fold k. 
    apply Rminus_diag_uniq. match goal with |- ?e = 0 => replace e with ((1 - s * s) / (2 * u ^ 2)) end; [rewrite Hs; field; easy|]. field. lra.
Qed.
Lemma nearest_d2 : derivable_pt_lim (fun t => nearest s u t) v (s * nearest s u v / k).
Proof.
  pose proof u_nz. pose proof k_pos. pose proof (pow2_ge_0 (v - 1 / u)) as G. apply is_derive_Reals. unfold nearest. auto_derive.
  - repeat split; try easy. replace (_ + _) with (4 + (v - 1 / u) ^ 2) by (field; easy). lra.
  - replace (4 + _) with (4 + (v - 1 / u) ^ 2) by (field; easy). fold k. 
    apply Rminus_diag_uniq. match goal with |- ?e = 0 => replace e with ((1 - s * s) / 2) end; [rewrite Hs; field|]. field. lra.
Qed.
(** s is the sign of the slopes *)
Hypothesis Hsu : 0 < s * u.
Lemma root_u : sqrt (v / u) = s * v / sqrt (u * v) /\ sqrt (u / v) = s * u / sqrt (u * v).
Proof.
  pose proof u_nz. pose proof v_nz. assert (Hsv : 0 < s * v).
  { replace (s * v) with (s * s * (u * v) / (s * u)); [rewrite Hs, Rmult_1_l; now apply Rdiv_lt_0_compat|]. field. split; [easy|]. intros E. rewrite E in Hs. lra. }
  assert (P : 0 < sqrt (u * v)) by now apply sqrt_lt_R0. assert (Q : sqrt (u * v) ^ 2 = u * v) by (apply pow2_sqrt; lra).
  split; (apply sqrt_lem_1 || idtac).
  - replace (v / u) with (u * v / u ^ 2) by (field; easy). left. apply Rdiv_lt_0_compat; [easy|now apply pow2_gt_0].
  - left. now apply Rdiv_lt_0_compat.
  - replace (s * v / sqrt (u * v) * (s * v / sqrt (u * v))) with (s * s * v ^ 2 / sqrt (u * v) ^ 2) by (field; lra). rewrite Hs, Q. field. easy.
  - replace (u / v) with (u * v / v ^ 2) by (field; easy). left. apply Rdiv_lt_0_compat; [easy|now apply pow2_gt_0].
  - left. now apply Rdiv_lt_0_compat.
  - replace (s * u / sqrt (u * v) * (s * u / sqrt (u * v))) with (s * s * u ^ 2 / sqrt (u * v) ^ 2) by (field; lra). rewrite Hs, Q. field. easy.
Qed.
Lemma geometric_d1 : derivable_pt_lim (fun t => geometric s t v) u (sqrt (v / u) / 2).
Proof.
  assert (P : 0 < sqrt (u * v)) by now apply sqrt_lt_R0. rewrite (proj1 root_u). apply is_derive_Reals. unfold geometric. auto_derive; [easy|]. field. lra.
Qed.
Lemma geometric_d2 : derivable_pt_lim (fun t => geometric s u t) v (sqrt (u / v) / 2).
Proof.
  assert (P : 0 < sqrt (u * v)) by now apply sqrt_lt_R0. rewrite (proj2 root_u). apply is_derive_Reals. unfold geometric. auto_derive; [easy|]. field. lra.
Qed.
Lemma arithmetic_d1 : derivable_pt_lim (fun t => arithmetic t v) u (1 / 2).
Proof. apply is_derive_Reals. unfold arithmetic. auto_derive; [easy|]. field. Qed.
Lemma arithmetic_d2 : derivable_pt_lim (fun t => arithmetic u t) v (1 / 2).
Proof. apply is_derive_Reals. unfold arithmetic. auto_derive; [easy|]. field. Qed.
End Derivatives.
