(** What characterises the lines, and derivatives of their slopes. *)

From Coq Require Import List Bool Arith Reals Lra Lia.
From Coquelicot Require Import Coquelicot.
From Verif Require Import RgSpec RgLemmas.
Import ListNotations.
Open Scope R_scope.

Section Lines.
Variable pts : list (R * R).
Hypothesis Hne : pts <> [].
Hypothesis Hsxy : Sxy pts <> 0.
Definition through (b : R) : R := my pts - b * mx pts.
Definition q (b : R) : R := Syy pts - 2 * b * Sxy pts + b ^ 2 * Sxx pts.
Lemma horizontal_eq a b : b <> 0 -> horizontal pts a b = vertical pts a b / b ^ 2.
Proof.
  intros H. unfold horizontal, vertical. rewrite (Sum_ext _ (fun p => / b ^ 2 * (snd p - (a + b * fst p)) ^ 2)) by (intros; field; easy).
  rewrite Sum_scal. unfold Rdiv. ring.
Qed.
Lemma perpendicular_eq a b : perpendicular pts a b = vertical pts a b / (1 + b ^ 2).
Proof.
  pose proof (pow2_ge_0 b). unfold perpendicular, vertical. rewrite (Sum_ext _ (fun p => / (1 + b ^ 2) * (snd p - (a + b * fst p)) ^ 2)) by (intros; field; lra).
  rewrite Sum_scal. unfold Rdiv. ring.
Qed.
Lemma areas_eq a b : b <> 0 -> areas pts a b = vertical pts a b / Rabs b.
Proof.
  intros H. unfold areas, vertical. rewrite (Sum_ext _ (fun p => / Rabs b * (snd p - (a + b * fst p)) ^ 2)).
  - rewrite Sum_scal. unfold Rdiv. ring.
  - intros p _. replace (_ * (fst p - _)) with (- ((snd p - (a + b * fst p)) ^ 2 * / b)) by (field; easy).
    rewrite Rabs_Ropp, Rabs_mult, Rabs_inv. rewrite (Rabs_right (_ ^ 2)) by (apply Rle_ge, pow2_ge_0). ring.
Qed.
(** A line through the mean is the best if its slope is. *)
Lemma best (f : R -> R) b a' b' : (forall b, b' = b \/ b <> b' -> 0 < f b') -> (b' <> b -> q b / f b < q b' / f b') ->
  (a' <> through b \/ b' <> b) -> vertical pts (through b) b / f b < vertical pts a' b' / f b'.
Proof.
  intros Hf Hq Hd. assert (F : 0 < f b') by (apply (Hf b'); now left). pose proof (size_pos pts Hne) as N. rewrite !vertical_eq by easy. fold (q b) (q b').
  replace (my pts - through b - b * mx pts) with 0 by (unfold through; ring). rewrite pow_i by lia. rewrite Rmult_0_r, Rplus_0_r.
  set (e := my pts - a' - b' * mx pts). pose proof (pow2_ge_0 e) as E.
  assert (S : (q b' + size pts * e ^ 2) / f b' = q b' / f b' + size pts * e ^ 2 / f b') by (field; lra). rewrite S.
  destruct (Req_dec b' b) as [->|Hb].
  - destruct Hd as [Hd|Hd]; [|easy]. assert (e <> 0) by (unfold e; unfold through in Hd; lra).
    assert (0 < size pts * e ^ 2 / f b) by (apply Rdiv_lt_0_compat; [|easy]; apply Rmult_lt_0_compat; [easy|now apply pow2_gt_0]). lra.
  - specialize (Hq Hb). assert (0 <= size pts * e ^ 2 / f b') by (apply Rmult_le_pos; [apply Rmult_le_pos; lra|left; now apply Rinv_0_lt_compat]). lra.
Qed.
Lemma yonx_best a' b' : (a' <> through (slope1 pts) \/ b' <> slope1 pts) -> vertical pts (through (slope1 pts)) (slope1 pts) < vertical pts a' b'.
Proof.
  intros H. pose proof (best (fun _ => 1) (slope1 pts) a' b') as B. cbv beta in B. unfold Rdiv in B. rewrite Rinv_1, !Rmult_1_r in B. apply B; [intros; lra| |easy].
  intros Hb. pose proof (Sxx_pos pts Hsxy). assert (E : q b' - q (slope1 pts) = Sxx pts * (b' - slope1 pts) ^ 2) by (unfold q, slope1; field; lra).
  assert (0 < Sxx pts * (b' - slope1 pts) ^ 2) by (apply Rmult_lt_0_compat; [easy|apply pow2_gt_0; lra]). lra.
Qed.
Lemma slope1_nz : slope1 pts <> 0.
Proof. pose proof (Sxx_pos pts Hsxy). unfold slope1. apply Rmult_integral_contrapositive_currified; [exact Hsxy|apply Rinv_neq_0_compat; lra]. Qed.
Lemma slope2_nz : slope2 pts <> 0.
Proof. pose proof (Syy_pos pts Hsxy). unfold slope2. apply Rmult_integral_contrapositive_currified; [lra|now apply Rinv_neq_0_compat]. Qed.
Lemma slopes_pos : 0 < slope1 pts * slope2 pts.
Proof. pose proof (Sxx_pos pts Hsxy). pose proof (Syy_pos pts Hsxy). unfold slope1, slope2. replace (_ * _) with (Syy pts / Sxx pts) by (field; lra). now apply Rdiv_lt_0_compat. Qed.
Lemma xony_best a' b' : b' <> 0 -> (a' <> through (slope2 pts) \/ b' <> slope2 pts) -> horizontal pts (through (slope2 pts)) (slope2 pts) < horizontal pts a' b'.
Proof.
  intros Hb' H. pose proof slope2_nz. rewrite !horizontal_eq by easy. apply (best (fun b => b ^ 2)); [intros; now apply pow2_gt_0| |easy].
  intros Hb. pose proof (Syy_pos pts Hsxy). assert (E : q b' / b' ^ 2 - q (slope2 pts) / slope2 pts ^ 2 = Syy pts * (/ b' - / slope2 pts) ^ 2).
  { unfold q, slope2. field. repeat split; lra || easy. }
  assert (/ b' <> / slope2 pts) by (intros C; apply Hb; rewrite <- (Rinv_inv b'), C; apply Rinv_inv).
  assert (0 < Syy pts * (/ b' - / slope2 pts) ^ 2) by (apply Rmult_lt_0_compat; [easy|apply pow2_gt_0; lra]). lra.
Qed.
Lemma sign_sq : sign_of (Sxy pts) * sign_of (Sxy pts) = 1.
Proof. unfold sign_of. destruct (Rlt_dec _ _); lra. Qed.
Lemma sign_pos : 0 < sign_of (Sxy pts) * Sxy pts.
Proof. unfold sign_of. destruct (Rlt_dec _ _); lra. Qed.
(** The slope of the orthogonal line *)
Definition b4 : R := nearest (sign_of (Sxy pts)) (slope1 pts) (slope2 pts).
Lemma b4_pos : 0 < sign_of (Sxy pts) * b4.
Proof.
  unfold b4, nearest. set (u := slope2 pts - 1 / slope1 pts). set (s := sign_of (Sxy pts)).
  replace (s * ((u + s * sqrt (4 + u ^ 2)) / 2)) with ((s * u + s * s * sqrt (4 + u ^ 2)) / 2) by field. unfold s. rewrite sign_sq. fold s.
  assert (Rabs u < sqrt (4 + u ^ 2)). { rewrite <- sqrt_Rsqr_abs. apply sqrt_lt_1; unfold Rsqr; pose proof (pow2_ge_0 u); lra. }
  assert (- Rabs u <= s * u). { unfold s, sign_of. pose proof (Rabs_def2 u). destruct (Rlt_dec _ _); unfold Rabs; destruct (Rcase_abs u); lra. }
  lra.
Qed.
Lemma b4_nz : b4 <> 0. Proof. pose proof b4_pos. intros E. rewrite E in *. lra. Qed.
Lemma b4_eq : Syy pts - Sxx pts = (b4 - 1 / b4) * Sxy pts.
Proof.
  pose proof (Sxx_pos pts Hsxy). pose proof b4_nz as Z. set (u := slope2 pts - 1 / slope1 pts).
  assert (U : Syy pts - Sxx pts = u * Sxy pts) by (unfold u, slope1, slope2; field; lra).
  rewrite U. f_equal. assert (Q : b4 ^ 2 - u * b4 - 1 = 0).
  { unfold b4, nearest. fold u. set (s := sign_of (Sxy pts)). set (r := sqrt (4 + u ^ 2)). assert (r ^ 2 = 4 + u ^ 2) by (apply pow2_sqrt; pose proof (pow2_ge_0 u); lra).
    replace (((u + s * r) / 2) ^ 2 - u * ((u + s * r) / 2) - 1) with ((s * s * r ^ 2 - u ^ 2 - 4) / 4) by field. unfold s. rewrite sign_sq. lra. }
  apply (Rmult_eq_reg_r b4); [|easy]. field_simplify; [|easy]. lra.
Qed.
Lemma sxy_b4 : 0 < Sxy pts / b4.
Proof.
  pose proof b4_pos. pose proof sign_pos. pose proof b4_nz. replace (Sxy pts / b4) with ((sign_of (Sxy pts) * Sxy pts) * (sign_of (Sxy pts) * b4) / b4 ^ 2 / (sign_of (Sxy pts) * sign_of (Sxy pts))).
  - rewrite sign_sq. unfold Rdiv at 1. rewrite Rinv_1, Rmult_1_r. apply Rdiv_lt_0_compat; [now apply Rmult_lt_0_compat|now apply pow2_gt_0].
  - pose proof sign_sq. field. split; [easy|]. intros E. rewrite E in *. lra.
Qed.
Lemma q_orthog b : q b = Sxx pts * (1 + b ^ 2) + Sxy pts * (b4 - 1 / b4 - 2 * b).
Proof. pose proof b4_eq. unfold q. replace (Syy pts) with (Sxx pts + (b4 - 1 / b4) * Sxy pts) by lra. field. exact b4_nz. Qed.
Lemma orthog_best a' b' : (a' <> through b4 \/ b' <> b4) -> perpendicular pts (through b4) b4 < perpendicular pts a' b'.
Proof.
  intros H. rewrite !perpendicular_eq. apply (best (fun b => 1 + b ^ 2)); [intros; pose proof (pow2_ge_0 b'); lra| |easy].
  intros Hb. pose proof (pow2_ge_0 b'). pose proof (pow2_ge_0 b4). pose proof b4_nz.
  assert (E : q b' / (1 + b' ^ 2) - q b4 / (1 + b4 ^ 2) = Sxy pts / b4 * ((b' - b4) ^ 2 / (1 + b' ^ 2))).
  { rewrite !q_orthog. field. repeat split; lra || easy. }
  pose proof sxy_b4. assert (0 < Sxy pts / b4 * ((b' - b4) ^ 2 / (1 + b' ^ 2))).
  { apply Rmult_lt_0_compat; [easy|]. apply Rdiv_lt_0_compat; [apply pow2_gt_0|]; lra. }
  lra.
Qed.
Lemma orthog_upright c : perpendicular pts (through b4) b4 < upright pts c.
Proof.
  pose proof (pow2_ge_0 b4). pose proof b4_nz. pose proof sxy_b4. pose proof (size_pos pts Hne). rewrite perpendicular_eq, vertical_eq by easy.
  fold (q b4). replace (my pts - through b4 - b4 * mx pts) with 0 by (unfold through; ring). rewrite pow_i by lia. rewrite Rmult_0_r, Rplus_0_r.
  assert (E : q b4 / (1 + b4 ^ 2) = Sxx pts - Sxy pts / b4) by (rewrite q_orthog; field; repeat split; lra || easy).
  assert (U : upright pts c = Sxx pts + size pts * (mx pts - c) ^ 2).
  { unfold upright. rewrite (Sum_ext _ (fun p => (fst p - mx pts) ^ 2 + (2 * (mx pts - c) * (fst p - mx pts) + (mx pts - c) ^ 2))) by (intros; ring).
    rewrite !Sum_add, Sum_scal, Sum_const, dev_x by easy. unfold Sxx. ring. }
  rewrite U, E. assert (0 <= size pts * (mx pts - c) ^ 2) by (apply Rmult_le_pos; [lra|apply pow2_ge_0]). lra.
Qed.
(** The reduced major axis *)
Definition b5 : R := geometric (sign_of (Sxy pts)) (slope1 pts) (slope2 pts).
Lemma b5_abs : 0 < sign_of (Sxy pts) * b5 /\ (sign_of (Sxy pts) * b5) ^ 2 = Syy pts / Sxx pts.
Proof.
  pose proof (Sxx_pos pts Hsxy). pose proof (Syy_pos pts Hsxy). unfold b5, geometric. rewrite <- Rmult_assoc, sign_sq, Rmult_1_l.
  assert (E : slope1 pts * slope2 pts = Syy pts / Sxx pts) by (unfold slope1, slope2; field; lra). rewrite E.
  assert (0 < Syy pts / Sxx pts) by now apply Rdiv_lt_0_compat. split; [now apply sqrt_lt_R0|]. apply pow2_sqrt. lra.
Qed.
Lemma b5_nz : b5 <> 0. Proof. destruct b5_abs as [P _]. intros E. rewrite E in P. lra. Qed.
Lemma rma_best a' b' : b' <> 0 -> (a' <> through b5 \/ b' <> b5) -> areas pts (through b5) b5 < areas pts a' b'.
Proof.
  intros Hb' H. pose proof b5_nz. rewrite !areas_eq by easy. apply (best Rabs); [intros; now apply Rabs_pos_lt| |easy].
  intros Hb. destruct b5_abs as [P1 P2]. pose proof sign_pos as P3. pose proof (Sxx_pos pts Hsxy) as P4. set (s := sign_of (Sxy pts)) in *. set (m := s * b5) in *.
  assert (S : s = 1 \/ s = -1) by (unfold s, sign_of; destruct (Rlt_dec _ _); lra).
  assert (M : Syy pts = m ^ 2 * Sxx pts) by (rewrite P2; field; lra).
  assert (B : b5 = s * m) by (unfold m; destruct S as [->| ->]; ring).
  assert (A5 : Rabs b5 = m) by (rewrite B; destruct S as [->| ->]; [rewrite Rmult_1_l; apply Rabs_right; lra|replace (-1 * m) with (- m) by ring; rewrite Rabs_Ropp; apply Rabs_right; lra]).
  assert (E5 : q b5 / Rabs b5 = 2 * m * Sxx pts - 2 * (s * Sxy pts)) by (rewrite A5, B; unfold q; rewrite M; destruct S as [->| ->]; field; lra).
  rewrite E5. set (m' := Rabs b'). assert (Pm : 0 < m') by now apply Rabs_pos_lt.
  assert (C : b' = s * m' \/ b' = - (s * m')) by (unfold m', Rabs; destruct (Rcase_abs b'); destruct S as [->| ->]; lra).
  assert (D : (m' - m) ^ 2 * Sxx pts / m' = q b' / m' - (2 * m * Sxx pts - 2 * (b' / m') * Sxy pts)) by (unfold q; rewrite M; assert (b' ^ 2 = m' ^ 2) by (unfold m'; now rewrite pow2_abs); field_simplify; [|lra|lra]; f_equal; rewrite ?H1; ring || (rewrite H1; ring)).
  destruct C as [C|C].
  - assert (m' <> m) by (intros E; apply Hb; rewrite C, B, E; ring).
    assert (0 < (m' - m) ^ 2 * Sxx pts / m') by (apply Rdiv_lt_0_compat; [apply Rmult_lt_0_compat; [apply pow2_gt_0|]|]; lra).
    replace (b' / m') with s in D by (rewrite C; field; lra). lra.
  - assert (0 <= (m' - m) ^ 2 * Sxx pts / m') by (apply Rmult_le_pos; [apply Rmult_le_pos; [apply pow2_ge_0|lra]|left; now apply Rinv_0_lt_compat]).
    replace (b' / m') with (- s) in D by (rewrite C; field; lra). lra.
Qed.
End Lines.

Lemma bisector u v : 0 < u * v -> atan (half_way u v) = (atan u + atan v) / 2.
Proof.
  intros H. destruct (atan_bound u) as [U1 U2], (atan_bound v) as [V1 V2]. set (w := (atan u + atan v) / 2).
  rewrite <- (atan_tan w) by (unfold w; lra). f_equal. assert (C : 0 < cos w) by (apply cos_gt_0; unfold w; lra).
  set (r := sqrt ((1 + u ^ 2) * (1 + v ^ 2))). pose proof (pow2_ge_0 u). pose proof (pow2_ge_0 v).
  assert (P : 0 < (1 + u ^ 2) * (1 + v ^ 2)) by (apply Rmult_lt_0_compat; lra). assert (R0 : 0 < r) by now apply sqrt_lt_R0.
  assert (R2 : r ^ 2 = (1 + u ^ 2) * (1 + v ^ 2)) by (apply pow2_sqrt; lra).
  assert (R1 : r = sqrt (1 + Rsqr u) * sqrt (1 + Rsqr v)) by (unfold r; rewrite sqrt_mult by lra; f_equal; f_equal; unfold Rsqr; ring).
  assert (Q1 : 0 < sqrt (1 + Rsqr u)) by (apply sqrt_lt_R0; unfold Rsqr; lra). assert (Q2 : 0 < sqrt (1 + Rsqr v)) by (apply sqrt_lt_R0; unfold Rsqr; lra).
  assert (S2 : sin (2 * w) = (u + v) / r). { replace (2 * w) with (atan u + atan v) by (unfold w; field). rewrite sin_plus, !sin_atan, !cos_atan, R1. field. lra. }
  assert (C2 : cos (2 * w) = (1 - u * v) / r). { replace (2 * w) with (atan u + atan v) by (unfold w; field). rewrite cos_plus, !sin_atan, !cos_atan, R1. field. lra. }
  rewrite sin_2a in S2. rewrite cos_2a_cos in C2.
  assert (N : u + v <> 0) by (intros E; replace v with (- u) in H by lra; pose proof (pow2_ge_0 u); lra).
  unfold half_way, tan. fold r. 
  assert (E1 : cos w * cos w = (1 + (1 - u * v) / r) / 2) by lra.
  assert (E2 : sin w * cos w = (u + v) / r / 2) by lra.
  apply (Rmult_eq_reg_r (cos w * cos w)); [|apply Rgt_not_eq; now apply Rmult_lt_0_compat].
  replace (sin w / cos w * (cos w * cos w)) with (sin w * cos w) by (field; lra). rewrite E1, E2.
  apply (Rmult_eq_reg_r (2 * r * (u + v))); [|apply Rmult_integral_contrapositive_currified; lra]. field_simplify; [|lra|lra]. rewrite R2. ring.
Qed.
