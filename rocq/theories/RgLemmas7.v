(** BCES without errors. *)

From Coq Require Import List Bool Arith Reals Lra Lia.
From Verif Require Import Exn Instances McModel BaModel RgModel RgSpec RgLemmas RgLemmas2 RgLemmas3 RgLemmas5.
Import ListNotations.
Open Scope R_scope.

Lemma class_eval {A} (f : A -> num) (g : A -> R) l : l <> [] -> (forall p, f p = Num (g p)) ->
  class (map f l) = (Num (Sum g l / size l), Num (sqrt (Sum (fun p => (g p - Sum g l / size l) ^ 2) l / size l))).
Proof.
  intros Hl Hf. assert (N : 0 < size l) by (unfold size; apply lt_0_INR; destruct l; [easy|cbn; lia]).
  cbv beta delta [class]. unfold count. rewrite map_length. fold (size l).
  rewrite !nsum_map. rewrite (nsum_ok (fun p => f p) g) by exact Hf. rewrite ndiv_ok by lra. 
  rewrite (nsum_ok _ (fun p => (g p - Sum g l / size l) ^ 2)) by (intros p; rewrite Hf; nums; easy). rewrite ndiv_ok by lra. rewrite nsqrt_ok; [easy|].
  apply Rmult_le_pos; [apply Sum_nonneg; intros; apply pow2_ge_0|left; now apply Rinv_0_lt_compat].
Qed.

Section Bess.
Variable pts : list (R * R).
Hypothesis Hne : pts <> [].
Hypothesis Hsxy : Sxy pts <> 0.
Let n := size pts.
Let b1 := slope1 pts.
Let b2 := slope2 pts.
Let b3 := half_way b1 b2.
Let sg := sign_of (Sxy pts).
Let b4 := nearest sg b1 b2.
Let r := sqrt ((1 + b1 ^ 2) * (1 + b2 ^ 2)).
Let k := sqrt (4 + (b2 - 1 / b1) ^ 2).
Let ga := b3 / ((b1 + b2) * r).
Definition bare (p : R * R) : datum := Datum (fst p) 0 (snd p) 0 0.
Lemma infl1_sum : Sum (infl1 pts) pts = 0.
Proof.
  pose proof (Sxx_pos pts Hsxy). rewrite (Sum_ext _ (fun p => size pts / Sxx pts * ((fst p - mx pts) * (snd p - my pts)) + - (size pts * slope1 pts / Sxx pts) * (fst p - mx pts) ^ 2)) by (intros; unfold infl1; field; lra).
  rewrite Sum_add, !Sum_scal. fold (Sxy pts) (Sxx pts). unfold slope1. field. lra.
Qed.
Lemma infl2_sum : Sum (infl2 pts) pts = 0.
Proof.
  rewrite (Sum_ext _ (fun p => size pts / Sxy pts * (snd p - my pts) ^ 2 + - (size pts * slope2 pts / Sxy pts) * ((fst p - mx pts) * (snd p - my pts)))) by (intros; unfold infl2; field; exact Hsxy).
  rewrite Sum_add, !Sum_scal. fold (Sxy pts) (Syy pts). unfold slope2. field. exact Hsxy.
Qed.
Lemma mix_sum d1 d2 : Sum (fun p => d1 * infl1 pts p + d2 * infl2 pts p) pts = 0.
Proof. rewrite Sum_add, !Sum_scal, infl1_sum, infl2_sum. ring. Qed.
Lemma sqrt_nn v : 0 <= v -> sqrt (sqrt (v / n) ^ 2 / n) = sqrt v / n.
Proof.
  intros H. assert (N : 0 < n) by now apply size_pos. assert (0 <= v / n) by (apply Rmult_le_pos; [easy|left; now apply Rinv_0_lt_compat]).
  rewrite pow2_sqrt by easy. replace (v / n / n) with (v * (/ n) ^ 2) by (field; lra). rewrite sqrt_mult by (easy || apply pow2_ge_0). rewrite sqrt_pow2 by (left; now apply Rinv_0_lt_compat). easy.
Qed.
Lemma disp_slope (f : datum -> num) d1 d2 : (forall p, f (bare p) = Num (d1 * infl1 pts p + d2 * infl2 pts p)) ->
  nsqrt ((snd (class (map f (map bare pts))))² / Num n)%num = Num (delta_slope pts d1 d2).
Proof.
  intros H. assert (N : 0 < n) by now apply size_pos. rewrite map_map. rewrite (class_eval (fun p => f (bare p)) (fun p => d1 * infl1 pts p + d2 * infl2 pts p)) by (easy || exact H).
  rewrite mix_sum. cbn [snd]. nums. fold n. rewrite ndiv_ok by lra. rewrite nsqrt_ok by (apply Rmult_le_pos; [apply pow2_ge_0|left; now apply Rinv_0_lt_compat]).
  f_equal. rewrite sqrt_nn by (apply Sum_nonneg; intros; apply pow2_ge_0). unfold delta_slope. fold n. f_equal. f_equal. apply Sum_ext. intros p _. field. lra.
Qed.
Lemma disp_inter (f : datum -> num) b d1 d2 : (forall p, f (bare p) = Num (snd p - b * fst p - mx pts * (d1 * infl1 pts p + d2 * infl2 pts p))) ->
  nsqrt ((snd (class (map f (map bare pts))))² / Num n)%num = Num (delta_inter pts b d1 d2).
Proof.
  intros H. assert (N : 0 < n) by now apply size_pos. rewrite map_map. rewrite (class_eval (fun p => f (bare p)) (fun p => snd p - b * fst p - mx pts * (d1 * infl1 pts p + d2 * infl2 pts p))) by (easy || exact H).
  assert (M : Sum (fun p => snd p - b * fst p - mx pts * (d1 * infl1 pts p + d2 * infl2 pts p)) pts / size pts = my pts - b * mx pts).
  { rewrite (Sum_ext _ (fun p => snd p + (- b * fst p + - mx pts * (d1 * infl1 pts p + d2 * infl2 pts p)))) by (intros; ring).
    rewrite Sum_add, Sum_add, Sum_scal, (Sum_scal (- mx pts) (fun p => d1 * infl1 pts p + d2 * infl2 pts p)), mix_sum. unfold my, mx. fold n. field. lra. }
  rewrite M. cbn [snd]. nums. fold n. rewrite ndiv_ok by lra. rewrite nsqrt_ok by (apply Rmult_le_pos; [apply pow2_ge_0|left; now apply Rinv_0_lt_compat]).
  f_equal. rewrite sqrt_nn by (apply Sum_nonneg; intros; apply pow2_ge_0). unfold delta_inter. fold n. f_equal. f_equal. apply Sum_ext. intros p _. ring.
Qed.

Lemma bess_eval : exists e, bess (map bare pts) = e /\
  e_b e = map Num [b1; b2; b3; b4] /\ e_a e = map (fun b => Num (through pts b)) [b1; b2; b3; b4] /\
  map nsqrt (e_bvar e) = [Num (delta_slope pts 1 0); Num (delta_slope pts 0 1); Num (delta_slope pts (ga * (1 + b2 ^ 2)) (ga * (1 + b1 ^ 2))); Num (delta_slope pts (b4 / (b1 ^ 2 * k)) (b4 / k))] /\
  map nsqrt (e_avar e) = [Num (delta_inter pts b1 1 0); Num (delta_inter pts b2 0 1); Num (delta_inter pts b3 (ga * (1 + b2 ^ 2)) (ga * (1 + b1 ^ 2))); Num (delta_inter pts b4 (b4 / (b1 ^ 2 * k)) (b4 / k))].
Proof.
  assert (N : 0 < n) by now apply size_pos. pose proof (Sxx_pos pts Hsxy) as Pxx. pose proof (Syy_pos pts Hsxy) as Pyy.
  pose proof (slope1_nz pts Hsxy) as N1. fold b1 in N1. pose proof (slopes_pos pts Hsxy) as P12. fold b1 b2 in P12.
  assert (Ns : b1 + b2 <> 0) by (intros E; replace b2 with (- b1) in P12 by lra; pose proof (pow2_ge_0 b1); lra).
  pose proof (pow2_ge_0 b1). pose proof (pow2_ge_0 b2). assert (Pr : 0 < (1 + b1 ^ 2) * (1 + b2 ^ 2)) by (apply Rmult_lt_0_compat; lra). assert (R0 : 0 < r) by now apply sqrt_lt_R0.
  assert (Pk : 0 < 4 + (b2 - 1 / b1) ^ 2) by (pose proof (pow2_ge_0 (b2 - 1 / b1)); lra). assert (K0 : 0 < k) by now apply sqrt_lt_R0.
  assert (C0 : count (map bare pts) = Num n) by (unfold count; now rewrite map_length).
  assert (Z11 : (nsum (fun d => ((Num (d_y1err d))²)%num) (map bare pts) / Num n)%num = Num 0).
  { rewrite nsum_map. rewrite (nsum_ok _ (fun _ => 0)) by (intros p; cbn [d_y1err bare]; nums; f_equal; ring). rewrite Sum_const, ndiv_ok by lra. f_equal. field. lra. }
  assert (Z22 : (nsum (fun d => ((Num (d_y2err d))²)%num) (map bare pts) / Num n)%num = Num 0).
  { rewrite nsum_map. rewrite (nsum_ok _ (fun _ => 0)) by (intros p; cbn [d_y2err bare]; nums; f_equal; ring). rewrite Sum_const, ndiv_ok by lra. f_equal. field. lra. }
  assert (Z12 : (nsum (fun d => Num (d_cerr d)) (map bare pts) / Num n)%num = Num 0).
  { rewrite nsum_map. rewrite (nsum_ok _ (fun _ => 0)) by (intros p; easy). rewrite Sum_const, ndiv_ok by lra. f_equal. field. lra. }
  assert (K1 : class (map (fun d => Num (d_y1 d)) (map bare pts)) = (Num (mx pts), Num (sqrt (Sxx pts / n)))) by (rewrite map_map; now rewrite (class_eval _ fst)).
  assert (K2 : class (map (fun d => Num (d_y2 d)) (map bare pts)) = (Num (my pts), Num (sqrt (Syy pts / n)))) by (rewrite map_map; now rewrite (class_eval _ snd)).
  assert (KC : (nsum (fun d => ((Num (d_y1 d) - Num (mx pts)) * (Num (d_y2 d) - Num (my pts)))%num) (map bare pts) / Num n)%num = Num (Sxy pts / n)).
  { rewrite nsum_map. rewrite (nsum_ok _ (fun p => (fst p - mx pts) * (snd p - my pts))) by (intros p; nums; easy). now rewrite ndiv_ok by lra. }
  assert (Dx : 0 < Sxx pts / n) by now apply Rdiv_lt_0_compat. assert (Dy : 0 < Syy pts / n) by now apply Rdiv_lt_0_compat.
  assert (Vx : (Num (sqrt (Sxx pts / n)))²%num = Num (Sxx pts / n)) by (nums; f_equal; apply pow2_sqrt; lra).
  assert (Vy : (Num (sqrt (Syy pts / n)))²%num = Num (Syy pts / n)) by (nums; f_equal; apply pow2_sqrt; lra).
  assert (Nc : Sxy pts / n <> 0) by (apply Rmult_integral_contrapositive_currified; [easy|apply Rinv_neq_0_compat; lra]).
  assert (E1 : ((Num (Sxy pts / n) - Num 0) / (Num (Sxx pts / n) - Num 0))%num = Num b1) by (nums; rewrite ndiv_ok by lra; f_equal; unfold b1, slope1; field; lra).
  assert (E2 : ((Num (Syy pts / n) - Num 0) / (Num (Sxy pts / n) - Num 0))%num = Num b2) by (nums; rewrite ndiv_ok by lra; f_equal; unfold b2, slope2; field; lra).
  assert (ER : nsqrt ((Num 1 + (Num b1)²) * (Num 1 + (Num b2)²))%num = Num r) by (nums; now rewrite nsqrt_ok by lra).
  assert (E3 : ((Num b1 * Num b2 - Num 1 + Num r) / (Num b1 + Num b2))%num = Num b3) by (nums; now rewrite ndiv_ok by easy).
  assert (EI : (Num 1 / Num b1)%num = Num (1 / b1)) by now apply ndiv_ok.
  assert (EK : nsqrt (Num 4 + (Num b2 - Num (1 / b1))²)%num = Num k) by (nums; now rewrite nsqrt_ok by lra).
  assert (ES : (if nneg (Num (Sxy pts / n)) then Num (-1) else Num 1) = Num sg).
  { cbn [nneg]. unfold sg, sign_of, Rltb. destruct (Rlt_dec (Sxy pts) 0) as [L|L]; destruct (Rlt_dec (Sxy pts / n) 0) as [L'|L']; try easy; exfalso.
    - apply L'. replace (Sxy pts / n) with (- (- Sxy pts / n)) by (field; lra). apply Ropp_lt_gt_0_contravar. apply Rdiv_lt_0_compat; lra.
    - assert (0 < Sxy pts / n) by (apply Rdiv_lt_0_compat; lra). lra. }
  assert (E4 : (Num (1 / 2) * (Num b2 - Num (1 / b1) + Num sg * Num k))%num = Num b4) by (nums; f_equal; unfold b4, nearest; fold k; field; easy).
  assert (X1 : forall p, (((Num (fst p) - Num (mx pts)) * (Num (snd p) - Num b1 * Num (fst p) - (Num (my pts) - Num b1 * Num (mx pts))) + Num b1 * (Num 0)²) / (Num (Sxx pts / n) - Num 0))%num = Num (infl1 pts p)).
  { intros p. nums. rewrite ndiv_ok by lra. f_equal. unfold infl1. fold n b1. field. lra. }
  assert (X2 : forall p, (((Num (snd p) - Num (my pts)) * (Num (snd p) - Num b2 * Num (fst p) - (Num (my pts) - Num b2 * Num (mx pts))) - (Num 0)²) / Num (Sxy pts / n))%num = Num (infl2 pts p)).
  { intros p. nums. rewrite ndiv_ok by lra. f_equal. unfold infl2. fold n b2. field. lra. }
  assert (Nr : (b1 + b2) * r <> 0) by (apply Rmult_integral_contrapositive_currified; lra). assert (Nk : b1 ^ 2 * k <> 0) by (apply Rmult_integral_contrapositive_currified; [now apply pow_nonzero|lra]).
  eexists. split; [reflexivity|]. unfold bess. rewrite C0, Z11, Z22, Z12, K1, K2, KC, Vx, Vy. cbv iota beta.
  cbn [e_b e_a e_bvar e_avar]. rewrite !E1, !E2, !ER, !E3, !EI, !EK, !ES, !E4.
  split; [easy|]. split; [easy|]. split; cbn [map]; repeat (apply f_equal2); try easy.
  - apply disp_slope. intros p. cbn [d_y1 d_y2 d_y1err bare]. rewrite X1. f_equal. ring.
  - apply disp_slope. intros p. cbn [d_y1 d_y2 d_y2err bare]. rewrite X2. f_equal. ring.
  - apply disp_slope. intros p. cbn [d_y1 d_y2 d_y1err d_y2err bare]. rewrite X1, X2. nums. rewrite !ndiv_ok by easy. nums. f_equal. unfold ga. field. lra.
  - apply disp_slope. intros p. cbn [d_y1 d_y2 d_y1err d_y2err bare]. rewrite X1, X2. nums. rewrite !ndiv_ok by (easy || lra). nums. f_equal. field. lra.
  - apply disp_inter. intros p. cbn [d_y1 d_y2 d_y1err bare]. rewrite X1. nums. f_equal. ring.
  - apply disp_inter. intros p. cbn [d_y1 d_y2 d_y2err bare]. rewrite X2. nums. f_equal. ring.
  - apply disp_inter. intros p. cbn [d_y1 d_y2 d_y1err d_y2err bare]. rewrite X1, X2. nums. rewrite !ndiv_ok by easy. nums. f_equal. unfold ga. field. lra.
  - apply disp_inter. intros p. cbn [d_y1 d_y2 d_y1err d_y2err bare]. rewrite X1, X2. nums. rewrite !ndiv_ok by (easy || lra). nums. f_equal. field. lra.
Qed.
End Bess.
