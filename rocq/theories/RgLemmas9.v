(** The errors of BCES. *)

From Coq Require Import List Bool Arith Reals Lra Lia.
From Verif Require Import Exn Instances McModel BaModel RgModel RgSpec RgLemmas RgLemmas2 RgLemmas3 RgLemmas4 RgLemmas5 RgLemmas7 RgLemmas8.
Import ListNotations.
Open Scope R_scope.

Section Errors.
Variable l : list datum.
Hypothesis Hne : l <> [].
Let c0 := covariance d_y1 d_y2 l.
Let c := c0 - average d_cerr l.
Let v1 := covariance d_y1 d_y1 l - average (fun d => d_y1err d ^ 2) l.
Let v2 := covariance d_y2 d_y2 l - average (fun d => d_y2err d ^ 2) l.
Hypothesis Hc : c <> 0.
Hypothesis Hc0 : c0 <> 0.
Hypothesis H1 : v1 <> 0.
Hypothesis H2 : v2 <> 0.
Let b1 := c / v1.
Let b2 := v2 / c.
Hypothesis Hb : b1 + b2 <> 0.
Let m1 := average d_y1 l.
Let m2 := average d_y2 l.
Let chi1 d := ((d_y1 d - m1) * (d_y2 d - m2 - b1 * (d_y1 d - m1)) + b1 * d_y1err d ^ 2) / v1.
Let chi2 d := ((d_y2 d - m2) * (d_y2 d - m2 - b2 * (d_y1 d - m1)) - d_y2err d ^ 2) / c0.
Let mix d1 d2 d := d1 * chi1 d + d2 * chi2 d.
Let zet b d1 d2 d := d_y2 d - b * d_y1 d - m1 * mix d1 d2 d.
Let b3 := half_way b1 b2.
Let b4 := nearest (sign_of c0) b1 b2.
Let r := sqrt ((1 + b1 ^ 2) * (1 + b2 ^ 2)).
Let k := sqrt (4 + (b2 - 1 / b1) ^ 2).
Let ga := b3 / ((b1 + b2) * r).
Let n := size l.

Lemma n_pos : 0 < n. Proof. unfold n, size. apply lt_0_INR. destruct l; [easy|cbn; lia]. Qed.
Lemma cov_pos (g : datum -> R) : 0 <= covariance g g l.
Proof. unfold covariance. unfold average at 1. apply Rmult_le_pos; [apply Sum_nonneg; intros d _; apply Rle_0_sqr|left; apply Rinv_0_lt_compat, n_pos]. Qed.
Lemma class_sd (f : datum -> num) (g : datum -> R) : (forall d, f d = Num (g d)) -> snd (class (map f l)) = Num (sqrt (covariance g g l)).
Proof. intros H. rewrite (class_eval f g) by easy. cbn [snd]. do 2 f_equal. unfold covariance. unfold average at 1. f_equal. apply Sum_ext. intros d _. unfold average. ring. Qed.
Lemma disp_var (f : datum -> num) (g : datum -> R) : (forall d, f d = Num (g d)) -> ((snd (class (map f l)))² / Num n)%num = Num (std_err g l ^ 2).
Proof.
  intros H. rewrite (class_sd f g H). pose proof n_pos. pose proof (cov_pos g). nums. rewrite ndiv_ok by lra. f_equal. unfold std_err. fold n. rewrite !pow2_sqrt; [easy|apply Rmult_le_pos; [easy|left; now apply Rinv_0_lt_compat]|easy].
Qed.
Lemma bess_errs : let e := bess l in
  e_bvar e = map (fun f => Num (std_err f l ^ 2)) [mix 1 0; mix 0 1; mix (ga * (1 + b2 ^ 2)) (ga * (1 + b1 ^ 2)); mix (b4 / (b1 ^ 2 * k)) (b4 / k)] /\
  e_avar e = map (fun f => Num (std_err f l ^ 2)) [zet b1 1 0; zet b2 0 1; zet b3 (ga * (1 + b2 ^ 2)) (ga * (1 + b1 ^ 2)); zet b4 (b4 / (b1 ^ 2 * k)) (b4 / k)] /\
  e_ifab3 e = Num ((ga * (1 + b2 ^ 2) * std_err (mix 1 0) l + ga * (1 + b1 ^ 2) * std_err (mix 0 1) l) ^ 2) /\
  e_ifab4 e = Num ((b4 / (b1 ^ 2 * k) * std_err (mix 1 0) l + b4 / k * std_err (mix 0 1) l) ^ 2).
Proof.
  pose proof n_pos as N.
  assert (Nv : forall f : datum -> R, 0 <= Sum (fun p => (f p - Sum f l / size l) ^ 2) l / size l) by (intros f; apply Rmult_le_pos; [apply Sum_nonneg; intros; apply pow2_ge_0|left; now apply Rinv_0_lt_compat]).
  assert (C0 : count l = Num n) by easy.
  assert (Z11 : (nsum (fun d => ((Num (d_y1err d))²)%num) l / Num n)%num = Num (average (fun d => d_y1err d ^ 2) l)) by (rewrite (nsum_ok _ (fun d => d_y1err d ^ 2)) by (intros p; nums; easy); now rewrite ndiv_ok by lra).
  assert (Z22 : (nsum (fun d => ((Num (d_y2err d))²)%num) l / Num n)%num = Num (average (fun d => d_y2err d ^ 2) l)) by (rewrite (nsum_ok _ (fun d => d_y2err d ^ 2)) by (intros p; nums; easy); now rewrite ndiv_ok by lra).
  assert (Z12 : (nsum (fun d => Num (d_cerr d)) l / Num n)%num = Num (average d_cerr l)) by (rewrite (nsum_ok _ d_cerr) by (intros p; easy); now rewrite ndiv_ok by lra).
  pose proof (class_eval (fun d => Num (d_y1 d)) d_y1 l Hne (fun _ => eq_refl)) as K1. pose proof (class_eval (fun d => Num (d_y2 d)) d_y2 l Hne (fun _ => eq_refl)) as K2.
  fold (average d_y1 l) in K1. fold (average d_y2 l) in K2. fold m1 in K1. fold m2 in K2.
  assert (KC : (nsum (fun d => ((Num (d_y1 d) - Num m1) * (Num (d_y2 d) - Num m2))%num) l / Num n)%num = Num c0).
  { rewrite (nsum_ok _ (fun d => (d_y1 d - m1) * (d_y2 d - m2))) by (intros p; nums; easy). now rewrite ndiv_ok by lra. }
  assert (Vx : (Num (sqrt (Sum (fun p => (d_y1 p - m1) ^ 2) l / size l)))²%num = Num (covariance d_y1 d_y1 l)).
  { nums. rewrite pow2_sqrt by apply (Nv d_y1). f_equal. unfold covariance. unfold average at 1. f_equal. apply Sum_ext. intros. unfold m1. ring. }
  assert (Vy : (Num (sqrt (Sum (fun p => (d_y2 p - m2) ^ 2) l / size l)))²%num = Num (covariance d_y2 d_y2 l)).
  { nums. rewrite pow2_sqrt by apply (Nv d_y2). f_equal. unfold covariance. unfold average at 1. f_equal. apply Sum_ext. intros. unfold m2. ring. }
  assert (N1 : b1 <> 0) by (apply Rmult_integral_contrapositive_currified; [exact Hc|now apply Rinv_neq_0_compat]).
  pose proof (pow2_ge_0 b1). pose proof (pow2_ge_0 b2). assert (Pr : 0 < (1 + b1 ^ 2) * (1 + b2 ^ 2)) by (apply Rmult_lt_0_compat; lra). assert (R0 : 0 < r) by now apply sqrt_lt_R0.
  assert (Pk : 0 < 4 + (b2 - 1 / b1) ^ 2) by (pose proof (pow2_ge_0 (b2 - 1 / b1)); lra). assert (K0 : 0 < k) by now apply sqrt_lt_R0.
  assert (E0 : (Num (covariance d_y1 d_y1 l) - Num (average (fun d => (d_y1err d ^ 2)%R) l))%num = Num v1) by (nums; easy).
  assert (E1 : ((Num c0 - Num (average d_cerr l)) / Num v1)%num = Num b1) by (nums; now rewrite ndiv_ok by easy).
  assert (E2 : ((Num (covariance d_y2 d_y2 l) - Num (average (fun d => (d_y2err d ^ 2)%R) l)) / (Num c0 - Num (average d_cerr l)))%num = Num b2) by (nums; now rewrite ndiv_ok by easy).
  assert (ER : nsqrt ((Num 1 + (Num b1)²) * (Num 1 + (Num b2)²))%num = Num r) by (nums; now rewrite nsqrt_ok by lra).
  assert (E3 : ((Num b1 * Num b2 - Num 1 + Num r) / (Num b1 + Num b2))%num = Num b3) by (nums; now rewrite ndiv_ok by easy).
  assert (EI : (Num 1 / Num b1)%num = Num (1 / b1)) by now apply ndiv_ok.
  assert (EK : nsqrt (Num 4 + (Num b2 - Num (1 / b1))²)%num = Num k) by (nums; now rewrite nsqrt_ok by lra).
  assert (ES : (if nneg (Num c0) then Num (-1) else Num 1) = Num (sign_of c0)) by (cbn [nneg]; unfold sign_of, Rltb; now destruct (Rlt_dec _ _)).
  assert (E4 : (Num (1 / 2) * (Num b2 - Num (1 / b1) + Num (sign_of c0) * Num k))%num = Num b4) by (nums; f_equal; unfold b4, nearest; fold k; field; easy).
  assert (X1 : forall d, (((Num (d_y1 d) - Num m1) * (Num (d_y2 d) - Num b1 * Num (d_y1 d) - (Num m2 - Num b1 * Num m1)) + Num b1 * (Num (d_y1err d))²) / Num v1)%num = Num (chi1 d)).
  { intros d. nums. rewrite ndiv_ok by easy. f_equal. unfold chi1. f_equal. ring. }
  assert (X2 : forall d, (((Num (d_y2 d) - Num m2) * (Num (d_y2 d) - Num b2 * Num (d_y1 d) - (Num m2 - Num b2 * Num m1)) - (Num (d_y2err d))²) / Num c0)%num = Num (chi2 d)).
  { intros d. nums. rewrite ndiv_ok by easy. f_equal. unfold chi2. f_equal. ring. }
  assert (Nr : (b1 + b2) * r <> 0) by (apply Rmult_integral_contrapositive_currified; lra). assert (Nk : b1 ^ 2 * k <> 0) by (apply Rmult_integral_contrapositive_currified; [now apply pow_nonzero|lra]).
  assert (Q : forall x, x <> 0 -> x ^ 2 <> 0) by (intros; now apply pow_nonzero).
  assert (D1 : forall f : datum -> num, (forall d, f d = Num (chi1 d)) -> snd (class (map f l)) = Num (sqrt (covariance (mix 1 0) (mix 1 0) l))).
  { intros f Hf. apply class_sd. intros d. rewrite Hf. f_equal. unfold mix. ring. }
  assert (D2 : forall f : datum -> num, (forall d, f d = Num (chi2 d)) -> snd (class (map f l)) = Num (sqrt (covariance (mix 0 1) (mix 0 1) l))).
  { intros f Hf. apply class_sd. intros d. rewrite Hf. f_equal. unfold mix. ring. }
  assert (SS : forall g : datum -> R, sqrt (covariance g g l) ^ 2 / n = std_err g l ^ 2).
  { intros g. unfold std_err. fold n. pose proof (cov_pos g). rewrite !pow2_sqrt; [easy|apply Rmult_le_pos; [easy|left; now apply Rinv_0_lt_compat]|easy]. }
  assert (SP : forall g h : datum -> R, sqrt (covariance g g l) * sqrt (covariance h h l) / n = std_err g l * std_err h l).
  { intros g h. unfold std_err. fold n. unfold Rdiv. pose proof (cov_pos g). pose proof (cov_pos h). pose proof (Rinv_0_lt_compat _ N). rewrite !sqrt_mult by lra. rewrite <- (sqrt_sqrt (/ n)) at 1 by lra. ring. }
  cbv zeta. unfold bess. rewrite C0, Z11, Z22, Z12, K1, K2. cbv iota beta. rewrite KC, Vx, Vy. cbn [e_bvar e_avar e_ifab3 e_ifab4].
  rewrite !E0, !E1, !E2, !ER, !E3, !EI, !EK, !ES, !E4.
  split; [|split; [|split]].
  - cbn [map]. repeat (apply f_equal2); try easy; apply disp_var; intros d; rewrite ?X1, ?X2; nums; rewrite ?ndiv_ok by (easy || lra); nums; f_equal; unfold mix, ga; field; lra.
  - cbn [map]. repeat (apply f_equal2); try easy; apply disp_var; intros d; rewrite ?X1, ?X2; nums; rewrite ?ndiv_ok by (easy || lra); nums; f_equal; unfold zet, mix, ga; field; lra.
  - rewrite (D1 _ X1), (D2 _ X2). nums. rewrite !(ndiv_ok _ n) by lra. rewrite !SS, SP. rewrite ndiv_ok by (apply Rmult_integral_contrapositive_currified; [apply Rmult_integral_contrapositive_currified; [now apply Q|lra]|lra]).
    nums. f_equal. set (s1 := std_err (mix 1 0) l). set (s2 := std_err (mix 0 1) l).
    assert (G : ga ^ 2 = b3 ^ 2 / ((b1 + b2) ^ 2 * (1 + b1 ^ 2) * (1 + b2 ^ 2))).
    { unfold ga. replace ((b3 / ((b1 + b2) * r)) ^ 2) with (b3 ^ 2 / ((b1 + b2) ^ 2 * r ^ 2)) by (field; lra). unfold r. rewrite pow2_sqrt by lra. f_equal. ring. }
    transitivity (ga ^ 2 * ((1 + b2 ^ 2) * s1 + (1 + b1 ^ 2) * s2) ^ 2); [rewrite G; ring|ring].
  - assert (G : 4 * b1 ^ 2 + (b1 * b2 - 1) ^ 2 = b1 ^ 2 * k ^ 2) by (unfold k; rewrite pow2_sqrt by lra; field; easy).
    rewrite (D1 _ X1), (D2 _ X2). nums. rewrite !(ndiv_ok _ n) by lra. rewrite !SS, SP. rewrite G. rewrite !ndiv_ok by (easy || (apply Rmult_integral_contrapositive_currified; apply Q; lra) || (apply Q; lra)).
    nums. f_equal. set (s1 := std_err (mix 1 0) l). set (s2 := std_err (mix 0 1) l). field. lra.
Qed.
End Errors.

Lemma cov_S {A} (f g : A -> R) l : let pts := map (fun d => (f d, g d)) l in
  covariance f g l = Sxy pts / size l /\ covariance f f l = Sxx pts / size l /\ covariance g g l = Syy pts / size l.
Proof.
  intros pts. assert (M1 : mx pts = average f l) by (unfold mx, pts, size, average, size; rewrite Sum_map, map_length; easy). assert (M2 : my pts = average g l) by (unfold my, pts, size, average, size; rewrite Sum_map, map_length; easy).
  unfold Sxy, Sxx, Syy. rewrite M1, M2. unfold pts. rewrite !Sum_map. cbn [fst snd]. unfold covariance.
  split; [reflexivity|]. split; unfold average at 1; f_equal; apply Sum_ext; intros; ring.
Qed.
Lemma cov_mix {A} (f g : A -> R) l d1 d2 : l <> [] ->
  covariance (fun d => d1 * f d + d2 * g d) (fun d => d1 * f d + d2 * g d) l = d1 ^ 2 * covariance f f l + 2 * d1 * d2 * covariance f g l + d2 ^ 2 * covariance g g l.
Proof.
  intros Hl. assert (N : 0 < size l) by (unfold size; apply lt_0_INR; destruct l; [easy|cbn; lia]).
  assert (M : average (fun d => d1 * f d + d2 * g d) l = d1 * average f l + d2 * average g l) by (unfold average; rewrite Sum_add, !Sum_scal; field; lra).
  unfold covariance. rewrite M. set (a := average f l). set (b := average g l). unfold average.
  rewrite (Sum_ext _ (fun d => d1 ^ 2 * ((f d - a) * (f d - a)) + (2 * d1 * d2 * ((f d - a) * (g d - b)) + d2 ^ 2 * ((g d - b) * (g d - b))))) by (intros; ring).
  rewrite !Sum_add. rewrite (Sum_scal (d1 ^ 2) (fun d => (f d - a) * (f d - a))), (Sum_scal (2 * d1 * d2) (fun d => (f d - a) * (g d - b))), (Sum_scal (d2 ^ 2) (fun d => (g d - b) * (g d - b))). field. lra.
Qed.
(** A sum of two quantities varies at most as if they were perfectly correlated. *)
Lemma mix_le {A} (f g : A -> R) l d1 d2 : l <> [] -> 0 <= d1 * d2 ->
  std_err (fun d => d1 * f d + d2 * g d) l <= Rabs (d1 * std_err f l + d2 * std_err g l).
Proof.
  intros Hl Hd. assert (N : 0 < size l) by (unfold size; apply lt_0_INR; destruct l; [easy|cbn; lia]). pose proof (Rinv_0_lt_compat _ N) as NI.
  destruct (cov_S f g l) as (C1 & C2 & C3). set (pts := map (fun d => (f d, g d)) l) in *.
  pose proof (cauchy pts ltac:(unfold pts; destruct l; easy)) as C.
  assert (Px : 0 <= Sxx pts) by (apply Sum_nonneg; intros; apply pow2_ge_0). assert (Py : 0 <= Syy pts) by (apply Sum_nonneg; intros; apply pow2_ge_0).
  rewrite <- sqrt_Rsqr_abs. unfold std_err. apply sqrt_le_1_alt. rewrite cov_mix by easy. rewrite C1, C2, C3. unfold Rsqr.
  assert (X : sqrt (Sxx pts / size l / size l) = sqrt (Sxx pts) / size l).
  { replace (Sxx pts / size l / size l) with (Sxx pts * (/ size l) ^ 2) by (field; lra). rewrite sqrt_mult by (easy || apply pow2_ge_0). rewrite sqrt_pow2 by lra. easy. }
  assert (Y : sqrt (Syy pts / size l / size l) = sqrt (Syy pts) / size l).
  { replace (Syy pts / size l / size l) with (Syy pts * (/ size l) ^ 2) by (field; lra). rewrite sqrt_mult by (easy || apply pow2_ge_0). rewrite sqrt_pow2 by lra. easy. }
  rewrite X, Y. pose proof (sqrt_sqrt _ Px) as Qx. pose proof (sqrt_sqrt _ Py) as Qy. set (p := sqrt (Sxx pts)) in *. set (q := sqrt (Syy pts)) in *.
  assert (S : Sxy pts <= p * q).
  { assert (0 <= p * q) by (apply Rmult_le_pos; apply sqrt_pos). destruct (Rle_lt_dec (Sxy pts) (p * q)) as [?|L]; [easy|]. exfalso.
    assert (p * q * (p * q) < Sxy pts * Sxy pts) by (apply Rmult_le_0_lt_compat; lra). rewrite <- Qx, <- Qy in C. lra. }
  rewrite <- Qx, <- Qy. apply (Rmult_le_compat_l _ _ _ Hd) in S.
  replace ((d1 ^ 2 * (p * p / size l) + 2 * d1 * d2 * (Sxy pts / size l) + d2 ^ 2 * (q * q / size l)) / size l) with ((d1 ^ 2 * (p * p) + 2 * (d1 * d2 * Sxy pts) + d2 ^ 2 * (q * q)) * / size l ^ 2) by (field; lra).
  replace ((d1 * (p / size l) + d2 * (q / size l)) * (d1 * (p / size l) + d2 * (q / size l))) with ((d1 ^ 2 * (p * p) + 2 * (d1 * d2 * (p * q)) + d2 ^ 2 * (q * q)) * / size l ^ 2) by (field; lra).
  apply Rmult_le_compat_r; [left; apply Rinv_0_lt_compat, pow_lt; easy|lra].
Qed.
Lemma std_err_ext {A} (f g : A -> R) l : (forall d, f d = g d) -> std_err f l = std_err g l.
Proof.
  intros H. assert (X : forall h h' : A -> R, (forall d, h d = h' d) -> average h l = average h' l) by (intros h h' K; unfold average; f_equal; apply Sum_ext; intros; apply K).
  unfold std_err. do 2 f_equal. unfold covariance. apply X. intros d. now rewrite (X f g H), H.
Qed.
Lemma std_err_scal {A} c (f : A -> R) l : c * c = 1 -> l <> [] -> std_err (fun d => c * f d) l = std_err f l.
Proof.
  intros H Hl. rewrite (std_err_ext _ (fun d => c * f d + 0 * f d) l) by (intros; ring). unfold std_err. rewrite cov_mix by easy. do 2 f_equal. replace (c ^ 2) with (c * c) by ring. rewrite H. ring.
Qed.
Lemma nsqrt_sq a : nsqrt (Num (a ^ 2)) = Num (Rabs a).
Proof. rewrite nsqrt_ok by apply pow2_ge_0. f_equal. rewrite <- sqrt_Rsqr_abs. unfold Rsqr. f_equal. ring. Qed.
Lemma nsqrt_err {A} (f : A -> R) l : nsqrt (Num (std_err f l ^ 2)) = Num (std_err f l).
Proof. rewrite nsqrt_sq. f_equal. apply Rabs_right, Rle_ge, sqrt_pos. Qed.

Lemma bces_errors_l l : (2 <= length l)%nat -> (forall d, In d l -> d_cerr d = 0) ->
  let c := covariance d_y1 d_y2 l in
  let v1 := covariance d_y1 d_y1 l - average (fun d => d_y1err d ^ 2) l in
  let v2 := covariance d_y2 d_y2 l - average (fun d => d_y2err d ^ 2) l in
  let b1 := c / v1 in
  let b2 := v2 / c in
  let m1 := average d_y1 l in
  let m2 := average d_y2 l in
  let sg := sign_of c in
  let chi1 d := ((d_y1 d - m1) * (d_y2 d - m2 - b1 * (d_y1 d - m1)) + b1 * d_y1err d ^ 2) / v1 in
  let chi2 d := ((d_y2 d - m2) * (d_y2 d - m2 - b2 * (d_y1 d - m1)) - d_y2err d ^ 2) / c in
  let zeta b d1 d2 d := d_y2 d - b * d_y1 d - m1 * (d1 * chi1 d + d2 * chi2 d) in
  c <> 0 -> 0 < v1 -> 0 < v2 ->
  exists r, BCES (map d_y1 l) (Each (map d_y1err l)) (map d_y2 l) (Each (map d_y2err l)) (Each (map d_cerr l)) = Ok r /\
    r_serr (c_yonx r) = Num (std_err chi1 l) /\ r_ierr (c_yonx r) = Num (std_err (zeta b1 1 0) l) /\
    r_serr (c_xony r) = Num (std_err chi2 l) /\ r_ierr (c_xony r) = Num (std_err (zeta b2 0 1) l) /\
    (exists b d1 d2 se, from_slopes half_way b1 b2 b d1 d2 /\ r_serr (c_bisect r) = Num (std_err (fun d => d1 * chi1 d + d2 * chi2 d) l) /\
      r_ierr (c_bisect r) = Num (std_err (zeta b d1 d2) l) /\
      c_bisect_ifab r = Num se /\ se = Rabs (d1 * std_err chi1 l + d2 * std_err chi2 l) /\ std_err (fun d => d1 * chi1 d + d2 * chi2 d) l <= se) /\
    (exists b d1 d2 se, from_slopes (nearest sg) b1 b2 b d1 d2 /\ r_serr (c_orthog r) = Num (std_err (fun d => d1 * chi1 d + d2 * chi2 d) l) /\
      r_ierr (c_orthog r) = Num (std_err (zeta b (sg * d1) (sg * d2)) l) /\
      c_orthog_ifab r = Num se /\ se = Rabs (d1 * std_err chi1 l + d2 * std_err chi2 l) /\ std_err (fun d => d1 * chi1 d + d2 * chi2 d) l <= se).
Proof.
  intros Hn Hz. assert (Hne : l <> []) by (destruct l; cbn in Hn; [lia|easy]). assert (Hx : map d_y1 l <> []) by (destruct l; easy). assert (Hy : map d_y2 l <> []) by (destruct l; easy).
  intros c v1 v2 b1 b2 m1 m2 sg chi1 chi2 zeta Hc P1 P2.
  assert (Z : average d_cerr l = 0). { unfold average. rewrite (Sum_ext _ (fun _ => 0)) by exact Hz. rewrite Sum_const. unfold Rdiv. ring. }
  assert (P12 : 0 < b1 * b2). { unfold b1, b2. replace (c / v1 * (v2 / c)) with (v2 / v1) by (field; lra). now apply Rdiv_lt_0_compat. }
  pose proof (bess_errs l Hne) as T. cbv zeta in T. rewrite Z, Rminus_0_r in T. fold c v1 v2 b1 b2 m1 m2 in T.
  assert (Nb : b1 + b2 <> 0) by now apply uv_nz.
  destruct (T Hc Hc ltac:(lra) ltac:(lra) Nb) as (Eb & Ea & E3 & E4). clear T. fold sg in Eb, Ea, E4.
  unfold BCES. cbn [spread]. rewrite !map_length, !Nat.eqb_refl. cbn [negb]. rewrite (proj2 (Nat.ltb_ge _ _) Hn). rewrite data_back. cbv zeta.
  rewrite Eb, Ea, E3, E4. cbn [map]. unfold pick at 3 4 7 8 11 12 15 16. cbn [nth]. rewrite !nsqrt_err, !nsqrt_sq.
  do 4 (match goal with |- context [linreg ?s ?i ?se ?ie (map d_y1 l) (map d_y2 l) (Some ?z) (Some ?z')] => let r := fresh "r" in let E := fresh in
    destruct (linreg_ok s i se ie (map d_y1 l) (map d_y2 l) (Some z) (Some z') Hx Hy) as (r & E & ? & ? & ? & ? & _);
      [cbn; now rewrite !map_length|cbn; now rewrite !map_length|rewrite E; clear E] end).
  eexists. split; [reflexivity|]. cbn [c_yonx c_xony c_bisect c_orthog c_bisect_ifab c_orthog_ifab].
  assert (X1 : std_err (fun d => 1 * chi1 d + 0 * chi2 d) l = std_err chi1 l) by (apply std_err_ext; intros; ring).
  assert (X2 : std_err (fun d => 0 * chi1 d + 1 * chi2 d) l = std_err chi2 l) by (apply std_err_ext; intros; ring).
  pose proof (pow2_ge_0 b1) as G1. pose proof (pow2_ge_0 b2) as G2. assert (Q : sg * sg = 1) by (unfold sg, sign_of; destruct (Rlt_dec c 0); ring).
  split; [etransitivity; [eassumption|]; apply f_equal; exact X1|]. split; [assumption|].
  split; [etransitivity; [eassumption|]; apply f_equal; exact X2|]. split; [assumption|].
  split.
  - set (ga := half_way b1 b2 / ((b1 + b2) * sqrt ((1 + b1 ^ 2) * (1 + b2 ^ 2)))).
    exists (half_way b1 b2), (ga * (1 + b2 ^ 2)), (ga * (1 + b1 ^ 2)), (Rabs (ga * (1 + b2 ^ 2) * std_err chi1 l + ga * (1 + b1 ^ 2) * std_err chi2 l)).
    split; [split; [reflexivity|]; split; [now apply half_d1|now apply half_d2]|]. split; [assumption|]. split; [assumption|].
    split; [rewrite <- X1, <- X2; reflexivity|]. split; [reflexivity|]. apply (mix_le chi1 chi2 l); [exact Hne|].
    replace (ga * (1 + b2 ^ 2) * (ga * (1 + b1 ^ 2))) with (ga ^ 2 * ((1 + b2 ^ 2) * (1 + b1 ^ 2))) by ring. apply Rmult_le_pos; [apply pow2_ge_0|apply Rmult_le_pos; lra].
  - set (k := sqrt (4 + (b2 - 1 / b1) ^ 2)). set (b4 := nearest sg b1 b2). assert (K0 : 0 < k) by apply k_pos. assert (N1 : b1 <> 0) by (apply (u_nz b1 b2 P12)).
    assert (D1 : sg * b4 / (b1 ^ 2 * k) = sg * (b4 / (b1 ^ 2 * k))) by (unfold Rdiv; ring). assert (D2 : sg * b4 / k = sg * (b4 / k)) by (unfold Rdiv; ring).
    exists b4, (sg * b4 / (b1 ^ 2 * k)), (sg * b4 / k), (Rabs (sg * b4 / (b1 ^ 2 * k) * std_err chi1 l + sg * b4 / k * std_err chi2 l)).
    split; [split; [reflexivity|]; split; [now apply nearest_d1|now apply nearest_d2]|].
    split. { etransitivity; [eassumption|]. apply f_equal. rewrite D1, D2. rewrite <- (std_err_scal sg _ l Q Hne). apply std_err_ext. intros d. fold (chi1 d) (chi2 d) k b4. ring. }
    split. { etransitivity; [eassumption|]. apply f_equal. rewrite D1, D2, <- !Rmult_assoc, Q, !Rmult_1_l. reflexivity. }
    split. { apply f_equal. rewrite D1, D2. replace (sg * (b4 / (b1 ^ 2 * k)) * std_err chi1 l + sg * (b4 / k) * std_err chi2 l) with (sg * (b4 / (b1 ^ 2 * k) * std_err chi1 l + b4 / k * std_err chi2 l)) by ring.
      rewrite Rabs_mult. replace (Rabs sg) with 1 by (unfold sg, sign_of; destruct (Rlt_dec c 0); unfold Rabs; destruct (Rcase_abs _); lra). rewrite Rmult_1_l, <- X1, <- X2. reflexivity. }
    split; [reflexivity|]. apply (mix_le chi1 chi2 l); [exact Hne|].
    replace (sg * b4 / (b1 ^ 2 * k) * (sg * b4 / k)) with (sg * sg * (b4 / (b1 * k)) ^ 2) by (field; lra). rewrite Q. rewrite Rmult_1_l. apply pow2_ge_0.
Qed.
