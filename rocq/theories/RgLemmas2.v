(** The values that SIXLIN and DATSTT calculate. *)

From Coq Require Import List Bool Arith Reals Lra Lia.
From Verif Require Import Exn Instances McModel BaModel RgModel RgSpec RgLemmas.
Import ListNotations.
Open Scope R_scope.

Lemma avg_x x y : length x = length y -> (1 <= length x)%nat -> (nsum Num x / count x)%num = Num (mx (combine x y)).
Proof.
  intros H H1. rewrite (nsum_ok Num (fun v => v)) by easy. unfold count. rewrite ndiv_ok by (apply not_0_INR; lia).
  f_equal. unfold mx, size. rewrite Sum_fst by exact H. rewrite combine_length, <- H, Nat.min_id. easy.
Qed.
Lemma avg_y x y : length x = length y -> (1 <= length x)%nat -> (nsum Num y / count x)%num = Num (my (combine x y)).
Proof.
  intros H H1. rewrite (nsum_ok Num (fun v => v)) by easy. unfold count. rewrite ndiv_ok by (apply not_0_INR; lia).
  f_equal. unfold my, size. rewrite Sum_snd by exact H. rewrite combine_length, <- H, Nat.min_id. easy.
Qed.
Lemma count_eq (x y : list R) : length x = length y -> count x = Num (size (combine x y)).
Proof. intros H. unfold count, size. now rewrite combine_length, <- H, Nat.min_id. Qed.
Lemma pts_ne (x y : list R) : length x = length y -> (1 <= length x)%nat -> combine x y <> [].
Proof. destruct x, y; cbn; intros; try lia; easy. Qed.

Ltac nums := repeat first [rewrite nsq_ok | rewrite nadd_ok | rewrite nsub_ok | rewrite nmul_ok].
(** The first of a sequence of definitions is the number r. *)
Ltac step r :=
  lazymatch goal with
  | |- (let v := ?e in @?k v) = ?rhs =>
      let H := fresh in assert (H : e = Num r); [|change (k e = rhs); rewrite H; clear H; cbv beta]
  end.
(** A definition that is only a name *)
Ltac name :=
  lazymatch goal with
  | |- (let v := ?e in @?k v) = ?rhs => change (k e = rhs); cbv beta
  end.

Section Six.
Variables x y : list R.
Hypothesis Hlen : length x = length y.
Hypothesis Hn : (1 <= length x)%nat.
Let pts := combine x y.
Let X (p : R * R) := fst p - mx pts.
Let Y (p : R * R) := snd p - my pts.
Let n := size pts.
Let b1 := slope1 pts.
Let b2 := slope2 pts.
Let sg := sign_of (Sxy pts).
Let b3 := half_way b1 b2.
Let b4 := nearest sg b1 b2.
Let b5 := geometric sg b1 b2.
Let b6 := arithmetic b1 b2.
Let ga1 := b3 / ((b1 + b2) * sqrt ((1 + b1 ^ 2) * (1 + b2 ^ 2))).
Let ga2 := b4 / sqrt (4 * b1 ^ 2 + (b1 * b2 - 1) ^ 2).
Let A p := X p * (Y p - b1 * X p).
Let B p := Y p * (Y p - b2 * X p).
Let sum1 := Sum (fun p => A p ^ 2) pts.
Let sum2 := Sum (fun p => B p ^ 2) pts.
Let sum3 := Sum (fun p => X p * Y p * (Y p - b1 * X p) * (Y p - b2 * X p)) pts.
Let cov := sum3 / (b1 * Sxx pts ^ 2).
Let v1 := sum1 / Sxx pts ^ 2.
Let v2 := sum2 / Sxy pts ^ 2.
Let v3 := ga1 ^ 2 * ((1 + b2 ^ 2) ^ 2 * v1 + 2 * (1 + b1 ^ 2) * (1 + b2 ^ 2) * cov + (1 + b1 ^ 2) ^ 2 * v2).
Let v4 := ga2 ^ 2 * (v1 / b1 ^ 2 + 2 * cov + b1 ^ 2 * v2).
Let v5 := 1 / 4 * (b2 * v1 / b1 + 2 * cov + b1 * v2 / b2).
Let v6 := 1 / 4 * (v1 + 2 * cov + v2).
Let w1 := Sum (fun p => ((Y p - b1 * X p) * (1 - n * mx pts * X p / Sxx pts)) ^ 2) pts.
Let w2 := Sum (fun p => ((Y p - b2 * X p) * (1 - n * mx pts * Y p / Sxy pts)) ^ 2) pts.
Let w3 := Sum (fun p => ((A p * (1 + b2 ^ 2) / Sxx pts + B p * (1 + b1 ^ 2) / Sxy pts) * ga1 * mx pts * n - Y p + b3 * X p) ^ 2) pts.
Let w4 := Sum (fun p => ((A p / Sxx pts + B p * b1 ^ 2 / Sxy pts) * ga2 * mx pts * n / sqrt (b1 ^ 2) - Y p + b4 * X p) ^ 2) pts.
Let w5 := Sum (fun p => ((A p * sqrt (b2 / b1) / Sxx pts + B p * sqrt (b1 / b2) / Sxy pts) * (1 / 2) * n * mx pts - Y p + b5 * X p) ^ 2) pts.
Let w6 := Sum (fun p => ((A p / Sxx pts + B p / Sxy pts) * (1 / 2) * n * mx pts - Y p + b6 * X p) ^ 2) pts.
Hypothesis Hsxy : Sxy pts <> 0.

Lemma Hne : pts <> []. Proof. now apply pts_ne. Qed.
Lemma n_pos : 0 < n. Proof. apply size_pos, Hne. Qed.
Lemma sxx_pos : 0 < Sxx pts. Proof. apply Sxx_pos, Hsxy. Qed.
Lemma syy_pos : 0 < Syy pts. Proof. apply Syy_pos, Hsxy. Qed.
Lemma b1_nz : b1 <> 0.
Proof. pose proof sxx_pos. unfold b1, slope1. apply Rmult_integral_contrapositive_currified; [exact Hsxy|apply Rinv_neq_0_compat; lra]. Qed.
Lemma b2_nz : b2 <> 0.
Proof. pose proof syy_pos. unfold b2, slope2. apply Rmult_integral_contrapositive_currified; [lra|now apply Rinv_neq_0_compat]. Qed.
Lemma b12_pos : 0 < b1 * b2.
Proof. pose proof sxx_pos. pose proof syy_pos. unfold b1, b2, slope1, slope2. replace (_ * _) with (Syy pts / Sxx pts) by (field; lra). now apply Rdiv_lt_0_compat. Qed.
Lemma b_sum : b1 + b2 <> 0.
Proof.
  pose proof b12_pos. intros E. replace b2 with (- b1) in * by lra. pose proof (pow2_ge_0 b1). lra.
Qed.
Lemma root_pos : 0 < (1 + b1 ^ 2) * (1 + b2 ^ 2).
Proof. pose proof (pow2_ge_0 b1). pose proof (pow2_ge_0 b2). apply Rmult_lt_0_compat; lra. Qed.
Lemma root4_pos : 0 < 4 * b1 ^ 2 + (b1 * b2 - 1) ^ 2.
Proof. pose proof b1_nz. pose proof (pow2_ge_0 (b1 * b2 - 1)). assert (0 < b1 ^ 2) by (apply pow2_gt_0; easy). lra. Qed.
Lemma ratio21 : 0 < b2 / b1.
Proof. pose proof b12_pos. pose proof b1_nz. replace (b2 / b1) with (b1 * b2 / b1 ^ 2) by (field; easy). apply Rdiv_lt_0_compat; [easy|now apply pow2_gt_0]. Qed.
Lemma ratio12 : 0 < b1 / b2.
Proof. pose proof b12_pos. pose proof b2_nz. replace (b1 / b2) with (b1 * b2 / b2 ^ 2) by (field; easy). apply Rdiv_lt_0_compat; [easy|now apply pow2_gt_0]. Qed.
Lemma b1_sxx : b1 * Sxx pts = Sxy pts.
Proof. pose proof sxx_pos. unfold b1, slope1. field. lra. Qed.
(** The sum of squares with factors *)
Lemma two_sum (c d : R) : Sum (fun p => (c * A p + d * B p) ^ 2) pts = c ^ 2 * sum1 + 2 * c * d * sum3 + d ^ 2 * sum2.
Proof.
  rewrite (Sum_ext _ (fun p => c ^ 2 * A p ^ 2 + (2 * c * d * (X p * Y p * (Y p - b1 * X p) * (Y p - b2 * X p)) + d ^ 2 * B p ^ 2))) by (intros; unfold A, B; ring).
  rewrite !Sum_add, !Sum_scal. unfold sum1, sum2, sum3. ring.
Qed.
Lemma two_form (c d : R) : c ^ 2 * v1 + 2 * c * d * cov + d ^ 2 * v2 = Sum (fun p => (c / Sxx pts * A p + d / Sxy pts * B p) ^ 2) pts.
Proof.
  rewrite two_sum. unfold v1, v2, cov. rewrite <- b1_sxx. pose proof sxx_pos. pose proof b1_nz. field. repeat split; solve [easy|lra].
Qed.
Lemma form_nonneg (c d : R) : 0 <= c ^ 2 * v1 + 2 * c * d * cov + d ^ 2 * v2.
Proof. rewrite two_form. apply Sum_nonneg. intros. apply pow2_ge_0. Qed.
Lemma v1_nonneg : 0 <= v1.
Proof. pose proof (form_nonneg 1 0). lra. Qed.
Lemma v2_nonneg : 0 <= v2.
Proof. pose proof (form_nonneg 0 1). lra. Qed.
Lemma v3_eq : v3 = (ga1 * (1 + b2 ^ 2)) ^ 2 * v1 + 2 * (ga1 * (1 + b2 ^ 2)) * (ga1 * (1 + b1 ^ 2)) * cov + (ga1 * (1 + b1 ^ 2)) ^ 2 * v2.
Proof. unfold v3. ring. Qed.
Lemma v4_eq : v4 = (ga2 / b1) ^ 2 * v1 + 2 * (ga2 / b1) * (ga2 * b1) * cov + (ga2 * b1) ^ 2 * v2.
Proof. unfold v4. field. exact b1_nz. Qed.
Lemma v5_eq : v5 = (sqrt (b2 / b1) / 2) ^ 2 * v1 + 2 * (sqrt (b2 / b1) / 2) * (sqrt (b1 / b2) / 2) * cov + (sqrt (b1 / b2) / 2) ^ 2 * v2.
Proof.
  pose proof ratio21. pose proof ratio12. pose proof b1_nz. pose proof b2_nz.
  replace (2 * (sqrt (b2 / b1) / 2) * (sqrt (b1 / b2) / 2)) with (1 / 2 * (sqrt (b2 / b1) * sqrt (b1 / b2))) by field.
  rewrite <- sqrt_mult by lra. replace (b2 / b1 * (b1 / b2)) with 1 by (field; easy). rewrite sqrt_1.
  replace ((sqrt (b2 / b1) / 2) ^ 2) with (sqrt (b2 / b1) ^ 2 / 4) by field. replace ((sqrt (b1 / b2) / 2) ^ 2) with (sqrt (b1 / b2) ^ 2 / 4) by field.
  rewrite !pow2_sqrt by lra. unfold v5. field. easy.
Qed.
Lemma v6_eq : v6 = (1 / 2) ^ 2 * v1 + 2 * (1 / 2) * (1 / 2) * cov + (1 / 2) ^ 2 * v2.
Proof. unfold v6. field. Qed.

Lemma nums_sqrt a : 0 <= a -> nsqrt (Num a) = Num (sqrt a). Proof. apply nsqrt_ok. Qed.

Lemma sixlin_eval : sixlin x y = Some (Six
  (map (fun b => Num (my pts - b * mx pts)) [b1; b2; b3; b4; b5; b6])
  (map (fun w => Num (sqrt w / n)) [w1; w2; w3; w4; w5; w6])
  (map Num [b1; b2; b3; b4; b5; b6]) (map (fun v => Num (sqrt v)) [v1; v2; v3; v4; v5; v6])
  (map Num x) (map Num y)).
Proof.
  pose proof n_pos as Pn. pose proof sxx_pos as Pxx. pose proof syy_pos as Pyy. pose proof b1_nz as N1. pose proof b2_nz as N2.
  pose proof b12_pos as P12. pose proof b_sum as Ns. pose proof root_pos as Pr. pose proof root4_pos as Pr4. pose proof ratio21 as P21. pose proof ratio12 as P12'.
  assert (Nxx : Sxx pts <> 0) by lra.
  cbv beta delta [sixlin].
  step n. { now apply count_eq. }
  step (mx pts). { pose proof (avg_x x y Hlen Hn) as E; rewrite (count_eq x y Hlen) in E; exact E. }
  step (my pts). { pose proof (avg_y x y Hlen Hn) as E; rewrite (count_eq x y Hlen) in E; exact E. }
  name. fold pts.
  step (Sxx pts). { rewrite nsum_map. apply nsum_ok. intros p. cbn [fst]. nums. easy. }
  step (Syy pts). { rewrite nsum_map. apply nsum_ok. intros p. cbn [snd]. nums. easy. }
  step (Sxy pts). { rewrite nsum_map. apply nsum_ok. intros p. cbn [fst snd]. nums. easy. }
  change (nzero (Num (Sxy pts))) with (Reqb (Sxy pts) 0). rewrite (proj2 (Reqb_false _ _) Hsxy). cbv iota.
  step sg. { cbn [nneg]. unfold sg, sign_of, Rltb. now destruct (Rlt_dec _ _). }
  do 5 name.
  step b1. { now apply ndiv_ok. }
  step b2. { now apply ndiv_ok. }
  step b3. { nums. rewrite nsqrt_ok by lra. nums. now apply ndiv_ok. }
  step b4. { rewrite !(ndiv_ok 1) by easy. nums. rewrite nsqrt_ok by (pose proof (pow2_ge_0 (b2 - 1 / b1)); lra). nums. f_equal. unfold b4, nearest. field. easy. }
  step b5. { nums. rewrite nsqrt_ok by lra. now nums. }
  step b6. { nums. f_equal. unfold b6, arithmetic. field. }
  name.
  step ga1. { nums. rewrite nsqrt_ok by lra. nums. apply ndiv_ok. apply Rmult_integral_contrapositive_currified; [easy|]. pose proof (sqrt_lt_R0 _ Pr). lra. }
  step ga2. { nums. rewrite nsqrt_ok by lra. apply ndiv_ok. pose proof (sqrt_lt_R0 _ Pr4). lra. }
  step sum1. { rewrite nsum_map. apply nsum_ok. intros p. nums. easy. }
  step sum2. { rewrite nsum_map. apply nsum_ok. intros p. nums. easy. }
  step sum3. { rewrite nsum_map. apply nsum_ok. intros p. nums. easy. }
  step cov. { nums. apply ndiv_ok. apply Rmult_integral_contrapositive_currified; [easy|]. now apply pow_nonzero. }
  step v1. { nums. apply ndiv_ok. now apply pow_nonzero. }
  step v2. { nums. apply ndiv_ok. now apply pow_nonzero. }
  step v3. { now nums. }
  step v4. { nums. rewrite ndiv_ok by now apply pow_nonzero. now nums. }
  step v5. { nums. rewrite !ndiv_ok by easy. now nums. }
  step v6. { now nums. }
  step w1. { rewrite nsum_map. apply nsum_ok. intros p. nums. rewrite !ndiv_ok by easy. now nums. }
  step w2. { rewrite nsum_map. apply nsum_ok. intros p. nums. rewrite !ndiv_ok by easy. now nums. }
  step w3. { rewrite nsum_map. apply nsum_ok. intros p. nums. rewrite !ndiv_ok by easy. now nums. }
  step w4. { rewrite nsum_map. apply nsum_ok. intros p. nums. rewrite (nsqrt_ok (b1 ^ 2)) by apply pow2_ge_0. rewrite !(fun a => ndiv_ok a (Sxx pts)) by easy. rewrite !(fun a => ndiv_ok a (Sxy pts)) by easy.
    nums. rewrite ndiv_ok by (pose proof (sqrt_lt_R0 (b1 ^ 2) ltac:(now apply pow2_gt_0)); lra). now nums. }
  step w5. { rewrite nsum_map. apply nsum_ok. intros p. nums. rewrite !ndiv_ok by easy. rewrite !nsqrt_ok by lra. nums. rewrite !ndiv_ok by easy. now nums. }
  step w6. { rewrite nsum_map. apply nsum_ok. intros p. nums. rewrite !ndiv_ok by easy. now nums. }
  assert (W : forall f, 0 <= Sum (fun p => f p ^ 2) pts) by (intros; apply Sum_nonneg; intros; apply pow2_ge_0).
  f_equal. cbn [map].
  rewrite (nsqrt_ok w1), (nsqrt_ok w2), (nsqrt_ok w3), (nsqrt_ok w4), (nsqrt_ok w5), (nsqrt_ok w6) by apply W.
  rewrite (nsqrt_ok v1) by apply v1_nonneg. rewrite (nsqrt_ok v2) by apply v2_nonneg. rewrite (nsqrt_ok v3) by (rewrite v3_eq; apply form_nonneg).
  rewrite (nsqrt_ok v4) by (rewrite v4_eq; apply form_nonneg). rewrite (nsqrt_ok v5) by (rewrite v5_eq; apply form_nonneg). rewrite (nsqrt_ok v6) by (rewrite v6_eq; apply form_nonneg).
  rewrite !(fun a => ndiv_ok a n) by lra. nums. f_equal.
  - rewrite map_map. transitivity (map (fun p => Num (fst p)) pts); [apply map_ext; intros p; cbn [fst]; nums; f_equal; lra|].
    rewrite <- (map_map fst Num). f_equal. unfold pts. clear -Hlen. revert y Hlen. induction x as [|a l IH]; intros [|b m] E; try discriminate; [easy|]. cbn. rewrite IH; [easy|now injection E].
  - rewrite map_map. transitivity (map (fun p => Num (snd p)) pts); [apply map_ext; intros p; cbn [snd]; nums; f_equal; lra|].
    rewrite <- (map_map snd Num). f_equal. unfold pts. clear -Hlen. revert y Hlen. induction x as [|a l IH]; intros [|b m] E; try discriminate; [easy|]. cbn. rewrite IH; [easy|now injection E].
Qed.
(** The errors are those of the delta method. *)
Let k := sqrt (4 + (b2 - 1 / b1) ^ 2).
Lemma slope_err d1 d2 v : v = d1 ^ 2 * v1 + 2 * d1 * d2 * cov + d2 ^ 2 * v2 -> sqrt v = delta_slope pts d1 d2.
Proof.
  intros ->. rewrite two_form. unfold delta_slope. fold n. pose proof n_pos. pose proof sxx_pos.
  rewrite (Sum_ext (fun p => (d1 * infl1 pts p + d2 * infl2 pts p) ^ 2) (fun p => n ^ 2 * (d1 / Sxx pts * A p + d2 / Sxy pts * B p) ^ 2)).
  - rewrite Sum_scal, sqrt_mult, sqrt_pow2 by (lra || apply pow2_ge_0 || (apply Sum_nonneg; intros; apply pow2_ge_0)). field. lra.
  - intros p _. unfold infl1, infl2. fold b1 b2 n. change (fst p - mx pts) with (X p). change (snd p - my pts) with (Y p). fold (A p) (B p). field. split; [exact Hsxy|lra].
Qed.
Lemma inter_err b d1 d2 (f : R * R -> R) :
  (forall p, f p = Y p - b * X p - mx pts * (d1 * infl1 pts p + d2 * infl2 pts p) \/ f p = - (Y p - b * X p - mx pts * (d1 * infl1 pts p + d2 * infl2 pts p))) ->
  sqrt (Sum (fun p => f p ^ 2) pts) / n = delta_inter pts b d1 d2.
Proof.
  intros H. unfold delta_inter. fold n. f_equal. f_equal. apply Sum_ext. intros p _. fold (X p) (Y p). destruct (H p) as [-> | ->]; ring.
Qed.
Lemma k_pos : 0 < k. Proof. apply sqrt_lt_R0. pose proof (pow2_ge_0 (b2 - 1 / b1)). lra. Qed.
Lemma ga2_eq : ga2 = b4 / (Rabs b1 * k).
Proof.
  unfold ga2. f_equal. f_equal. unfold k. rewrite <- sqrt_Rsqr_abs, <- sqrt_mult by (apply Rle_0_sqr || (pose proof (pow2_ge_0 (b2 - 1 / b1)); lra)). f_equal. unfold Rsqr. field. exact b1_nz.
Qed.
Lemma abs_b1 : sqrt (b1 ^ 2) = Rabs b1. Proof. rewrite <- sqrt_Rsqr_abs. f_equal. unfold Rsqr. ring. Qed.
Lemma b1_abs : Rabs b1 * Rabs b1 = b1 ^ 2. Proof. rewrite <- Rabs_mult. rewrite Rabs_right; [ring|]. apply Rle_ge. replace (b1 * b1) with (b1 ^ 2) by ring. apply pow2_ge_0. Qed.
Lemma sixlin_delta : sixlin x y = Some (Six
  (map (fun b => Num (my pts - b * mx pts)) [b1; b2; b3; b4; b5; b6])
  [Num (delta_inter pts b1 1 0); Num (delta_inter pts b2 0 1); Num (delta_inter pts b3 (ga1 * (1 + b2 ^ 2)) (ga1 * (1 + b1 ^ 2)));
   Num (delta_inter pts b4 (b4 / (b1 ^ 2 * k)) (b4 / k)); Num (delta_inter pts b5 (sqrt (b2 / b1) / 2) (sqrt (b1 / b2) / 2)); Num (delta_inter pts b6 (1 / 2) (1 / 2))]
  (map Num [b1; b2; b3; b4; b5; b6])
  [Num (delta_slope pts 1 0); Num (delta_slope pts 0 1); Num (delta_slope pts (ga1 * (1 + b2 ^ 2)) (ga1 * (1 + b1 ^ 2)));
   Num (delta_slope pts (b4 / (b1 ^ 2 * k)) (b4 / k)); Num (delta_slope pts (sqrt (b2 / b1) / 2) (sqrt (b1 / b2) / 2)); Num (delta_slope pts (1 / 2) (1 / 2))]
  (map Num x) (map Num y)).
Proof.
  pose proof sxx_pos. pose proof b1_nz. pose proof k_pos. pose proof b1_abs as Ab. assert (Rabs b1 <> 0) by now apply Rabs_no_R0.
  assert (G : forall p, Y p - b1 * X p = Y p - b1 * X p) by easy.
  assert (I1 : forall p, infl1 pts p = n * A p / Sxx pts) by easy. assert (I2 : forall p, infl2 pts p = n * B p / Sxy pts) by easy.
  rewrite sixlin_eval. cbn [map]. do 2 f_equal.
  - f_equal; [|f_equal; [|f_equal; [|f_equal; [|f_equal; [|f_equal]]]]]; f_equal.
    + apply (inter_err b1 1 0). intros p. left. rewrite I1, I2. unfold A. field. split; [exact Hsxy|lra].
    + apply (inter_err b2 0 1). intros p. left. rewrite I1, I2. unfold B. field. split; [exact Hsxy|lra].
    + apply inter_err. intros p. right. rewrite I1, I2. field. split; [exact Hsxy|lra].
    + apply inter_err. intros p. right. rewrite I1, I2. rewrite ga2_eq, abs_b1.
      replace (b4 / (b1 ^ 2 * k)) with (b4 / (Rabs b1 * Rabs b1 * k)) by now rewrite Ab.
      replace ((A p / Sxx pts + B p * b1 ^ 2 / Sxy pts) * (b4 / (Rabs b1 * k))) with ((A p / Sxx pts + B p * (Rabs b1 * Rabs b1) / Sxy pts) * (b4 / (Rabs b1 * k))) by now rewrite Ab.
      field. repeat split; lra || easy.
    + apply inter_err. intros p. right. rewrite I1, I2. field. split; [exact Hsxy|lra].
    + apply inter_err. intros p. right. rewrite I1, I2. field. split; [exact Hsxy|lra].
  - f_equal; [|f_equal; [|f_equal; [|f_equal; [|f_equal; [|f_equal]]]]]; f_equal; apply slope_err.
    + ring.
    + ring.
    + apply v3_eq.
    + unfold v4. rewrite ga2_eq.
      replace ((b4 / (Rabs b1 * k)) ^ 2) with (b4 ^ 2 / (Rabs b1 * Rabs b1 * k ^ 2)) by (field; lra). rewrite Ab. field. lra.
    + apply v5_eq.
    + apply v6_eq.
Qed.
End Six.

Lemma sixlin_none x y : length x = length y -> (1 <= length x)%nat -> Sxy (combine x y) = 0 -> sixlin x y = None.
Proof.
  intros Hlen Hn H. cbv beta delta [sixlin].
  step (size (combine x y)). { now apply count_eq. }
  step (mx (combine x y)). { pose proof (avg_x x y Hlen Hn) as E; rewrite (count_eq x y Hlen) in E; exact E. }
  step (my (combine x y)). { pose proof (avg_y x y Hlen Hn) as E; rewrite (count_eq x y Hlen) in E; exact E. }
  name. do 2 name.
  step (Sxy (combine x y)). { rewrite nsum_map. apply nsum_ok. intros p. cbn [fst snd]. nums. easy. }
  cbn [nzero]. now rewrite (proj2 (Reqb_spec _ _) H).
Qed.

Lemma datstt_eval x y : length x = length y -> (1 <= length x)%nat -> let pts := combine x y in
  datstt x y = if Reqb (Sxy pts) 0 then None
    else Some (Stats (Num (mx pts)) (Num (Sxx pts / size pts)) (Num (my pts)) (Num (Syy pts / size pts)) (Num (Sxy pts / size pts)) (Num (Sxy pts / sqrt (Sxx pts * Syy pts)))).
Proof.
  intros Hlen Hn pts. pose proof (size_pos pts (pts_ne x y Hlen Hn)) as Pn. cbv beta delta [datstt].
  step (size pts). { now apply count_eq. }
  step (mx pts). { pose proof (avg_x x y Hlen Hn) as E; rewrite (count_eq x y Hlen) in E; exact E. }
  step (my pts). { pose proof (avg_y x y Hlen Hn) as E; rewrite (count_eq x y Hlen) in E; exact E. }
  name. fold pts.
  step (Sxx pts). { apply nsum_ok. intros p. nums. easy. }
  step (Syy pts). { apply nsum_ok. intros p. nums. easy. }
  step (Sxy pts). { apply nsum_ok. intros p. nums. easy. }
  cbn [nzero]. destruct (Reqb (Sxy pts) 0) eqn:E; [easy|]. apply Reqb_false in E.
  pose proof (Sxx_pos pts E). pose proof (Syy_pos pts E). assert (P : 0 < Sxx pts * Syy pts) by now apply Rmult_lt_0_compat.
  rewrite !(fun a => ndiv_ok a (size pts)) by lra. nums. rewrite nsqrt_ok by lra. rewrite ndiv_ok; [easy|]. pose proof (sqrt_lt_R0 _ P). lra.
Qed.
