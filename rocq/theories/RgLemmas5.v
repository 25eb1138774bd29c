(** bistats and SixLin. *)

From Coq Require Import List Bool Arith Reals Lra Lia.
From Verif Require Import Exn Instances McModel BaModel RgModel RgSpec RgLemmas RgLemmas2 RgLemmas3 RgLemmas4.
Import ListNotations.
Open Scope R_scope.

Lemma fold_min l v : let m := fold_left (fun m v => if Rltb v m then v else m) l v in In m (v :: l) /\ forall t, In t (v :: l) -> m <= t.
Proof.
  cbv zeta. revert v. induction l as [|a l IH]; intros v; cbn [fold_left].
  - split; [now left|]. intros t [<-|[]]. lra.
  - destruct (Rltb a v) eqn:E.
    + apply Rltb_spec in E. destruct (IH a) as [I M]. split; [destruct I as [I|I]; [right; now left|right; now right]|].
      intros t [<-|[<-|Ht]]; [pose proof (M a (or_introl eq_refl)); lra|apply M; now left|apply M; now right].
    + apply Rltb_false in E. destruct (IH v) as [I M]. split; [destruct I as [I|I]; [now left|right; now right]|].
      intros t [<-|[<-|Ht]]; [apply M; now left|pose proof (M v (or_introl eq_refl)); lra|apply M; now right].
Qed.
Lemma fold_max l v : let m := fold_left (fun m v => if Rltb m v then v else m) l v in In m (v :: l) /\ forall t, In t (v :: l) -> t <= m.
Proof.
  cbv zeta. revert v. induction l as [|a l IH]; intros v; cbn [fold_left].
  - split; [now left|]. intros t [<-|[]]. lra.
  - destruct (Rltb v a) eqn:E.
    + apply Rltb_spec in E. destruct (IH a) as [I M]. split; [destruct I as [I|I]; [right; now left|right; now right]|].
      intros t [<-|[<-|Ht]]; [pose proof (M a (or_introl eq_refl)); lra|apply M; now left|apply M; now right].
    + apply Rltb_false in E. destruct (IH v) as [I M]. split; [destruct I as [I|I]; [now left|right; now right]|].
      intros t [<-|[<-|Ht]]; [apply M; now left|pose proof (M v (or_introl eq_refl)); lra|apply M; now right].
Qed.
(** lo and hi are the least and the greatest of the values less and plus errors. *)
Definition err_list (x : list R) (e : option (list R)) := match e with None => map (fun _ => 0) x | Some e => e end.
Lemma extremes_ok x e : x <> [] -> length (err_list x e) = length x -> exists lo hi, extremes x e = Ok (lo, hi) /\ range x (err_list x e) lo hi.
Proof.
  intros Hx Hl. unfold extremes. fold (err_list x e). set (l := err_list x e) in *. destruct x as [|a x]; [easy|]. destruct l as [|b l]; [discriminate|].
  unfold range. cbn [combine map fst snd py_min py_max].
  destruct (fold_min (map (fun p => fst p - snd p) (combine x l)) (a - b)) as [I1 M1]. destruct (fold_max (map (fun p => fst p + snd p) (combine x l)) (a + b)) as [I2 M2].
  eexists _, _. split; [reflexivity|]. split; [exact I1|]. split; [exact M1|]. split; [exact I2|exact M2].
Qed.
Lemma linreg_ok s i se ie x y xe ye : x <> [] -> y <> [] -> length (err_list x xe) = length x -> length (err_list y ye) = length y ->
  exists r, linreg s i se ie x y xe ye = Ok r /\ r_slope r = s /\ r_inter r = i /\ r_serr r = se /\ r_ierr r = ie /\ r_x r = x /\ r_y r = y /\ r_npts r = length x /\
    range x (err_list x xe) (r_xmin r) (r_xmax r) /\ range y (err_list y ye) (r_ymin r) (r_ymax r).
Proof.
  intros Hx Hy Lx Ly. destruct (extremes_ok x xe Hx Lx) as (l1 & h1 & E1 & R1). destruct (extremes_ok y ye Hy Ly) as (l2 & h2 & E2 & R2).
  unfold linreg. rewrite E1, E2. eexists. split; [reflexivity|]. cbn. tauto.
Qed.
Definition plain (r : line) (x y : list R) : Prop :=
  r_x r = x /\ r_y r = y /\ r_npts r = length x /\ range x (map (fun _ => 0) x) (r_xmin r) (r_xmax r) /\ range y (map (fun _ => 0) y) (r_ymin r) (r_ymax r).
Lemma linreg_plain s i se ie x y : x <> [] -> y <> [] ->
  exists r, linreg s i se ie x y None None = Ok r /\ r_slope r = s /\ r_inter r = i /\ r_serr r = se /\ r_ierr r = ie /\ plain r x y.
Proof.
  intros Hx Hy. destruct (linreg_ok s i se ie x y None None Hx Hy) as (r & E & A); [apply map_length|apply map_length|]. exists r. unfold plain. cbn [err_list] in A. tauto.
Qed.

Definition line_is (r : line) (b a se ie : R) : Prop := r_slope r = Num b /\ r_inter r = Num a /\ r_serr r = Num se /\ r_ierr r = Num ie.

Section SixLin.
Variables x y : list R.
Hypothesis Hlen : length x = length y.
Hypothesis Hn : (2 <= length x)%nat.
Let pts := combine x y.
Hypothesis Hsxy : Sxy pts <> 0.
Let b1 := slope1 pts.
Let b2 := slope2 pts.
Let sg := sign_of (Sxy pts).
Let r := sqrt ((1 + b1 ^ 2) * (1 + b2 ^ 2)).
Let k := sqrt (4 + (b2 - 1 / b1) ^ 2).
Let ga := half_way b1 b2 / ((b1 + b2) * r).
Definition six_is (s : sixlines) : Prop :=
  line_is (s_yonx s) b1 (through pts b1) (delta_slope pts 1 0) (delta_inter pts b1 1 0) /\
  line_is (s_xony s) b2 (through pts b2) (delta_slope pts 0 1) (delta_inter pts b2 0 1) /\
  line_is (s_bisect s) (half_way b1 b2) (through pts (half_way b1 b2)) (delta_slope pts (ga * (1 + b2 ^ 2)) (ga * (1 + b1 ^ 2)))
    (delta_inter pts (half_way b1 b2) (ga * (1 + b2 ^ 2)) (ga * (1 + b1 ^ 2))) /\
  line_is (s_orthog s) (b4 pts) (through pts (b4 pts)) (delta_slope pts (b4 pts / (b1 ^ 2 * k)) (b4 pts / k)) (delta_inter pts (b4 pts) (b4 pts / (b1 ^ 2 * k)) (b4 pts / k)) /\
  line_is (s_rma s) (b5 pts) (through pts (b5 pts)) (delta_slope pts (sqrt (b2 / b1) / 2) (sqrt (b1 / b2) / 2)) (delta_inter pts (b5 pts) (sqrt (b2 / b1) / 2) (sqrt (b1 / b2) / 2)) /\
  line_is (s_mols s) (arithmetic b1 b2) (through pts (arithmetic b1 b2)) (delta_slope pts (1 / 2) (1 / 2)) (delta_inter pts (arithmetic b1 b2) (1 / 2) (1 / 2)).
Lemma six_ok : exists s, SixLin x y = Ok s /\ six_is s /\
  plain (s_yonx s) x y /\ plain (s_xony s) x y /\ plain (s_bisect s) x y /\ plain (s_orthog s) x y /\ plain (s_rma s) x y /\ plain (s_mols s) x y.
Proof.
  assert (Hx : x <> []) by (destruct x; cbn in Hn; [lia|easy]). assert (Hy : y <> []) by (destruct y; cbn in *; [lia|easy]).
  unfold SixLin. rewrite <- Hlen, Nat.eqb_refl. cbn [negb]. rewrite (proj2 (Nat.ltb_ge _ _) Hn).
  pose proof (sixlin_delta x y Hlen ltac:(lia) Hsxy) as D. cbv zeta in D. rewrite D. clear D. cbv zeta.
  cbn [x_b x_a x_sigb x_siga map pick nth]. unfold pick. cbn [nth].
  do 6 (match goal with |- context [linreg ?s ?i ?se ?ie x y None None] => let r := fresh "r" in let E := fresh in destruct (linreg_plain s i se ie x y Hx Hy) as (r & E & ? & ? & ? & ? & ?); rewrite E; clear E end).
  eexists. split; [reflexivity|]. unfold six_is, line_is. cbn. tauto.
Qed.
Lemma six_uniq s : SixLin x y = Ok s -> six_is s.
Proof. destruct six_ok as (s' & E & S & _). rewrite E. intros [= <-]. exact S. Qed.
Lemma pts_nonempty : pts <> []. Proof. apply pts_ne; [easy|lia]. Qed.
Lemma bpos : 0 < b1 * b2. Proof. apply slopes_pos, Hsxy. Qed.
Lemma sg_sq : sg * sg = 1. Proof. apply sign_sq. Qed.
Lemma sg_b1 : 0 < sg * b1.
Proof. pose proof (sign_pos pts Hsxy) as P. pose proof (Sxx_pos pts Hsxy). unfold b1, slope1, sg. replace (_ * (_ / _)) with (sign_of (Sxy pts) * Sxy pts / Sxx pts) by (field; lra). now apply Rdiv_lt_0_compat. Qed.
Lemma delta_slope_sign c d1 d2 : c * c = 1 -> delta_slope pts (c * d1) (c * d2) = delta_slope pts d1 d2.
Proof. intros H. unfold delta_slope. f_equal. f_equal. apply Sum_ext. intros p _. replace ((c * d1 * infl1 pts p + c * d2 * infl2 pts p) ^ 2) with (c * c * (d1 * infl1 pts p + d2 * infl2 pts p) ^ 2) by ring. rewrite H. ring. Qed.

Lemma lines_l : exists s, SixLin x y = Ok s /\
  exists a1 a2 a3 a4 a5 a6 b1 b2 b3 b4 b5 b6,
    (r_inter (s_yonx s) = Num a1 /\ r_slope (s_yonx s) = Num b1 /\ forall a b, a <> a1 \/ b <> b1 -> vertical pts a1 b1 < vertical pts a b) /\
    (r_inter (s_xony s) = Num a2 /\ r_slope (s_xony s) = Num b2 /\ b2 <> 0 /\ forall a b, b <> 0 -> a <> a2 \/ b <> b2 -> horizontal pts a2 b2 < horizontal pts a b) /\
    (r_inter (s_bisect s) = Num a3 /\ r_slope (s_bisect s) = Num b3 /\ atan b3 = (atan b1 + atan b2) / 2 /\ a3 + b3 * mx pts = my pts) /\
    (r_inter (s_orthog s) = Num a4 /\ r_slope (s_orthog s) = Num b4 /\ (forall a b, a <> a4 \/ b <> b4 -> perpendicular pts a4 b4 < perpendicular pts a b) /\ (forall c, perpendicular pts a4 b4 < upright pts c)) /\
    (r_inter (s_rma s) = Num a5 /\ r_slope (s_rma s) = Num b5 /\ b5 <> 0 /\ forall a b, b <> 0 -> a <> a5 \/ b <> b5 -> areas pts a5 b5 < areas pts a b) /\
    (r_inter (s_mols s) = Num a6 /\ r_slope (s_mols s) = Num b6 /\ b6 = (b1 + b2) / 2 /\ a6 + b6 * mx pts = my pts).
Proof.
  destruct six_ok as (s & E & (S1 & S2 & S3 & S4 & S5 & S6) & _). exists s. split; [exact E|]. unfold line_is in *.
  eexists _, _, _, _, _, _, _, _, _, _, _, _. pose proof pts_nonempty as Hne.
  split; [split; [apply S1|split; [apply S1|]]; intros a b; now apply yonx_best|].
  split; [split; [apply S2|split; [apply S2|split; [now apply slope2_nz|]]]; intros a b; now apply xony_best|].
  split; [split; [apply S3|split; [apply S3|split; [apply bisector, bpos|unfold through; ring]]]|].
  split; [split; [apply S4|split; [apply S4|split; [intros a b; now apply orthog_best|intros c; now apply orthog_upright]]]|].
  split; [split; [apply S5|split; [apply S5|split; [now apply b5_nz|intros a b; now apply rma_best]]]|].
  split; [apply S6|split; [apply S6|split; [easy|unfold through; ring]]].
Qed.
Lemma errors_l s : SixLin x y = Ok s ->
  r_serr (s_yonx s) = Num (delta_slope pts 1 0) /\ r_ierr (s_yonx s) = Num (delta_inter pts b1 1 0) /\
  r_serr (s_xony s) = Num (delta_slope pts 0 1) /\ r_ierr (s_xony s) = Num (delta_inter pts b2 0 1) /\
  (exists b d1 d2, from_slopes half_way b1 b2 b d1 d2 /\ r_serr (s_bisect s) = Num (delta_slope pts d1 d2) /\ r_ierr (s_bisect s) = Num (delta_inter pts b d1 d2)) /\
  (exists b d1 d2, from_slopes (nearest sg) b1 b2 b d1 d2 /\ r_serr (s_orthog s) = Num (delta_slope pts d1 d2) /\
    r_ierr (s_orthog s) = Num (delta_inter pts b (sg * d1) (sg * d2))) /\
  (exists b d1 d2, from_slopes (geometric sg) b1 b2 b d1 d2 /\ r_serr (s_rma s) = Num (delta_slope pts d1 d2) /\ r_ierr (s_rma s) = Num (delta_inter pts b d1 d2)) /\
  (exists b d1 d2, from_slopes arithmetic b1 b2 b d1 d2 /\ r_serr (s_mols s) = Num (delta_slope pts d1 d2) /\ r_ierr (s_mols s) = Num (delta_inter pts b d1 d2)).
Proof.
  intros E. apply six_uniq in E. destruct E as (S1 & S2 & S3 & S4 & S5 & S6). unfold line_is in *. pose proof bpos as P. pose proof sg_sq as Q. pose proof sg_b1 as P1.
  split; [apply S1|]. split; [apply S1|]. split; [apply S2|]. split; [apply S2|].
  split; [|split; [|split]].
  - eexists _, _, _. split; [|split; apply S3]. split; [easy|]. split; [now apply half_d1|now apply half_d2].
  - exists (b4 pts), (sg * b4 pts / (b1 ^ 2 * k)), (sg * b4 pts / k). split.
    + split; [easy|]. split; [now apply nearest_d1|now apply nearest_d2].
    + replace (sg * b4 pts / (b1 ^ 2 * k)) with (sg * (b4 pts / (b1 ^ 2 * k))) by (unfold Rdiv; ring). replace (sg * b4 pts / k) with (sg * (b4 pts / k)) by (unfold Rdiv; ring).
      rewrite delta_slope_sign by exact Q. rewrite <- !Rmult_assoc, Q, !Rmult_1_l. split; apply S4.
  - eexists _, _, _. split; [|split; apply S5]. split; [easy|]. split; [now apply geometric_d1|now apply geometric_d2].
  - eexists _, _, _. split; [|split; apply S6]. split; [easy|]. split; [now apply arithmetic_d1|now apply arithmetic_d2].
Qed.
End SixLin.

Lemma six_refused x y : length y <> length x \/ (length x < 2)%nat \/ Sxy (combine x y) = 0 -> SixLin x y = Err ValueError.
Proof.
  unfold SixLin. destruct (length y =? length x)%nat eqn:E; cbn [negb]; [|easy]. apply Nat.eqb_eq in E. destruct (length x <? 2)%nat eqn:L; [easy|]. apply Nat.ltb_ge in L.
  intros [H|[H|H]]; [lia|lia|]. rewrite sixlin_none; [easy|easy|lia|easy].
Qed.

(** bistats *)
Lemma stats_refused x y : length x <> length y \/ (length x < 2)%nat \/ Sxy (combine x y) = 0 -> bistats x y = Err ValueError.
Proof.
  unfold bistats. destruct (length x =? length y)%nat eqn:E; cbn [negb]; [|easy]. apply Nat.eqb_eq in E. destruct (length x <? 2)%nat eqn:L; [easy|]. apply Nat.ltb_ge in L.
  intros [H|[H|H]]; [lia|lia|]. rewrite datstt_eval by (easy || lia). now rewrite (proj2 (Reqb_spec _ _) H).
Qed.
Lemma stats_ok x y : length x = length y -> (2 <= length x)%nat -> let pts := combine x y in Sxy pts <> 0 ->
  bistats x y = Ok (Stats (Num (mx pts)) (Num (sqrt (Sxx pts / size pts))) (Num (my pts)) (Num (sqrt (Syy pts / size pts))) (Num (Sxy pts / size pts)) (Num (Sxy pts / sqrt (Sxx pts * Syy pts)))).
Proof.
  intros E L pts H. unfold bistats. rewrite E, Nat.eqb_refl. cbn [negb]. rewrite <- E, (proj2 (Nat.ltb_ge _ _) L).
  rewrite datstt_eval by (easy || lia). fold pts. rewrite (proj2 (Reqb_false _ _) H). cbn [t_xavg t_varx t_yavg t_vary t_varxy t_rho].
  assert (N : 0 < size pts) by (apply size_pos, pts_ne; [easy|lia]). pose proof (Sxx_pos pts H). pose proof (Syy_pos pts H).
  rewrite !nsqrt_ok by (left; now apply Rdiv_lt_0_compat). easy.
Qed.
Lemma rho_bound pts : pts <> [] -> Sxy pts <> 0 -> let rho := Sxy pts / sqrt (Sxx pts * Syy pts) in -1 <= rho <= 1 /\ (Rabs rho = 1 <-> collinear pts).
Proof.
  intros Hne H rho. pose proof (Sxx_pos pts H) as Px. pose proof (Syy_pos pts H) as Py. assert (P : 0 < Sxx pts * Syy pts) by now apply Rmult_lt_0_compat.
  pose proof (sqrt_lt_R0 _ P) as R0. assert (Q : rho ^ 2 = Sxy pts ^ 2 / (Sxx pts * Syy pts)).
  { unfold rho. replace ((Sxy pts / sqrt (Sxx pts * Syy pts)) ^ 2) with (Sxy pts ^ 2 / sqrt (Sxx pts * Syy pts) ^ 2) by (field; lra). rewrite pow2_sqrt by lra. easy. }
  pose proof (cauchy pts Hne) as C. assert (Q1 : rho ^ 2 <= 1). { rewrite Q. apply (Rmult_le_reg_r (Sxx pts * Syy pts)); [easy|]. field_simplify; lra. }
  split.
  { assert (B : Rabs rho <= 1) by (rewrite <- sqrt_1, <- sqrt_Rsqr_abs; apply sqrt_le_1_alt; unfold Rsqr; lra). unfold Rabs in B. destruct (Rcase_abs rho); lra. }
  assert (A : Rabs rho = 1 <-> rho ^ 2 = 1).
  { split; intros E; [rewrite <- pow2_abs, E; ring|]. rewrite <- sqrt_Rsqr_abs. unfold Rsqr. replace (rho * rho) with (rho ^ 2) by ring. rewrite E. apply sqrt_1. }
  rewrite A. assert (V : vertical pts (through pts (slope1 pts)) (slope1 pts) = Syy pts * (1 - rho ^ 2)).
  { rewrite vertical_eq by easy. rewrite Q. unfold through, slope1. field. lra. }
  split.
  - intros E. exists (slope1 pts), (-1), (- through pts (slope1 pts)). split; [right; lra|]. intros p Hp. rewrite E in V.
    assert (Z : (snd p - (through pts (slope1 pts) + slope1 pts * fst p)) ^ 2 = 0).
    { apply (Sum_zero (fun p => (snd p - (through pts (slope1 pts) + slope1 pts * fst p)) ^ 2) pts); [intros; apply pow2_ge_0|unfold vertical in V; lra|easy]. }
    destruct (Req_dec (snd p - (through pts (slope1 pts) + slope1 pts * fst p)) 0) as [Z'|Z']; [lra|]. apply pow2_gt_0 in Z'. lra.
  - intros (u & v & w & Huv & Hl). pose proof (size_pos pts Hne) as N.
    assert (M : u * mx pts + v * my pts = w).
    { assert (S : u * Sum fst pts + v * Sum snd pts = w * size pts).
      { rewrite <- !Sum_scal, <- Sum_add, <- Sum_const. now apply Sum_ext. }
      unfold mx, my. apply (Rmult_eq_reg_r (size pts)); [|lra]. rewrite <- S. field. lra. }
    assert (D : forall p, In p pts -> u * (fst p - mx pts) = - v * (snd p - my pts)) by (intros p Hp; specialize (Hl p Hp); lra).
    assert (E1 : u * Sxx pts = - v * Sxy pts). { unfold Sxx, Sxy. rewrite <- !Sum_scal. apply Sum_ext. intros p Hp. specialize (D p Hp). replace (u * (fst p - mx pts) ^ 2) with (u * (fst p - mx pts) * (fst p - mx pts)) by ring. rewrite D. ring. }
    assert (E2 : u * Sxy pts = - v * Syy pts). { unfold Syy, Sxy. rewrite <- !Sum_scal. apply Sum_ext. intros p Hp. specialize (D p Hp). replace (u * ((fst p - mx pts) * (snd p - my pts))) with (u * (fst p - mx pts) * (snd p - my pts)) by ring. rewrite D. ring. }
    assert (u <> 0) by (intros Z; rewrite Z in *; destruct Huv as [Huv|Huv]; [easy|]; assert (F : v * Sxy pts = 0) by lra; apply Rmult_integral in F; tauto).
    assert (F : Sxy pts ^ 2 = Sxx pts * Syy pts). { apply (Rmult_eq_reg_l u); [|easy]. replace (u * Sxy pts ^ 2) with (u * Sxy pts * Sxy pts) by ring. replace (u * (Sxx pts * Syy pts)) with (u * Sxx pts * Syy pts) by ring. rewrite E1, E2. ring. }
    rewrite Q, F. field. lra.
Qed.
