(** Data for the examples about regressions. *)

From Coq Require Import List Bool Arith Reals Lra Lia.
From Verif Require Import Exn Instances McModel BaModel RgModel RgSpec RgLemmas RgLemmas2 RgLemmas3 RgLemmas5 RgLemmas6 RgLemmas8.
Import ListNotations.
Open Scope R_scope.

Definition rg_x : list R := [1; 2; 3].
Definition rg_y : list R := [1; 3; 2].
Definition rg : list (R * R) := combine rg_x rg_y.
Definition rg_flat : list (R * R) := combine [0; 1; 2] [1; 0; 1].
Definition rg_down : list (R * R) := combine rg_x (map Ropp rg_y).
Definition rg_line : list (R * R) := combine [0; 1] [1; 3].

Ltac rg_sum := unfold Sum; cbn [combine map fold_right fst snd rg_x rg_y].
Lemma size2 (p q : R * R) : size [p; q] = 2. Proof. unfold size. cbn. lra. Qed.
Lemma size3 {A} (p q r : A) : size [p; q; r] = 3. Proof. unfold size. cbn. lra. Qed.

Lemma rg_mx : mx rg = 2. Proof. unfold mx, rg, rg_x, rg_y. cbn [combine]. rewrite size3. rg_sum. lra. Qed.
Lemma rg_my : my rg = 2. Proof. unfold my, rg, rg_x, rg_y. cbn [combine]. rewrite size3. rg_sum. lra. Qed.
Lemma rg_sxx : Sxx rg = 2. Proof. unfold Sxx. rewrite rg_mx. unfold rg, rg_x, rg_y. rg_sum. lra. Qed.
Lemma rg_syy : Syy rg = 2. Proof. unfold Syy. rewrite rg_my. unfold rg, rg_x, rg_y. rg_sum. lra. Qed.
Lemma rg_sxy : Sxy rg = 1. Proof. unfold Sxy. rewrite rg_mx, rg_my. unfold rg, rg_x, rg_y. rg_sum. lra. Qed.
Lemma rg_slope1 : slope1 rg = 1 / 2. Proof. unfold slope1. rewrite rg_sxy, rg_sxx. easy. Qed.
Lemma rg_slope2 : slope2 rg = 2. Proof. unfold slope2. rewrite rg_sxy, rg_syy. lra. Qed.
Lemma down_mx : mx rg_down = 2. Proof. unfold mx, rg_down, rg_x, rg_y. cbn [combine map]. rewrite size3. rg_sum. lra. Qed.
Lemma down_my : my rg_down = -2. Proof. unfold my, rg_down, rg_x, rg_y. cbn [combine map]. rewrite size3. rg_sum. lra. Qed.
Lemma down_sxx : Sxx rg_down = 2. Proof. unfold Sxx. rewrite down_mx. unfold rg_down, rg_x, rg_y. rg_sum. lra. Qed.
Lemma down_syy : Syy rg_down = 2. Proof. unfold Syy. rewrite down_my. unfold rg_down, rg_x, rg_y. rg_sum. lra. Qed.
Lemma down_sxy : Sxy rg_down = -1. Proof. unfold Sxy. rewrite down_mx, down_my. unfold rg_down, rg_x, rg_y. rg_sum. lra. Qed.
Lemma down_slope1 : slope1 rg_down = - (1 / 2). Proof. unfold slope1. rewrite down_sxy, down_sxx. lra. Qed.
Lemma down_slope2 : slope2 rg_down = -2. Proof. unfold slope2. rewrite down_sxy, down_syy. lra. Qed.
Lemma flat_mx : mx rg_flat = 1. Proof. unfold mx, rg_flat. cbn [combine]. rewrite size3. rg_sum. lra. Qed.
Lemma flat_my : my rg_flat = 2 / 3. Proof. unfold my, rg_flat. cbn [combine]. rewrite size3. rg_sum. lra. Qed.
Lemma flat_sxx : Sxx rg_flat = 2. Proof. unfold Sxx. rewrite flat_mx. unfold rg_flat. rg_sum. lra. Qed.
Lemma flat_syy : Syy rg_flat = 2 / 3. Proof. unfold Syy. rewrite flat_my. unfold rg_flat. rg_sum. lra. Qed.
Lemma flat_sxy : Sxy rg_flat = 0. Proof. unfold Sxy. rewrite flat_mx, flat_my. unfold rg_flat. rg_sum. lra. Qed.
Lemma line_mx : mx rg_line = 1 / 2. Proof. unfold mx, rg_line. cbn [combine]. rewrite size2. rg_sum. lra. Qed.
Lemma line_my : my rg_line = 2. Proof. unfold my, rg_line. cbn [combine]. rewrite size2. rg_sum. lra. Qed.
Lemma line_sxy : Sxy rg_line = 1. Proof. unfold Sxy. rewrite line_mx, line_my. unfold rg_line. rg_sum. lra. Qed.
Lemma line_on : collinear rg_line.
Proof. exists 2, (-1), (-1). split; [left; lra|]. unfold rg_line. cbn [combine In]. intros p [<-|[<-|[]]]; cbn [fst snd]; lra. Qed.
Lemma sqrt_4 : sqrt 4 = 2. Proof. replace 4 with (2 ^ 2) by lra. apply sqrt_pow2. lra. Qed.
Lemma rg_b4 : b4 rg = 1.
Proof. unfold b4, nearest, sign_of. rewrite rg_sxy, rg_slope1, rg_slope2. destruct (Rlt_dec 1 0); [lra|]. replace (4 + _) with 4 by field. rewrite sqrt_4. field. Qed.
Lemma down_b4 : b4 rg_down = -1.
Proof. unfold b4, nearest, sign_of. rewrite down_sxy, down_slope1, down_slope2. destruct (Rlt_dec (-1) 0); [|lra]. replace (4 + _) with 4 by field. rewrite sqrt_4. field. Qed.
Lemma rg_k : sqrt (4 + (slope2 rg - 1 / slope1 rg) ^ 2) = 2.
Proof. rewrite rg_slope1, rg_slope2. replace (4 + _) with 4 by field. apply sqrt_4. Qed.
Lemma down_k : sqrt (4 + (slope2 rg_down - 1 / slope1 rg_down) ^ 2) = 2.
Proof. rewrite down_slope1, down_slope2. replace (4 + _) with 4 by field. apply sqrt_4. Qed.
Lemma rg_err : delta_inter rg (b4 rg) (b4 rg / (slope1 rg ^ 2 * sqrt (4 + (slope2 rg - 1 / slope1 rg) ^ 2))) (b4 rg / sqrt (4 + (slope2 rg - 1 / slope1 rg) ^ 2)) = sqrt 8 / 3.
Proof.
  rewrite rg_k, rg_b4. unfold delta_inter, infl1, infl2. rewrite rg_mx, rg_my, rg_sxx, rg_sxy, rg_slope1, rg_slope2. unfold rg, rg_x, rg_y. cbn [combine]. rewrite size3. f_equal. f_equal. rg_sum. field.
Qed.
Lemma down_err : delta_inter rg_down (b4 rg_down) (b4 rg_down / (slope1 rg_down ^ 2 * sqrt (4 + (slope2 rg_down - 1 / slope1 rg_down) ^ 2))) (b4 rg_down / sqrt (4 + (slope2 rg_down - 1 / slope1 rg_down) ^ 2)) = sqrt 32 / 3.
Proof.
  rewrite down_k, down_b4. unfold delta_inter, infl1, infl2. rewrite down_mx, down_my, down_sxx, down_sxy, down_slope1, down_slope2. unfold rg_down, rg_x, rg_y. cbn [combine map]. rewrite size3. f_equal. f_equal. rg_sum. field.
Qed.
Lemma rg_off : ~ collinear rg.
Proof.
  intros (u & v & w & H & L). pose proof (L (1, 1) ltac:(now left)) as A. pose proof (L (2, 3) ltac:(right; now left)) as B. pose proof (L (3, 2) ltac:(right; right; now left)) as C. cbn [fst snd] in *. lra.
Qed.
Lemma rg_vertical : vertical rg (through rg (slope1 rg)) (slope1 rg) = 3 / 2.
Proof. rewrite vertical_eq by easy. unfold through. rewrite rg_syy, rg_sxx, rg_sxy, rg_slope1, rg_mx, rg_my. field. Qed.
Lemma rg_left e1 e2 e3 : left_over rg [e1; e2; e3] = (3 / 2 - (e1 ^ 2 + (e2 ^ 2 + (e3 ^ 2 + 0)))) / 3.
Proof. unfold left_over. fold (through rg (slope1 rg)). rewrite rg_vertical. unfold rg, rg_x, rg_y. cbn [combine]. rewrite size3. easy. Qed.

(** Consequences *)
Lemma rho_l x y s : length x = length y -> (2 <= length x)%nat -> bistats x y = Ok s ->
  exists rho, t_rho s = Num rho /\ -1 <= rho <= 1 /\ (Rabs rho = 1 <-> collinear (combine x y)).
Proof.
  intros Hlen Hn E. destruct (Req_dec (Sxy (combine x y)) 0) as [Z|Z]; [rewrite stats_refused in E by tauto; discriminate|].
  pose proof (stats_ok x y Hlen Hn Z) as S. rewrite E in S. injection S as ->. eexists. split; [reflexivity|].
  apply rho_bound; [apply pts_ne; [easy|lia]|exact Z].
Qed.
Lemma object_l x y s r : SixLin x y = Ok s -> In r [s_yonx s; s_xony s; s_bisect s; s_orthog s; s_rma s; s_mols s] -> plain r x y.
Proof.
  intros E I. destruct (Nat.eq_dec (length y) (length x)) as [Hl|Hl]; [|rewrite six_refused in E by tauto; discriminate].
  destruct (le_lt_dec 2 (length x)) as [Hn|Hn]; [|rewrite six_refused in E by tauto; discriminate].
  destruct (Req_dec (Sxy (combine x y)) 0) as [Z|Z]; [rewrite six_refused in E by tauto; discriminate|].
  destruct (six_ok x y (eq_sym Hl) Hn Z) as (s' & E' & _ & P). rewrite E in E'. injection E' as <-. cbn [In] in I.
  destruct P as (P1 & P2 & P3 & P4 & P5 & P6). destruct I as [<-|[<-|[<-|[<-|[<-|[<-|[]]]]]]]; assumption.
Qed.
Lemma each_l x y es : length es = length x -> length x = length y -> (2 <= length x)%nat ->
  let pts := combine x y in
  let ev := left_over pts es in
  let t := combine pts es in
  let w e := ev + e ^ 2 in
  Sxy pts <> 0 -> (forall e, In e es -> 0 < w e) ->
  exists r scat a b, wlss x y (Each es) = Ok (r, scat) /\ r_inter r = Num a /\ r_slope r = Num b /\
    (forall a' b', a' <> a \/ b' <> b -> weighted t w a b < weighted t w a' b') /\
    r_serr r = Num (sqrt (/ wspread t w)) /\ r_ierr r = Num (sqrt (/ RgSpec.wsum t w + wmean t w ^ 2 / wspread t w)) /\
    (0 <= ev -> scat = Num (sqrt ev)) /\ (ev < 0 -> scat = Bad) /\
    r_x r = x /\ r_y r = y /\ r_npts r = length x /\ range x (map (fun _ => 0) x) (r_xmin r) (r_xmax r) /\ range y es (r_ymin r) (r_ymax r).
Proof.
  intros He. apply (wlss_l x y (Each es) es); [|exact He]. cbn [spread]. now rewrite He, Nat.eqb_refl.
Qed.

(** Witnesses *)
Lemma unc_l : exists x y, length x = length y /\ (2 <= length x)%nat /\ 0 < Sxx (combine x y) /\ 0 < Syy (combine x y) /\ bistats x y = Err ValueError.
Proof.
  exists [0; 1; 2], [1; 0; 1]. fold rg_flat. rewrite flat_sxx, flat_syy. split; [easy|]. split; [cbn; lia|]. split; [lra|]. split; [lra|].
  apply stats_refused. right. right. apply flat_sxy.
Qed.
Lemma six_unc_l : exists x y a b, length x = length y /\ (2 <= length x)%nat /\
  (forall a' b', a' <> a \/ b' <> b -> vertical (combine x y) a b < vertical (combine x y) a' b') /\ SixLin x y = Err ValueError.
Proof.
  exists [0; 1; 2], [1; 0; 1], (2 / 3), 0. split; [easy|]. split; [cbn; lia|]. split; [|apply six_refused; right; right; apply flat_sxy].
  intros a b H. unfold vertical. rg_sum.
  assert (P : 0 < 3 * (a + b - 2 / 3) ^ 2 + 2 * b ^ 2).
  { destruct (Req_dec b 0) as [Hb|Hb]; [|pose proof (pow2_gt_0 b Hb); pose proof (pow2_ge_0 (a + b - 2 / 3)); lra].
    assert (Ha : a + b - 2 / 3 <> 0) by (subst; destruct H; lra). pose proof (pow2_gt_0 _ Ha). pose proof (pow2_ge_0 b). lra. }
  lra.
Qed.
Lemma mirror_l : exists x y s s', SixLin x y = Ok s /\ SixLin x (map Ropp y) = Ok s' /\
  r_slope (s_orthog s) = Num 1 /\ r_inter (s_orthog s) = Num 0 /\ r_slope (s_orthog s') = Num (-1) /\ r_inter (s_orthog s') = Num 0 /\
  r_ierr (s_orthog s) = Num (sqrt 8 / 3) /\ r_ierr (s_orthog s') = Num (sqrt 32 / 3).
Proof.
  exists rg_x, rg_y.
  destruct (six_ok rg_x rg_y) as (s & E & (_ & _ & _ & (A1 & A2 & _ & A4) & _) & _); [easy|cbn; lia|fold rg; rewrite rg_sxy; lra|].
  destruct (six_ok rg_x (map Ropp rg_y)) as (s' & E' & (_ & _ & _ & (B1 & B2 & _ & B4) & _) & _); [easy|cbn; lia|fold rg_down; rewrite down_sxy; lra|].
  fold rg in A1, A2, A4. fold rg_down in B1, B2, B4. exists s, s'. split; [exact E|]. split; [exact E'|].
  rewrite A1, A2, A4, B1, B2, B4, rg_err, down_err. unfold through. rewrite rg_b4, down_b4, rg_mx, rg_my, down_mx, down_my.
  repeat split; f_equal; ring.
Qed.
Lemma rg_es (e : R) : map (fun _ : nat => e) (seq 0 (length rg_x)) = [e; e; e]. Proof. easy. Qed.
Lemma scatter_l : exists x y e r b, wlss x y (Same e) = Ok (r, Bad) /\ r_slope r = Num b.
Proof.
  destruct (same_ok (length rg_x) 1) as [Sp Le]. rewrite rg_es in Sp, Le.
  destruct (wlss_l rg_x rg_y (Same 1) [1; 1; 1] Sp Le) as (r & scat & a & b & E & _ & E2 & _ & _ & _ & _ & B & _);
    [easy|cbn; lia|fold rg; rewrite rg_sxy; lra|fold rg; rewrite rg_left; cbn [In]; intros e [<-|[<-|[<-|[]]]]; lra|].
  fold rg in B. rewrite rg_left in B. rewrite B in E by lra. exists rg_x, rg_y, 1, r, b. now split.
Qed.
Lemma on_line_l : exists x y e a b r scat, (forall p, In p (combine x y) -> snd p = a + b * fst p) /\ (2 <= length x)%nat /\ NoDup x /\
  wlss x y (Same e) = Ok (r, scat) /\ r_slope r <> Num b.
Proof.
  destruct (collinear_l [0; 1] [1; 3] 1) as (r & scat & E & B & _); [easy|cbn; lia|fold rg_line; rewrite line_sxy; lra|exact line_on|].
  exists [0; 1], [1; 3], 1, 1, 2, r, scat. split; [cbn [combine In]; intros p [<-|[<-|[]]]; cbn [fst snd]; lra|]. split; [cbn; lia|].
  split; [|split; [exact E|rewrite B; discriminate]]. constructor; [cbn [In]; intros [H|[]]; lra|]. constructor; [intros []|constructor].
Qed.
Definition rg_data : list datum := map (fun p => Datum (fst p) 0 (snd p) 0 (2 / 3)) rg.
Lemma data_moments : average d_y1 rg_data = 2 /\ average d_y2 rg_data = 2 /\ covariance d_y1 d_y2 rg_data = 1 / 3 /\ average d_cerr rg_data = 2 / 3 /\
  covariance d_y1 d_y1 rg_data - average (fun d => d_y1err d ^ 2) rg_data = 2 / 3 /\ covariance d_y2 d_y2 rg_data - average (fun d => d_y2err d ^ 2) rg_data = 2 / 3.
Proof.
  assert (M1 : average d_y1 rg_data = 2) by (unfold average, rg_data, rg, rg_x, rg_y; cbn [combine map]; rewrite size3; unfold Sum; cbn [fold_right fst snd d_y1]; lra).
  assert (M2 : average d_y2 rg_data = 2) by (unfold average, rg_data, rg, rg_x, rg_y; cbn [combine map]; rewrite size3; unfold Sum; cbn [fold_right fst snd d_y2]; lra).
  split; [exact M1|]. split; [exact M2|]. unfold covariance. rewrite M1, M2.
  unfold average, rg_data, rg, rg_x, rg_y; cbn [combine map]; rewrite size3; unfold Sum; cbn [fold_right fst snd d_y1 d_y2 d_y1err d_y2err d_cerr].
  repeat split; lra.
Qed.
Lemma data_corrected : exists r, BCES (map d_y1 rg_data) (Each (map d_y1err rg_data)) (map d_y2 rg_data) (Each (map d_y2err rg_data)) (Each (map d_cerr rg_data)) = Ok r /\
  r_slope (c_yonx r) = Num (- (1 / 2)) /\ r_slope (c_xony r) = Num (-2) /\ r_slope (c_bisect r) = Num (-1) /\ r_slope (c_orthog r) = Num 1 /\ r_inter (c_bisect r) = Num 4.
Proof.
  destruct data_moments as (M1 & M2 & C & E & V1 & V2). pose proof (corrected_l rg_data) as T. cbv zeta in T. rewrite V1, V2, C, E, M1, M2 in T.
  destruct T as (r & E0 & S1 & S2 & S3 & S4 & A); [cbn; lia|lra|lra|lra|lra|].
  assert (B1 : (1 / 3 - 2 / 3) / (2 / 3) = - (1 / 2)) by field. assert (B2 : 2 / 3 / (1 / 3 - 2 / 3) = -2) by (field; lra).
  rewrite B1, B2 in *. assert (H3 : half_way (- (1 / 2)) (-2) = -1).
  { unfold half_way. replace ((1 + (- (1 / 2)) ^ 2) * (1 + (-2) ^ 2)) with ((5 / 2) ^ 2) by field. rewrite sqrt_pow2 by lra. field. }
  assert (H4 : nearest (sign_of (1 / 3)) (- (1 / 2)) (-2) = 1).
  { unfold nearest, sign_of. destruct (Rlt_dec (1 / 3) 0); [lra|]. replace (4 + _) with 4 by field. rewrite sqrt_4. field. }
  rewrite H3 in S3. rewrite H4 in S4. exists r. do 5 (split; [assumption|]).
  rewrite (A (c_bisect r) (-1)) by (assumption || (cbn; tauto)). f_equal. ring.
Qed.
Lemma sign_l : exists x xe y ye ce r b1 b2 b4, BCES x xe y ye ce = Ok r /\ r_slope (c_yonx r) = Num b1 /\ r_slope (c_xony r) = Num b2 /\ r_slope (c_orthog r) = Num b4 /\
  b1 < 0 /\ b2 < 0 /\ 0 < b4.
Proof. destruct data_corrected as (r & E & A & B & _ & C & _). eexists _, _, _, _, _, r, _, _, _. repeat (split; [eassumption|]). lra. Qed.
