(** Properties of the regressions of sandbox/regress. *)

From Coq Require Import List Bool Arith Reals Lra Lia.
From Verif Require Import Exn Instances McModel BaModel RgModel RgSpec RgLemmas RgLemmas5 RgLemmas6 RgLemmas8 RgCases RgLemmas9 RgLemmas10.
Import ListNotations.
Open Scope R_scope.

(** ** C94: bistats *)

Theorem C94_refused x y : length x <> length y \/ (length x < 2)%nat \/ Sxy (combine x y) = 0 -> bistats x y = Err ValueError.
Proof. exact (stats_refused x y). Qed.
Print Assumptions C94_refused.
Example C94_refused_case : bistats [1; 2] [3] = Err ValueError /\ bistats [1] [3] = Err ValueError.
Proof. split; apply C94_refused; cbn; [left|right; left]; lia. Qed.

(** The means, the standard deviations, the covariance and the correlation *)
Theorem C94_statistics x y : length x = length y -> (2 <= length x)%nat -> let pts := combine x y in Sxy pts <> 0 ->
  bistats x y = Ok (Stats (Num (mx pts)) (Num (sqrt (Sxx pts / size pts))) (Num (my pts)) (Num (sqrt (Syy pts / size pts)))
                          (Num (Sxy pts / size pts)) (Num (Sxy pts / sqrt (Sxx pts * Syy pts)))).
Proof. exact (stats_ok x y). Qed.
Print Assumptions C94_statistics.
Example C94_statistics_case : exists s, bistats rg_x rg_y = Ok s /\ t_xavg s = Num 2 /\ t_varxy s = Num (1 / 3) /\ t_rho s = Num (1 / 2).
Proof.
  eexists. split; [apply C94_statistics; [easy|cbn; lia|fold rg; rewrite rg_sxy; lra]|]. fold rg. cbn [t_xavg t_varxy t_rho].
  rewrite rg_mx, rg_sxy, rg_sxx, rg_syy. replace (size rg) with 3 by (symmetry; apply size3). replace (2 * 2) with 4 by ring. now rewrite sqrt_4.
Qed.

(** The correlation lies between -1 and 1, and is one of them just when the points
    lie on a line. *)
Theorem C94_rho x y s : length x = length y -> (2 <= length x)%nat -> bistats x y = Ok s ->
  exists rho, t_rho s = Num rho /\ -1 <= rho <= 1 /\ (Rabs rho = 1 <-> collinear (combine x y)).
Proof. exact (rho_l x y s). Qed.
Print Assumptions C94_rho.
Example C94_rho_case : exists s rho, bistats [0; 1] [1; 3] = Ok s /\ t_rho s = Num rho /\ Rabs rho = 1.
Proof.
  eexists. destruct (C94_rho [0; 1] [1; 3] _ eq_refl ltac:(cbn; lia) (C94_statistics [0; 1] [1; 3] eq_refl ltac:(cbn; lia) ltac:(fold rg_line; rewrite line_sxy; lra))) as (rho & E & _ & A).
  exists rho. split; [apply C94_statistics; [easy|cbn; lia|fold rg_line; rewrite line_sxy; lra]|]. split; [exact E|]. apply A, line_on.
Qed.

(** bistats refuses some uncorrelated data that have variances. *)
Theorem C94_uncorrelated_refuted : exists x y, length x = length y /\ (2 <= length x)%nat /\ 0 < Sxx (combine x y) /\ 0 < Syy (combine x y) /\ bistats x y = Err ValueError.
Proof. exact unc_l. Qed.
Print Assumptions C94_uncorrelated_refuted.

(** ** C95: the lines of SixLin *)

(** yonx, xony, orthog and rma are the only lines with the least vertical squares,
    horizontal squares, perpendicular squares and triangles; bisect halves the
    angle between the first two, and mols has their mean slope; all six go through
    the mean. *)
Theorem C95_lines x y : length x = length y -> (2 <= length x)%nat -> let pts := combine x y in Sxy pts <> 0 ->
  exists s, SixLin x y = Ok s /\
  exists a1 a2 a3 a4 a5 a6 b1 b2 b3 b4 b5 b6,
    (r_inter (s_yonx s) = Num a1 /\ r_slope (s_yonx s) = Num b1 /\ forall a b, a <> a1 \/ b <> b1 -> vertical pts a1 b1 < vertical pts a b) /\
    (r_inter (s_xony s) = Num a2 /\ r_slope (s_xony s) = Num b2 /\ b2 <> 0 /\ forall a b, b <> 0 -> a <> a2 \/ b <> b2 -> horizontal pts a2 b2 < horizontal pts a b) /\
    (r_inter (s_bisect s) = Num a3 /\ r_slope (s_bisect s) = Num b3 /\ atan b3 = (atan b1 + atan b2) / 2 /\ a3 + b3 * mx pts = my pts) /\
    (r_inter (s_orthog s) = Num a4 /\ r_slope (s_orthog s) = Num b4 /\ (forall a b, a <> a4 \/ b <> b4 -> perpendicular pts a4 b4 < perpendicular pts a b) /\
      (forall c, perpendicular pts a4 b4 < upright pts c)) /\
    (r_inter (s_rma s) = Num a5 /\ r_slope (s_rma s) = Num b5 /\ b5 <> 0 /\ forall a b, b <> 0 -> a <> a5 \/ b <> b5 -> areas pts a5 b5 < areas pts a b) /\
    (r_inter (s_mols s) = Num a6 /\ r_slope (s_mols s) = Num b6 /\ b6 = (b1 + b2) / 2 /\ a6 + b6 * mx pts = my pts).
Proof. exact (lines_l x y). Qed.
Print Assumptions C95_lines.
Example C95_lines_case : exists s a b, SixLin rg_x rg_y = Ok s /\ r_inter (s_orthog s) = Num a /\ r_slope (s_orthog s) = Num b /\ perpendicular rg a b < perpendicular rg 1 (1 / 2).
Proof.
  destruct (C95_lines rg_x rg_y) as (s & E & a1 & a2 & a3 & a4 & a5 & a6 & b1 & b2 & b3 & b4 & b5 & b6 & _ & _ & _ & (A & B & L & _) & _); [easy|cbn; lia|fold rg; rewrite rg_sxy; lra|].
  exists s, a4, b4. fold rg in L. do 3 (split; [assumption|]).
  destruct (six_ok rg_x rg_y) as (s' & E' & (_ & _ & _ & (B1 & _) & _) & _); [easy|cbn; lia|fold rg; rewrite rg_sxy; lra|].
  rewrite E in E'. injection E' as <-. fold rg in B1. rewrite rg_b4, B in B1. injection B1 as ->. apply L. right. lra.
Qed.

Theorem C95_refused x y : length y <> length x \/ (length x < 2)%nat \/ Sxy (combine x y) = 0 -> SixLin x y = Err ValueError.
Proof. exact (six_refused x y). Qed.
Print Assumptions C95_refused.
Example C95_refused_case : SixLin [1; 2] [3] = Err ValueError /\ SixLin [0; 1; 2] [1; 0; 1] = Err ValueError.
Proof. split; apply C95_refused; [left; cbn; lia|right; right; apply flat_sxy]. Qed.

(** The other attributes of a line: the data, their number and their extremes *)
Theorem C95_object x y s r : SixLin x y = Ok s -> In r [s_yonx s; s_xony s; s_bisect s; s_orthog s; s_rma s; s_mols s] ->
  r_x r = x /\ r_y r = y /\ r_npts r = length x /\ range x (map (fun _ => 0) x) (r_xmin r) (r_xmax r) /\ range y (map (fun _ => 0) y) (r_ymin r) (r_ymax r).
Proof. exact (object_l x y s r). Qed.
Print Assumptions C95_object.
Example C95_object_case : exists s, SixLin rg_x rg_y = Ok s /\ r_npts (s_rma s) = 3%nat /\ r_xmax (s_rma s) = 3.
Proof.
  destruct (C95_lines rg_x rg_y) as (s & E & _); [easy|cbn; lia|fold rg; rewrite rg_sxy; lra|]. exists s. split; [exact E|].
  destruct (C95_object rg_x rg_y s (s_rma s) E) as (_ & _ & N & (_ & _ & H1 & H2) & _); [cbn; tauto|]. split; [exact N|].
  cbn [rg_x map combine In fst snd] in H1, H2. specialize (H2 (3 + 0)). lra.
Qed.

(** SixLin refuses some data for which there is a least squares line. *)
Theorem C95_uncorrelated_refuted : exists x y a b, length x = length y /\ (2 <= length x)%nat /\
  (forall a' b', a' <> a \/ b' <> b -> vertical (combine x y) a b < vertical (combine x y) a' b') /\ SixLin x y = Err ValueError.
Proof. exact six_unc_l. Qed.
Print Assumptions C95_uncorrelated_refuted.

(** ** C96: the errors of SixLin *)

(** They are those of the delta method, but the derivatives for the intercept of
    orthog have the wrong sign when the slopes are negative. *)
Theorem C96_errors x y : length x = length y -> (2 <= length x)%nat -> let pts := combine x y in Sxy pts <> 0 ->
  let b1 := slope1 pts in
  let b2 := slope2 pts in
  let sg := sign_of (Sxy pts) in
  forall s, SixLin x y = Ok s ->
  r_serr (s_yonx s) = Num (delta_slope pts 1 0) /\ r_ierr (s_yonx s) = Num (delta_inter pts b1 1 0) /\
  r_serr (s_xony s) = Num (delta_slope pts 0 1) /\ r_ierr (s_xony s) = Num (delta_inter pts b2 0 1) /\
  (exists b d1 d2, from_slopes half_way b1 b2 b d1 d2 /\ r_serr (s_bisect s) = Num (delta_slope pts d1 d2) /\ r_ierr (s_bisect s) = Num (delta_inter pts b d1 d2)) /\
  (exists b d1 d2, from_slopes (nearest sg) b1 b2 b d1 d2 /\ r_serr (s_orthog s) = Num (delta_slope pts d1 d2) /\
    r_ierr (s_orthog s) = Num (delta_inter pts b (sg * d1) (sg * d2))) /\
  (exists b d1 d2, from_slopes (geometric sg) b1 b2 b d1 d2 /\ r_serr (s_rma s) = Num (delta_slope pts d1 d2) /\ r_ierr (s_rma s) = Num (delta_inter pts b d1 d2)) /\
  (exists b d1 d2, from_slopes arithmetic b1 b2 b d1 d2 /\ r_serr (s_mols s) = Num (delta_slope pts d1 d2) /\ r_ierr (s_mols s) = Num (delta_inter pts b d1 d2)).
Proof. exact (errors_l x y). Qed.
Print Assumptions C96_errors.
Example C96_errors_case : exists s, SixLin rg_x rg_y = Ok s /\ r_serr (s_yonx s) = Num (sqrt (9 / 8) / 3).
Proof.
  destruct (C95_lines rg_x rg_y) as (s & E & _); [easy|cbn; lia|fold rg; rewrite rg_sxy; lra|]. exists s. split; [exact E|].
  destruct (C96_errors rg_x rg_y) with (s := s) as (A & _); [easy|cbn; lia|fold rg; rewrite rg_sxy; lra|exact E|]. rewrite A. fold rg.
  unfold delta_slope, infl1, infl2. rewrite rg_mx, rg_my, rg_sxx, rg_sxy, rg_slope1. unfold rg, rg_x, rg_y. cbn [combine]. rewrite size3. do 3 f_equal. rg_sum. field.
Qed.

(** When y is replaced by -y the orthogonal line is reflected, but the error of its
    intercept is another. *)
Theorem C96_orthog_refuted : exists x y s s', SixLin x y = Ok s /\ SixLin x (map Ropp y) = Ok s' /\
  r_slope (s_orthog s) = Num 1 /\ r_inter (s_orthog s) = Num 0 /\ r_slope (s_orthog s') = Num (-1) /\ r_inter (s_orthog s') = Num 0 /\
  r_ierr (s_orthog s) = Num (sqrt 8 / 3) /\ r_ierr (s_orthog s') = Num (sqrt 32 / 3).
Proof. exact mirror_l. Qed.
Print Assumptions C96_orthog_refuted.

(** ** C97: wlss *)

(** If the variances that wlss supposes are positive, its line is the only one with
    the least weighted squares. *)
Theorem C97_weighted x y es : length es = length x -> length x = length y -> (2 <= length x)%nat ->
  let pts := combine x y in
  let ev := left_over pts es in
  let t := combine pts es in
  let w e := ev + e ^ 2 in
  Sxy pts <> 0 -> (forall e, In e es -> 0 < w e) ->
  exists r scat a b, wlss x y (Each es) = Ok (r, scat) /\ r_inter r = Num a /\ r_slope r = Num b /\
    (forall a' b', a' <> a \/ b' <> b -> weighted t w a b < weighted t w a' b') /\
    r_serr r = Num (sqrt (/ wspread t w)) /\ r_ierr r = Num (sqrt (/ RgSpec.wsum t w + wmean t w ^ 2 / wspread t w)) /\
    (0 <= ev -> scat = Num (sqrt ev)) /\ (ev < 0 -> scat = Bad) /\
    r_x r = x /\ r_y r = y /\ r_npts r = length x /\ range x (map (fun _ => 0) x) (r_xmin r) (r_xmax r) /\ range y es (r_ymin r) (r_ymax r).
Proof. exact (each_l x y es). Qed.
Print Assumptions C97_weighted.
Example C97_weighted_case : exists r scat a b, wlss rg_x rg_y (Each [0; 1 / 2; 1 / 2]) = Ok (r, scat) /\ r_inter r = Num a /\ r_slope r = Num b /\ scat = Num (sqrt (1 / 3)) /\
  r_ymax r = 7 / 2.
Proof.
  destruct (C97_weighted rg_x rg_y [0; 1 / 2; 1 / 2]) as (r & scat & a & b & E & A & B & _ & _ & _ & S & _ & _ & _ & _ & _ & (_ & _ & H1 & H2));
    [easy|easy|cbn; lia|fold rg; rewrite rg_sxy; lra|fold rg; rewrite rg_left; cbn [In]; intros e [<-|[<-|[<-|[]]]]; lra|].
  exists r, scat, a, b. do 3 (split; [assumption|]). fold rg in S. rewrite rg_left in S. split; [rewrite S by lra; do 2 f_equal; field|].
  cbn [rg_y map combine In fst snd] in H1, H2. specialize (H2 (3 + 1 / 2)). lra.
Qed.

(** If the errors are all the same, it is the line yonx of SixLin. *)
Theorem C97_same_errors x y e : length x = length y -> (2 <= length x)%nat -> let pts := combine x y in Sxy pts <> 0 -> ~ collinear pts ->
  exists r scat s, wlss x y (Same e) = Ok (r, scat) /\ SixLin x y = Ok s /\ r_slope r = r_slope (s_yonx s) /\ r_inter r = r_inter (s_yonx s).
Proof. exact (same_l x y e). Qed.
Print Assumptions C97_same_errors.
Example C97_same_errors_case : exists r scat s, wlss rg_x rg_y (Same 5) = Ok (r, scat) /\ SixLin rg_x rg_y = Ok s /\ r_slope r = r_slope (s_yonx s).
Proof.
  destruct (C97_same_errors rg_x rg_y 5) as (r & scat & s & E & F & A & _); [easy|cbn; lia|fold rg; rewrite rg_sxy; lra|exact rg_off|]. now exists r, scat, s.
Qed.

(** For points on a line and errors that are all the same wlss has no result. *)
Theorem C97_collinear x y e : length x = length y -> (2 <= length x)%nat -> let pts := combine x y in Sxy pts <> 0 -> collinear pts ->
  exists r scat, wlss x y (Same e) = Ok (r, scat) /\ r_slope r = Bad /\ r_inter r = Bad /\ r_serr r = Bad /\ r_ierr r = Bad /\ (e <> 0 -> scat = Bad).
Proof. exact (collinear_l x y e). Qed.
Print Assumptions C97_collinear.
Example C97_collinear_case : exists r, wlss [0; 1] [1; 3] (Same 1) = Ok (r, Bad) /\ r_slope r = Bad.
Proof.
  destruct (C97_collinear [0; 1] [1; 3] 1) as (r & scat & E & A & _ & _ & _ & B); [easy|cbn; lia|fold rg_line; rewrite line_sxy; lra|exact line_on|].
  rewrite B in E by lra. now exists r.
Qed.

Theorem C97_refused x y yerr : let wrong e := match e with Same _ => False | Each l => length l <> length x end in
  wrong yerr \/ length y <> length x \/ (length x < 2)%nat \/ Sxy (combine x y) = 0 -> wlss x y yerr = Err ValueError.
Proof. exact (wlss_refused_l x y yerr). Qed.
Print Assumptions C97_refused.
Example C97_refused_case : wlss rg_x rg_y (Each [1; 1]) = Err ValueError /\ wlss [0; 1; 2] [1; 0; 1] (Same 1) = Err ValueError.
Proof. split; apply C97_refused; [left; cbn; lia|right; right; right; apply flat_sxy]. Qed.

(** The other attributes of the line: the data, their number, and the extremes with
    the errors *)
Theorem C97_object x y yerr r scat : let each e := match e with Same e => map (fun _ => e) x | Each l => l end in
  wlss x y yerr = Ok (r, scat) ->
  r_x r = x /\ r_y r = y /\ r_npts r = length x /\ range x (map (fun _ => 0) x) (r_xmin r) (r_xmax r) /\ range y (each yerr) (r_ymin r) (r_ymax r).
Proof. exact (wlss_object_l x y yerr r scat). Qed.
Print Assumptions C97_object.
Example C97_object_case : exists r scat, wlss rg_x rg_y (Same 5) = Ok (r, scat) /\ r_ymax r = 8.
Proof.
  destruct (C97_same_errors rg_x rg_y 5) as (r & scat & s & E & _); [easy|cbn; lia|fold rg; rewrite rg_sxy; lra|exact rg_off|]. exists r, scat. split; [exact E|].
  destruct (C97_object rg_x rg_y (Same 5) r scat E) as (_ & _ & _ & _ & (_ & _ & H1 & H2)). cbn [rg_x rg_y map combine In fst snd] in H1, H2. specialize (H2 (3 + 5)). lra.
Qed.

(** wlss fails to find the line on which all of the points lie. *)
Theorem C97_line_refuted : exists x y e a b r scat, (forall p, In p (combine x y) -> snd p = a + b * fst p) /\ (2 <= length x)%nat /\ NoDup x /\
  wlss x y (Same e) = Ok (r, scat) /\ r_slope r <> Num b.
Proof. exact on_line_l. Qed.
Print Assumptions C97_line_refuted.

(** The scatter of a line with a slope need not be a number. *)
Theorem C97_scatter_refuted : exists x y e r b, wlss x y (Same e) = Ok (r, Bad) /\ r_slope r = Num b.
Proof. exact scatter_l. Qed.
Print Assumptions C97_scatter_refuted.

(** ** C98: BCES *)

(** Without errors its lines and their errors are those of SixLin. *)
Theorem C98_no_errors x y : length x = length y -> (2 <= length x)%nat -> Sxy (combine x y) <> 0 ->
  let agree r r' := r_slope r = r_slope r' /\ r_inter r = r_inter r' /\ r_serr r = r_serr r' /\ r_ierr r = r_ierr r' in
  exists c s, BCES x (Same 0) y (Same 0) (Same 0) = Ok c /\ SixLin x y = Ok s /\
    agree (c_yonx c) (s_yonx s) /\ agree (c_xony c) (s_xony s) /\ agree (c_bisect c) (s_bisect s) /\ agree (c_orthog c) (s_orthog s).
Proof. exact (no_errors_l x y). Qed.
Print Assumptions C98_no_errors.
Example C98_no_errors_case : exists c s, BCES rg_x (Same 0) rg_y (Same 0) (Same 0) = Ok c /\ SixLin rg_x rg_y = Ok s /\ r_ierr (c_bisect c) = r_ierr (s_bisect s).
Proof.
  destruct (C98_no_errors rg_x rg_y) as (c & s & E & F & _ & _ & (_ & _ & _ & A) & _); [easy|cbn; lia|fold rg; rewrite rg_sxy; lra|]. exists c, s. split; [exact E|]. split; [exact F|exact A].
Qed.

(** The slopes and intercepts follow from moments from which those of the errors
    are subtracted; but the sign of the orthogonal line is that of the covariance
    from which nothing is subtracted. *)
Theorem C98_corrected l : (2 <= length l)%nat ->
  let c0 := covariance d_y1 d_y2 l in
  let c := c0 - average d_cerr l in
  let v1 := covariance d_y1 d_y1 l - average (fun d => d_y1err d ^ 2) l in
  let v2 := covariance d_y2 d_y2 l - average (fun d => d_y2err d ^ 2) l in
  let b1 := c / v1 in
  let b2 := v2 / c in
  c <> 0 -> v1 <> 0 -> v2 <> 0 -> b1 + b2 <> 0 ->
  exists r, BCES (map d_y1 l) (Each (map d_y1err l)) (map d_y2 l) (Each (map d_y2err l)) (Each (map d_cerr l)) = Ok r /\
    r_slope (c_yonx r) = Num b1 /\ r_slope (c_xony r) = Num b2 /\ r_slope (c_bisect r) = Num (half_way b1 b2) /\ r_slope (c_orthog r) = Num (nearest (sign_of c0) b1 b2) /\
    forall q b, In q [c_yonx r; c_xony r; c_bisect r; c_orthog r] -> r_slope q = Num b -> r_inter q = Num (average d_y2 l - b * average d_y1 l).
Proof. exact (corrected_l l). Qed.
Print Assumptions C98_corrected.
Example C98_corrected_case : exists r, BCES rg_x (Each [0; 0; 0]) rg_y (Each [0; 0; 0]) (Each [2 / 3; 2 / 3; 2 / 3]) = Ok r /\ r_slope (c_bisect r) = Num (-1) /\ r_inter (c_bisect r) = Num 4.
Proof. destruct data_corrected as (r & E & _ & _ & B & _ & A). exists r. split; [exact E|]. split; [exact B|exact A]. Qed.

(** The orthogonal line can rise although both regressions fall. *)
Theorem C98_orthog_sign_refuted : exists x xe y ye ce r b1 b2 b4, BCES x xe y ye ce = Ok r /\
  r_slope (c_yonx r) = Num b1 /\ r_slope (c_xony r) = Num b2 /\ r_slope (c_orthog r) = Num b4 /\ b1 < 0 /\ b2 < 0 /\ 0 < b4.
Proof. exact sign_l. Qed.
Print Assumptions C98_orthog_sign_refuted.

Theorem C98_refused x xe y ye ce : let wrong e := match e with Same _ => False | Each l => length l <> length x end in
  wrong xe \/ wrong ye \/ wrong ce \/ length y <> length x \/ (length x < 2)%nat -> BCES x xe y ye ce = Err ValueError.
Proof. exact (bces_refused_l x xe y ye ce). Qed.
Print Assumptions C98_refused.
Example C98_refused_case : BCES rg_x (Same 0) rg_y (Each [1]) (Same 0) = Err ValueError.
Proof. apply C98_refused. right. left. cbn. lia. Qed.

(** Otherwise there are lines, with the data, their number, and the extremes with
    the errors. *)
Theorem C98_object x xe y ye ce : let wrong e := match e with Same _ => False | Each l => length l <> length x end in
  let each e := match e with Same e => map (fun _ => e) x | Each l => l end in
  ~ wrong xe -> ~ wrong ye -> ~ wrong ce -> length y = length x -> (2 <= length x)%nat ->
  exists c, BCES x xe y ye ce = Ok c /\ forall r, In r [c_yonx c; c_xony c; c_bisect c; c_orthog c] ->
    r_x r = x /\ r_y r = y /\ r_npts r = length x /\ range x (each xe) (r_xmin r) (r_xmax r) /\ range y (each ye) (r_ymin r) (r_ymax r).
Proof. exact (bces_object_l x xe y ye ce). Qed.
Print Assumptions C98_object.
Example C98_object_case : exists c, BCES rg_x (Each [1; 0; 0]) rg_y (Same 5) (Same 0) = Ok c /\ r_xmin (c_bisect c) = 0 /\ r_ymax (c_bisect c) = 8.
Proof.
  destruct (C98_object rg_x (Each [1; 0; 0]) rg_y (Same 5) (Same 0)) as (c & E & A); [intros H; now apply H|easy|easy|easy|cbn; lia|]. exists c. split; [exact E|].
  destruct (A (c_bisect c)) as (_ & _ & _ & (H1 & H2 & _) & (_ & _ & H3 & H4)); [cbn; tauto|]. cbn [rg_x rg_y map combine In fst snd] in H1, H2, H3, H4.
  specialize (H2 (1 - 1)). specialize (H4 (3 + 5)). lra.
Qed.

(** If the errors of x and y are not correlated, the standard errors of the lines
    are those of the mean of the influence of a datum on them: chi1 and chi2 for the
    first two slopes, with the partial derivatives for the others.  The derivatives
    for the intercept of orthog have the sign of C96.  The serr_IFAB are what they
    would be if chi1 and chi2 were perfectly correlated, and no less than serr. *)
Theorem C98_errors l : (2 <= length l)%nat -> (forall d, In d l -> d_cerr d = 0) ->
  let c := covariance d_y1 d_y2 l in
  let v1 := covariance d_y1 d_y1 l - average (fun d => d_y1err d ^ 2) l in
  let v2 := covariance d_y2 d_y2 l - average (fun d => d_y2err d ^ 2) l in
  let b1 := c / v1 in
  let b2 := v2 / c in
  let m1 := average d_y1 l in
  let m2 := average d_y2 l in
  let sg := sign_of c in
  let chi1 d := ((d_y1 d - m1) * (d_y2 d - m2 - b1 * (d_y1 d - m1)) + b1 * d_y1err d ^ 2) / v1 in
  let chi2 d := ((d_y2 d - m2) * (d_y2 d - m2 - b2 * (d_y1 d - m1)) - d_y2err d ^ 2) / c in
  let zeta b d1 d2 d := d_y2 d - b * d_y1 d - m1 * (d1 * chi1 d + d2 * chi2 d) in
  c <> 0 -> 0 < v1 -> 0 < v2 ->
  exists r, BCES (map d_y1 l) (Each (map d_y1err l)) (map d_y2 l) (Each (map d_y2err l)) (Each (map d_cerr l)) = Ok r /\
    r_serr (c_yonx r) = Num (std_err chi1 l) /\ r_ierr (c_yonx r) = Num (std_err (zeta b1 1 0) l) /\
    r_serr (c_xony r) = Num (std_err chi2 l) /\ r_ierr (c_xony r) = Num (std_err (zeta b2 0 1) l) /\
    (exists b d1 d2 se, from_slopes half_way b1 b2 b d1 d2 /\ r_serr (c_bisect r) = Num (std_err (fun d => d1 * chi1 d + d2 * chi2 d) l) /\
      r_ierr (c_bisect r) = Num (std_err (zeta b d1 d2) l) /\
      c_bisect_ifab r = Num se /\ se = Rabs (d1 * std_err chi1 l + d2 * std_err chi2 l) /\ std_err (fun d => d1 * chi1 d + d2 * chi2 d) l <= se) /\
    (exists b d1 d2 se, from_slopes (nearest sg) b1 b2 b d1 d2 /\ r_serr (c_orthog r) = Num (std_err (fun d => d1 * chi1 d + d2 * chi2 d) l) /\
      r_ierr (c_orthog r) = Num (std_err (zeta b (sg * d1) (sg * d2)) l) /\
      c_orthog_ifab r = Num se /\ se = Rabs (d1 * std_err chi1 l + d2 * std_err chi2 l) /\ std_err (fun d => d1 * chi1 d + d2 * chi2 d) l <= se).
Proof. exact (bces_errors_l l). Qed.
Print Assumptions C98_errors.
Example C98_errors_case : exists r s se, BCES rg_x (Each [0; 0; 0]) rg_y (Each [1 / 2; 1 / 2; 1 / 2]) (Each [0; 0; 0]) = Ok r /\
  r_serr (c_bisect r) = Num s /\ c_bisect_ifab r = Num se /\ s <= se.
Proof.
  destruct err_moments as (M1 & M2 & M3). pose proof (C98_errors err_data) as T. cbv zeta in T. rewrite M1, M2, M3 in T.
  destruct T as (r & E & _ & _ & _ & _ & (b & d1 & d2 & se & _ & A & _ & B & _ & C) & _); [cbn; lia|intros d [<-|[<-|[<-|[]]]]; reflexivity|lra|lra|lra|].
  eexists r, _, se. split; [exact E|]. split; [exact A|]. split; [exact B|exact C].
Qed.

(** If they are correlated, the error of the slope of xony is not what it is when x
    and y are exchanged. *)
Theorem C98_exchange_refuted : exists x xe y ye ce r r' b s s', BCES x xe y ye ce = Ok r /\ BCES y ye x xe ce = Ok r' /\
  r_slope (c_xony r) = Num b /\ r_slope (c_yonx r') = Num (1 / b) /\ r_serr (c_xony r) = Num s /\ r_serr (c_yonx r') = Num s' /\ s <> b ^ 2 * s'.
Proof. exact exchange_l. Qed.
Print Assumptions C98_exchange_refuted.
