(** Properties of highest density regions on grids. *)

From Coq Require Import ZArith String List Bool Arith Reals Lra Lia.
From Verif Require Import Exn Instances MinModel MinSpec HpdModel HpdSpec HpdCases.
From Verif Require HpdLemmas HpdLemmas2 HpdLemmas3 HpdLemmas4 HpdLemmas5.
Import ListNotations.
Local Open Scope R_scope.

(** C22.  The sum over cells is the integral, over the part where it exceeds
    the level, of the function interpolating the values. *)
Theorem C22_sum_is_the_integral_over_the_region : forall l c, qgt1d l c = region l c.
Proof. exact HpdLemmas.qgt1d_region. Qed.
Print Assumptions C22_sum_is_the_integral_over_the_region.
Theorem C22_double_sum_is_the_integral_over_the_region : forall rows c, (2 <= length rows)%nat -> qgt2d rows c = region2 rows c.
Proof. exact HpdLemmas.qgt2d_region. Qed.
Print Assumptions C22_double_sum_is_the_integral_over_the_region.

Example C22_sum_example : qgt1d [0; 2; 1; 3] 1 = 3/4 + 3/2 + 2.
Proof.
  unfold qgt1d. cbn [qgt_loop]. RefCases.rdec. cbn [andb orb]. unfold Rmax, Rmin.
  repeat destruct (Rle_dec _ _); lra.
Qed.
Example C22_double_sum_example : qgt2d [[0; 2]; [2; 2]] 1 = 1/2 * (3/4) + 1/2 * 2.
Proof.
  unfold qgt2d. cbn [qgt2_loop qgt_loop length Nat.eqb orb]. RefCases.rdec. cbn [andb orb]. unfold Rmax, Rmin.
  repeat destruct (Rle_dec _ _); lra.
Qed.

(** What fracgt divides by is the integral above the smallest value, so it
    leaves out cells with the smallest value at both ends. *)
Theorem C22_fraction_of_what_is_above_the_floor : forall cdf ppf brentq h lr, object1 cdf ppf brentq h ->
  exists bot, In bot (density1 h) /\ (forall x, In x (density1 h) -> bot <= x) /\
  fracgt1 h lr = if Req_EM_T (region (density1 h) bot) 0 then Err ZeroDivisionError
                 else Ok (region (density1 h) (level1 h lr) / region (density1 h) bot).
Proof. intros cdf ppf brentq h lr H. apply fracgt1_floor. apply (HpdLemmas4.object1_grid _ _ _ _ H). Qed.
Print Assumptions C22_fraction_of_what_is_above_the_floor.

Theorem C22_fraction_1d : forall cdf ppf brentq h lr, object1 cdf ppf brentq h ->
  no_flat_floor (density1 h) (density1 h) -> fracgt1 h lr = Ok (frac_of1 h lr).
Proof. intros cdf ppf brentq h lr H HF. apply HpdLemmas2.fracgt1_is; [apply (HpdLemmas4.object1_grid _ _ _ _ H)|exact HF]. Qed.
Print Assumptions C22_fraction_1d.
Theorem C22_fraction_2d : forall cdf ppf brentq h lr, object2 cdf ppf brentq h ->
  level_floor2 (density2 h) -> fracgt2 h lr = Ok (frac_of2 h lr).
Proof. intros cdf ppf brentq h lr H HF. apply HpdLemmas2.fracgt2_is; [apply (HpdLemmas4.object2_grid _ _ _ _ H)|exact HF]. Qed.
Print Assumptions C22_fraction_2d.

(** So it is a proper fraction, and decreases from 1 to 0 as the level goes up. *)
Theorem C22_fraction_is_proper_1d : forall cdf ppf brentq h, object1 cdf ppf brentq h -> no_flat_floor (density1 h) (density1 h) ->
  (forall lr, exists q, fracgt1 h lr = Ok q /\ 0 <= q <= 1) /\
  (forall lr lr' q q', lr <= lr' -> fracgt1 h lr = Ok q -> fracgt1 h lr' = Ok q' -> q' <= q) /\
  (forall lr, (forall x, In x (density1 h) -> level1 h lr < x) -> fracgt1 h lr = Ok 1) /\
  (forall lr, (forall x, In x (density1 h) -> x <= level1 h lr) -> fracgt1 h lr = Ok 0).
Proof.
  intros cdf ppf brentq h H HF. pose proof (HpdLemmas4.object1_grid _ _ _ _ H) as G.
  destruct (HpdLemmas2.frac_facts (density1 h) (HpdLemmas2.density1_pos h G) (HpdLemmas5.density1_two h G)) as [F1 [F2 [F3 F4]]].
  split; [|split; [|split]].
  - intros lr. exists (frac_of1 h lr). split; [apply HpdLemmas2.fracgt1_is; assumption|apply F1].
  - intros lr lr' q q' L. rewrite !HpdLemmas2.fracgt1_is by assumption. intros E E'. injection E as <-. injection E' as <-.
    apply F2. apply HpdLemmas5.level1_le. exact L.
  - intros lr K. rewrite HpdLemmas2.fracgt1_is by assumption. rewrite F3 by exact K. reflexivity.
  - intros lr K. rewrite HpdLemmas2.fracgt1_is by assumption. rewrite F4 by exact K. reflexivity.
Qed.
Print Assumptions C22_fraction_is_proper_1d.
Theorem C22_fraction_is_proper_2d : forall cdf ppf brentq h, object2 cdf ppf brentq h -> level_floor2 (density2 h) ->
  (forall lr, exists q, fracgt2 h lr = Ok q /\ 0 <= q <= 1) /\
  (forall lr lr' q q', lr <= lr' -> fracgt2 h lr = Ok q -> fracgt2 h lr' = Ok q' -> q' <= q) /\
  (forall lr, (forall x, In x (concat (density2 h)) -> level2 h lr < x) -> fracgt2 h lr = Ok 1) /\
  (forall lr, (forall x, In x (concat (density2 h)) -> x <= level2 h lr) -> fracgt2 h lr = Ok 0).
Proof.
  intros cdf ppf brentq h H HF. pose proof (HpdLemmas4.object2_grid _ _ _ _ H) as G.
  destruct (HpdLemmas2.frac2_facts (density2 h) (HpdLemmas2.density2_table h G)) as [F1 [F2 [F3 F4]]].
  split; [|split; [|split]].
  - intros lr. exists (frac_of2 h lr). split; [apply HpdLemmas2.fracgt2_is; assumption|apply F1].
  - intros lr lr' q q' L. rewrite !HpdLemmas2.fracgt2_is by assumption. intros E E'. injection E as <-. injection E' as <-.
    apply F2. apply HpdLemmas5.level2_le. exact L.
  - intros lr K. rewrite HpdLemmas2.fracgt2_is by assumption. rewrite F3 by exact K. reflexivity.
  - intros lr K. rewrite HpdLemmas2.fracgt2_is by assumption. rewrite F4 by exact K. reflexivity.
Qed.
Print Assumptions C22_fraction_is_proper_2d.

Example C22_example_1d : exists h, new_hpd1 [ln (9/10); 0; ln (9/10)] 0 2 "linear" = Ok h /\ made1 h /\
  no_flat_floor (density1 h) (density1 h) /\ fracgt1 h (ln (95/100)) = Ok (39/76).
Proof.
  destruct almost_flat as [h [E [M [NF [F _]]]]]. exists h. split; [exact E|]. split; [exact M|]. split; [exact NF|exact F].
Qed.
Example C22_example_2d : exists h, new_hpd2 [[0; ln (1/2)]; [ln (1/2); ln (1/4)]] 0 1 0 1 "linear" "linear" = Ok h /\ made2 h /\
  density2 h = [[1; 1/2]; [1/2; 1/4]] /\ level_floor2 (density2 h).
Proof.
  destruct square_case as [h [E [M [ED [_ LF]]]]]. exists h. split; [exact E|]. split; [exact M|]. split; [exact ED|exact LF].
Qed.

(** Two neighbours with the smallest value: 5/3 of the probability. *)
Theorem C22_flat_floor_refuted : exists logpdf xlo xhi h lr q,
  new_hpd1 logpdf xlo xhi "linear" = Ok h /\ made1 h /\ fracgt1 h lr = Ok q /\ 1 < q.
Proof.
  destruct flat_case as [h [E [M F]]]. exists [ln (1/2); ln (1/2); 0], 0, 2, h, (ln (1/10)), (5/3).
  split; [exact E|]. split; [exact M|]. split; [exact F|lra].
Qed.
Print Assumptions C22_flat_floor_refuted.

(** All values the same: no answer at any level. *)
Theorem C22_uniform_raises : forall cdf ppf brentq h c lr, object1 cdf ppf brentq h ->
  (forall x, In x (density1 h) -> x = c) -> fracgt1 h lr = Err ZeroDivisionError.
Proof. intros cdf ppf brentq h c lr H. apply uniform_raises. apply (HpdLemmas4.object1_grid _ _ _ _ H). Qed.
Print Assumptions C22_uniform_raises.
Example C22_uniform_example : exists h, new_hpd1 [0; 0; 0] 0 2 "linear" = Ok h /\ made1 h /\ forall x, In x (density1 h) -> x = 1.
Proof.
  destruct (made_lin [0; 0; 0] 0 2 ltac:(lra) ltac:(cbn; lia)) as [h [E [M [EL [ELin _]]]]]. exists h. split; [exact E|]. split; [exact M|].
  rewrite (density1_lin h (HpdLemmas2.made1_grid h M) ELin), EL. cbn [map]. rewrite exp_0. intros x [<-|[<-|[<-|[]]]]; reflexivity.
Qed.

(** On a logarithmic grid the level is not one below the maximum of what is
    compared with it: all the probability is above the "maximum". *)
Theorem C22_log_grid_maximum_refuted : exists logpdf xlo xhi h,
  new_hpd1 logpdf xlo xhi "log" = Ok h /\ made1 h /\ no_flat_floor (density1 h) (density1 h) /\
  (forall v, In v logpdf -> v <= h_max h + 0) /\ fracgt1 h 0 = Ok 1.
Proof.
  destruct log_case as [h [E [M [NF F]]]]. exists [0; 0], 1, 4, h. split; [exact E|]. split; [exact M|]. split; [exact NF|]. split; [|exact F].
  pose proof (HpdLemmas2.g1_max h (HpdLemmas2.made1_grid h M)) as [_ K]. intros v Hv. rewrite Rplus_0_r. apply K.
  replace (h_logpdf h) with [0; 0]; [exact Hv|]. unfold new_hpd1 in E.
  destruct (axis "log" 1 4 (length [0; 0])) as [[[lin xs] dx]|e]; [|discriminate]. cbn [bindr build1] in E.
  destruct (amax [0; 0]) as [t|e]; [|discriminate]. cbn [bindr] in E.
  destruct (amin _) as [b|e]; [|discriminate]. cbn [bindr] in E. injection E as <-. reflexivity.
Qed.
Print Assumptions C22_log_grid_maximum_refuted.

(** C23.  The values returned are the crossings, in order, as many as fit. *)
Theorem C23_crossings : forall xs ys c m, sorted xs -> length xs = length ys ->
  exists cs, lists_crossings xs ys c cs /\
  let o := xvalues xs ys c m in
  xvals_of m o = firstn m cs /\ (x_ok o = true -> x_nx o = length cs) /\ ((length cs <= m)%nat -> x_ok o = true) /\
  (forall i v, In (i, v) (x_writes o) -> (1 <= i <= length cs)%nat /\ nth_error cs (i - 1) = Some v).
Proof.
  intros xs ys c m HS HL. pose proof (HpdLemmas3.found_spec c xs ys HS HL) as F. eexists. split; [exact F|].
  apply HpdLemmas3.xvalues_spec; assumption.
Qed.
Print Assumptions C23_crossings.
(** There is one list of crossings. *)
Theorem C23_crossings_unique : forall xs ys c cs cs', lists_crossings xs ys c cs -> lists_crossings xs ys c cs' -> cs = cs'.
Proof.
  intros xs ys c cs cs' [H1 H2] [H1' H2']. apply HpdLemmas3.increasing_unique; [exact H1|exact H1'|]. intros v. rewrite H2, H2'. reflexivity.
Qed.
Print Assumptions C23_crossings_unique.

Example C23_example : sorted [0; 1; 3; 4] /\ xvals_of 10 (xvalues [0; 1; 3; 4] [0; 2; 0; 1] (1/2) 10) = [1/4; 5/2; 7/2].
Proof.
  split; [intros i Hi; cbn [length] in Hi; destruct i as [|[|[|i]]]; cbn [nth]; [lra|lra|lra|lia]|].
  unfold xvalues. do 3 (rewrite HpdLemmas3.xv_step; cbv zeta; RefCases.rdec; cbn [andb Nat.ltb Nat.leb]).
  cbn [xv_loop]. unfold xvals_of. cbn [x_writes x_nx app filter fst snd Nat.leb andb map].
  f_equal; [field|f_equal; [field|f_equal; field]].
Qed.

(** A rising crossing is stored without looking at the size of the buffer. *)
Theorem C23_buffer_refuted : exists xs ys c m v, sorted xs /\ length xs = length ys /\
  In (S m, v) (x_writes (xvalues xs ys c m)) /\ x_ok (xvalues xs ys c m) = true.
Proof.
  exists [0; 1], [0; 2], 1, 0%nat, (0 + (1 - 0) * (1 - 0) / (2 - 0)).
  split; [intros i Hi; cbn [length] in Hi; destruct i as [|i]; cbn [nth]; [lra|lia]|]. split; [reflexivity|].
  unfold xvalues. rewrite HpdLemmas3.xv_step. cbv zeta. RefCases.rdec. cbn [andb xv_loop x_writes x_ok app].
  split; [left; reflexivity|reflexivity].
Qed.
Print Assumptions C23_buffer_refuted.

(** If no grid value is the level itself it stores at most one element too
    many; otherwise as many as there are teeth. *)
Theorem C23_overrun_by_one : forall xs ys c m, (forall y, In y ys -> y <> c) ->
  forall i v, In (i, v) (x_writes (xvalues xs ys c m)) -> (i <= S m)%nat.
Proof. exact HpdLemmas3.xvalues_overrun. Qed.
Print Assumptions C23_overrun_by_one.
Theorem C23_overrun_by_any_number : forall m k, exists xs ys c, sorted xs /\ length xs = length ys /\
  x_ok (xvalues xs ys c m) = true /\ x_nx (xvalues xs ys c m) = (m + k)%nat.
Proof.
  intros m k. exists (HpdLemmas3.upto 0 (3 * (m + k) + 1)), (HpdLemmas3.teeth (m + k)), 1.
  pose proof (HpdLemmas3.upto_sorted 0 (3 * (m + k) + 1)) as HS.
  assert (HL : length (HpdLemmas3.upto 0 (3 * (m + k) + 1)) = length (HpdLemmas3.teeth (m + k))).
  { unfold HpdLemmas3.upto. rewrite map_length, seq_length, HpdLemmas3.teeth_length. reflexivity. }
  split; [exact HS|]. split; [exact HL|].
  assert (K : x_ok (xvalues (HpdLemmas3.upto 0 (3 * (m + k) + 1)) (HpdLemmas3.teeth (m + k)) 1 m) = true) by apply HpdLemmas3.teeth_ok.
  split; [exact K|].
  pose proof (HpdLemmas3.found_spec 1 _ _ HS HL) as F.
  destruct (HpdLemmas3.xvalues_spec _ _ _ m _ HS HL F) as [_ [N _]]. rewrite (N K). apply HpdLemmas3.teeth_found.
Qed.
Print Assumptions C23_overrun_by_any_number.

(** Where a grid value is the level the crossing is missed. *)
Theorem C23_level_on_the_grid_refuted : exists xs ys c m, sorted xs /\ length xs = length ys /\ (0 < m)%nat /\
  hd 0 ys < c < last ys 0 /\ x_ok (xvalues xs ys c m) = true /\ xvals_of m (xvalues xs ys c m) = [].
Proof.
  exists [0; 1; 2], [0; 1; 2], 1, 10%nat.
  split; [intros i Hi; cbn [length] in Hi; destruct i as [|[|i]]; cbn [nth]; [lra|lra|lia]|]. split; [reflexivity|]. split; [lia|].
  cbn [hd last]. split; [lra|].
  unfold xvalues. do 2 (rewrite HpdLemmas3.xv_step; cbv zeta; RefCases.rdec; cbn [andb]). split; reflexivity.
Qed.
Print Assumptions C23_level_on_the_grid_refuted.

(** C24.  What critlevel returns and keeps. *)
Theorem C24_level_1d : forall cdf ppf brentq h p snsig tol h' r b, root_search brentq -> object1 cdf ppf brentq h ->
  no_flat_floor (density1 h) (density1 h) -> 0 < tol -> critlevel1 cdf ppf brentq p snsig tol h = (h', Ok (r, b)) ->
  exists prob, asked cdf p snsig prob /\
  (let e := tol + rtol * Rabs r in frac_of1 h (r + e) <= prob <= frac_of1 h (r - e)) /\
  h_probs h' = h_probs h ++ [prob] /\ h_deltas h' = h_deltas h ++ [r] /\
  h_levels h' = h_levels h ++ [h_max h + r] /\ h_bounds h' = h_bounds h ++ [b] /\
  (forall cs, lists_crossings (h_xvals h) (map (fun v => v - h_max h) (h_logpdf h)) r cs -> b = firstn 10 cs).
Proof. exact HpdLemmas5.level1_ok. Qed.
Print Assumptions C24_level_1d.
Theorem C24_level_2d : forall cdf ppf brentq h p snsig tol h' r, root_search brentq -> object2 cdf ppf brentq h ->
  level_floor2 (density2 h) -> 0 < tol -> critlevel2 cdf ppf brentq p snsig tol h = (h', Ok r) ->
  exists prob, asked cdf p snsig prob /\
  (let e := tol + rtol * Rabs r in frac_of2 h (r + e) <= prob <= frac_of2 h (r - e)) /\
  d_probs h' = d_probs h ++ [prob] /\ d_deltas h' = d_deltas h ++ [r] /\ d_levels h' = d_levels h ++ [d_max h + r].
Proof. exact HpdLemmas5.level2_ok. Qed.
Print Assumptions C24_level_2d.

(** On a linear grid the bounds are in the cells at the edges of the region. *)
Theorem C24_bounds_are_at_the_edges : forall cdf ppf brentq h r cs, object1 cdf ppf brentq h -> h_lin h = true ->
  lists_crossings (h_xvals h) (map (fun v => v - h_max h) (h_logpdf h)) r cs ->
  (forall v, In v cs -> exists i, straddles (density1 h) (level1 h r) i /\ nth i (h_xvals h) 0 < v < nth (S i) (h_xvals h) 0) /\
  (forall i, straddles (density1 h) (level1 h r) i -> exists v, In v cs /\ nth i (h_xvals h) 0 < v < nth (S i) (h_xvals h) 0).
Proof. intros cdf ppf brentq h r cs H. apply HpdLemmas5.bounds_cells. apply (HpdLemmas4.object1_grid _ _ _ _ H). Qed.
Print Assumptions C24_bounds_are_at_the_edges.

(** It answers if something is below the level it starts from, unless there
    are too many crossings for the buffer; and if not it fails. *)
Theorem C24_level_found_1d : forall cdf ppf brentq h p snsig tol prob lr, root_search brentq -> converges brentq ->
  object1 cdf ppf brentq h -> no_flat_floor (density1 h) (density1 h) -> 0 < tol ->
  asked cdf p snsig prob -> starts_at ppf p snsig lr -> 0 < prob < 1 ->
  (exists x, In x (density1 h) /\ x < level1 h lr) ->
  (forall x, In x (density1 h) -> level1 h (lr - 10 ^ 15) <= x <= level1 h (lr + 10 ^ 15)) ->
  (exists h' r b, critlevel1 cdf ppf brentq p snsig tol h = (h', Ok (r, b))) \/
  (exists h', critlevel1 cdf ppf brentq p snsig tol h = (h', Err RuntimeError) /\ crowded h).
Proof. exact HpdLemmas5.level1_found. Qed.
Print Assumptions C24_level_found_1d.
Theorem C24_level_found_2d : forall cdf ppf brentq h p snsig tol prob lr, root_search brentq -> converges brentq ->
  object2 cdf ppf brentq h -> level_floor2 (density2 h) -> 0 < tol ->
  asked cdf p snsig prob -> starts_at ppf p snsig lr -> 0 < prob < 1 ->
  (exists x, In x (concat (density2 h)) /\ x < level2 h lr) ->
  (forall x, In x (concat (density2 h)) -> level2 h (lr - 10 ^ 15) <= x <= level2 h (lr + 10 ^ 15)) ->
  exists h' r, critlevel2 cdf ppf brentq p snsig tol h = (h', Ok r).
Proof. exact HpdLemmas5.level2_found. Qed.
Print Assumptions C24_level_found_2d.
Theorem C24_level_not_found_1d : forall cdf ppf brentq h p snsig tol prob lr, object1 cdf ppf brentq h ->
  no_flat_floor (density1 h) (density1 h) -> asked cdf p snsig prob -> starts_at ppf p snsig lr -> 0 < prob < 1 ->
  (forall x, In x (density1 h) -> level1 h lr <= x) -> snd (critlevel1 cdf ppf brentq p snsig tol h) = Err RuntimeError.
Proof. exact HpdLemmas5.level1_fails. Qed.
Print Assumptions C24_level_not_found_1d.
Theorem C24_level_not_found_2d : forall cdf ppf brentq h p snsig tol prob lr, object2 cdf ppf brentq h ->
  level_floor2 (density2 h) -> asked cdf p snsig prob -> starts_at ppf p snsig lr -> 0 < prob < 1 ->
  (forall x, In x (concat (density2 h)) -> level2 h lr <= x) -> snd (critlevel2 cdf ppf brentq p snsig tol h) = Err RuntimeError.
Proof. exact HpdLemmas5.level2_fails. Qed.
Print Assumptions C24_level_not_found_2d.

(** Repeated bisection meets what is assumed of the root finder. *)
Example C24_search_example : root_search bisect /\ converges bisect.
Proof. split; [exact bisect_search|exact bisect_converges]. Qed.
Example C24_example_1d : exists h, new_hpd1 [0; ln (1/4); ln (1/16)] 1 4 "log" = Ok h /\ made1 h /\
  forall ppf, ppf (31/36) 1 = 1 -> exists h' r v, critlevel1 (fun _ _ => 0) ppf bisect (Some (31/36)) None (3/10000) h = (h', Ok (r, [v])).
Proof.
  destruct log_bounds as [h [E [M [_ [_ K]]]]]. exists h. split; [exact E|]. split; [exact M|]. intros ppf Hp.
  destruct (K (fun _ _ => 0) ppf bisect (3/10000) bisect_search bisect_converges ltac:(lra)) as [h' [r [v [D _]]]].
  - rewrite Hp, sqrt_1. assert (L : ln (1/4) <= -(3/4)).
    { pose proof (ln_gap (1/4) 1 (3/4) ltac:(lra) ltac:(lra) ltac:(lra) ltac:(lra)) as GP. rewrite ln_1 in GP. lra. } lra.
  - exists h', r, v. exact D.
Qed.
Example C24_example_2d : exists h, new_hpd2 [[0; ln (1/2)]; [ln (1/2); ln (1/4)]] 0 1 0 1 "linear" "linear" = Ok h /\
  forall ppf, ppf (1/2) 1 = 1 -> exists h' r, critlevel2 (fun _ _ => 0) ppf bisect (Some (1/2)) None (3/10000) h = (h', Ok r).
Proof.
  destruct square_case as [h [E [M [ED [EM LF]]]]]. exists h. split; [exact E|]. intros ppf Hp.
  apply (C24_level_found_2d _ _ _ _ _ _ _ (1/2) (- (1/2) * sqrt (ppf (1/2) 1) ^ 2) bisect_search bisect_converges (object2_new _ _ _ h M) LF).
  - lra.
  - left. split; [reflexivity|left; reflexivity].
  - left. exists (1/2). split; [reflexivity|]. split; [left; reflexivity|reflexivity].
  - lra.
  - rewrite ED, Hp, sqrt_1. exists (1/4). split; [cbn; auto|]. unfold level2. rewrite EM.
    pose proof (exp_lo (0 + - (1/2) * 1 ^ 2)). lra.
  - rewrite ED, Hp, sqrt_1. intros x Hx. unfold level2. rewrite EM.
    assert (B2 : -10 <= ln (1/4)).
    { apply Rnot_lt_le. intros C. apply exp_increasing in C. rewrite exp_ln in C by lra. pose proof (exp_hi (-10) ltac:(lra)). lra. }
    pose proof (ln_increasing (1/4) (1/2) ltac:(lra) ltac:(lra)) as L1. pose proof (ln_neg (1/2) ltac:(lra)) as L2.
    apply wide; [lra| |cbn in Hx; lra]. cbn in Hx. destruct Hx as [<-|[<-|[<-|[<-|[]]]]]; rewrite ?ln_1; lra.
Qed.

(** A grid with a level of the probability asked for, and no answer, because
    no value is below the one for a normal distribution. *)
Theorem C24_flat_grid_refuted : exists logpdf xlo xhi h p lr, new_hpd1 logpdf xlo xhi "linear" = Ok h /\ made1 h /\
  no_flat_floor (density1 h) (density1 h) /\ 0 < p < 1 /\ fracgt1 h lr = Ok p /\
  forall cdf ppf brentq tol, - (1/2) * sqrt (ppf p 1) ^ 2 <= ln (9/10) ->
    snd (critlevel1 cdf ppf brentq (Some p) None tol h) = Err RuntimeError.
Proof.
  destruct almost_flat as [h [E [M [NF [F K]]]]]. exists [ln (9/10); 0; ln (9/10)], 0, 2, h, (39/76), (ln (95/100)).
  split; [exact E|]. split; [exact M|]. split; [exact NF|]. split; [lra|]. split; [exact F|exact K].
Qed.
Print Assumptions C24_flat_grid_refuted.

(** On a logarithmic grid the bounds are those of another density: here the
    density is above the level on all of [1, 2] and yet the only bound
    returned is inside that interval. *)
Theorem C24_log_bounds_refuted : exists logpdf xlo xhi h, new_hpd1 logpdf xlo xhi "log" = Ok h /\ made1 h /\
  h_xvals h = [1; 2; 4] /\ density1 h = [1; 1/2; 1/4] /\
  forall cdf ppf brentq tol, root_search brentq -> converges brentq -> 0 < tol <= 1/1000 ->
    ln (1/4) < - (1/2) * sqrt (ppf (31/36) 1) ^ 2 ->
    exists h' r v, critlevel1 cdf ppf brentq (Some (31/36)) None tol h = (h', Ok (r, [v])) /\ 1 < v < 2 /\
      1/4 < level1 h r < 1/2.
Proof.
  destruct log_bounds as [h K]. exists [0; ln (1/4); ln (1/16)], 1, 4, h. exact K.
Qed.
Print Assumptions C24_log_bounds_refuted.

(** With more than ten crossings the call raises, but the level has been kept
    and the bounds have not. *)
Theorem C24_failed_call_leaves_no_trace_refuted : exists logpdf xlo xhi h, new_hpd1 logpdf xlo xhi "linear" = Ok h /\ made1 h /\
  no_flat_floor (density1 h) (density1 h) /\
  forall cdf ppf brentq tol, root_search brentq -> converges brentq -> 0 < tol <= 1/1000 ->
    ln (1/2) < - (1/2) * sqrt (ppf (7/12) 1) ^ 2 ->
    exists h', critlevel1 cdf ppf brentq (Some (7/12)) None tol h = (h', Err RuntimeError) /\
      length (h_probs h') = 1%nat /\ length (h_deltas h') = 1%nat /\ length (h_levels h') = 1%nat /\ h_bounds h' = [].
Proof. destruct zig_case as [h K]. exists zigzag, 0, 12, h. exact K. Qed.
Print Assumptions C24_failed_call_leaves_no_trace_refuted.

(** C59.  A two-dimensional object keeps its ranges, except that one made
    from an array has no upper end of y. *)
Theorem C59_ranges_kept : forall log_pdf xlo xhi nx ylo yhi ny xstep ystep h,
  new_hpdgrid2 log_pdf xlo xhi nx ylo yhi ny xstep ystep = Ok h ->
  d_xlo h = xlo /\ d_xhi h = xhi /\ d_ylo h = ylo /\ d_yhi h = Some yhi.
Proof.
  intros log_pdf xlo xhi nx ylo yhi ny xstep ystep h E. unfold new_hpdgrid2 in E.
  destruct (axis xstep xlo xhi nx) as [[[xlin xs] dx]|e]; [|discriminate]. cbn [bindr] in E.
  destruct (axis ystep ylo yhi ny) as [[[ylin ys] dy]|e]; [|discriminate]. cbn [bindr build2 fst snd] in E.
  destruct (amax _) as [t|e]; [|discriminate]. cbn [bindr] in E. destruct (amin _) as [b|e]; [|discriminate]. cbn [bindr] in E.
  injection E as <-. split; [reflexivity|]. split; [reflexivity|]. split; reflexivity.
Qed.
Print Assumptions C59_ranges_kept.
Theorem C59_array_object_has_no_yhi : forall logpdf xlo xhi ylo yhi xstep ystep h,
  new_hpd2 logpdf xlo xhi ylo yhi xstep ystep = Ok h ->
  d_xlo h = xlo /\ d_xhi h = xhi /\ d_ylo h = ylo /\ d_yhi h = None.
Proof.
  intros logpdf xlo xhi ylo yhi xstep ystep h E. unfold new_hpd2 in E.
  destruct (axis xstep xlo xhi _) as [[[xlin xs] dx]|e]; [|discriminate]. cbn [bindr] in E.
  destruct (axis ystep ylo yhi _) as [[[ylin ys] dy]|e]; [|discriminate]. cbn [bindr build2 fst snd] in E.
  destruct (amax _) as [t|e]; [|discriminate]. cbn [bindr] in E. destruct (amin _) as [b|e]; [|discriminate]. cbn [bindr] in E.
  injection E as <-. split; [reflexivity|]. split; [reflexivity|]. split; reflexivity.
Qed.
Print Assumptions C59_array_object_has_no_yhi.
Theorem C59_yhi_refuted : exists logpdf xlo xhi ylo yhi h, new_hpd2 logpdf xlo xhi ylo yhi "linear" "linear" = Ok h /\ d_yhi h <> Some yhi.
Proof.
  destruct square_case as [h [E _]]. exists [[0; ln (1/2)]; [ln (1/2); ln (1/4)]], 0, 1, 0, 1, h. split; [exact E|].
  destruct (C59_array_object_has_no_yhi _ _ _ _ _ _ _ _ E) as [_ [_ [_ ->]]]. discriminate.
Qed.
Print Assumptions C59_yhi_refuted.
(** Asked for a number of sigmas in two dimensions, critlevel finds the
    region with the one-dimensional probability, not the one the class lists
    for that number. *)
Theorem C59_sigmas_in_two_dimensions_refuted : exists h cdf ppf brentq s h' r, made2 h /\
  critlevel2 cdf ppf brentq None (Some s) (3/10000) h = (h', Ok r) /\ d_probs h' = [cdf (s ^ 2) 1] /\
  d_probs h' <> [class_prob2 cdf s].
Proof.
  destruct square_case as [h [E [M [ED [EM LF]]]]].
  set (cdf := fun _ nd : R => if Req_EM_T nd 1 then 2/3 else 2/5).
  assert (C1 : forall x, cdf x 1 = 2/3) by (intros x; unfold cdf; destruct (Req_EM_T 1 1); lra).
  assert (C2 : forall x, cdf x 2 = 2/5) by (intros x; unfold cdf; destruct (Req_EM_T 2 1); lra).
  pose proof (object2_new cdf (fun _ _ => 0) bisect h M) as O.
  assert (A : asked cdf None (Some 1) (cdf (1 ^ 2) 1)).
  { right. exists 1. split; [reflexivity|]. split; [lra|]. split; [left; reflexivity|reflexivity]. }
  destruct (C24_level_found_2d cdf (fun _ _ => 0) bisect h None (Some 1) (3/10000) (cdf (1 ^ 2) 1) (- (1/2) * 1 ^ 2) bisect_search bisect_converges O LF) as [h' [r D]].
  - lra.
  - exact A.
  - right. exists 1. split; [reflexivity|]. split; [lra|]. split; [left; reflexivity|reflexivity].
  - rewrite C1. lra.
  - rewrite ED. exists (1/4). split; [cbn; auto|]. unfold level2. rewrite EM. pose proof (exp_lo (0 + - (1/2) * 1 ^ 2)). lra.
  - rewrite ED. intros x Hx. unfold level2. rewrite EM.
    assert (B2 : -10 <= ln (1/4)).
    { apply Rnot_lt_le. intros C. apply exp_increasing in C. rewrite exp_ln in C by lra. pose proof (exp_hi (-10) ltac:(lra)). lra. }
    pose proof (ln_increasing (1/4) (1/2) ltac:(lra) ltac:(lra)) as L1. pose proof (ln_neg (1/2) ltac:(lra)) as L2.
    apply wide; [lra| |cbn in Hx; lra]. cbn in Hx. destruct Hx as [<-|[<-|[<-|[<-|[]]]]]; rewrite ?ln_1; lra.
  - exists h, cdf, (fun _ _ => 0), bisect, 1, h', r. split; [exact M|]. split; [exact D|].
    assert (T : 0 < 3/10000) by lra.
    destruct (C24_level_2d _ _ _ _ _ _ _ _ _ bisect_search O LF T D) as [q [AQ [_ [P _]]]].
    assert (EQ : q = 2/3). { destruct AQ as [[K _]|[s [K [_ [_ ->]]]]]; [discriminate|]. injection K as <-. apply C1. }
    assert (EP : d_probs h = []).
    { unfold new_hpd2 in E. destruct (axis "linear" 0 1 _) as [[[xlin xs] dx]|e]; [|discriminate]. cbn [bindr build2 fst snd] in E.
      destruct (amax _) as [t|e]; [|discriminate]. cbn [bindr] in E. destruct (amin _) as [b|e]; [|discriminate]. cbn [bindr] in E.
      injection E as <-. reflexivity. }
    rewrite P, EP, EQ. cbn [app]. rewrite C1. split; [reflexivity|]. unfold class_prob2, sig2prob. rewrite C2. intros K. injection K as K. lra.
Qed.
Print Assumptions C59_sigmas_in_two_dimensions_refuted.
Example C59_example : exists h, new_hpdgrid2 (fun x y => - x - y) 0 1 2 0 1 2 "linear" "linear" = Ok h.
Proof.
  unfold new_hpdgrid2, axis. cbn [step_kind String.eqb Ascii.eqb Bool.eqb orb bindr]. unfold lin_stepper. cbn [Nat.eqb bindr].
  cbn [build2 fst snd lin_loop map List.concat app amax amin bindr]. eexists. reflexivity.
Qed.
