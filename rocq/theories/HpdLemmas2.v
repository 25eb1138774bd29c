(** Proofs about the fractions reported by grid objects. *)

From Coq Require Import ZArith String List Bool Arith Lia Reals Lra Psatz.
From Coquelicot Require Import Coquelicot.
From Verif Require Import Exn PieModel Instances MinModel MinSpec MinLemmas2 HpdModel HpdSpec RefLemmas HpdLemmas.
Import ListNotations.
Open Scope R_scope.

(** ** Largest and smallest *)
Lemma fold_max : forall l a, let m := fold_left Rmax l a in (m = a \/ In m l) /\ a <= m /\ forall x, In x l -> x <= m.
Proof.
  intros l. induction l as [|b l IH]; intros a; cbn [fold_left].
  - split; [left; reflexivity|]. split; [apply Rle_refl|]. intros x [].
  - destruct (IH (Rmax a b)) as [H1 [H2 H3]]. cbv zeta in *. set (m := fold_left Rmax l (Rmax a b)) in *.
    pose proof (Rmax_l a b). pose proof (Rmax_r a b).
    split; [|split; [lra|intros x [->|Hx]; [lra|apply H3; exact Hx]]].
    destruct H1 as [H1|H1]; [|right; right; exact H1].
    destruct (Rmax_case_strong a b (fun v => v = a \/ v = b)) as [E|E]; [left; reflexivity|right; reflexivity| |].
    + left. lra.
    + right. left. lra.
Qed.
Lemma fold_min : forall l a, let m := fold_left Rmin l a in (m = a \/ In m l) /\ m <= a /\ forall x, In x l -> m <= x.
Proof.
  intros l. induction l as [|b l IH]; intros a; cbn [fold_left].
  - split; [left; reflexivity|]. split; [apply Rle_refl|]. intros x [].
  - destruct (IH (Rmin a b)) as [H1 [H2 H3]]. cbv zeta in *. set (m := fold_left Rmin l (Rmin a b)) in *.
    pose proof (Rmin_l a b). pose proof (Rmin_r a b).
    split; [|split; [lra|intros x [->|Hx]; [lra|apply H3; exact Hx]]].
    destruct H1 as [H1|H1]; [|right; right; exact H1].
    destruct (Rmin_case_strong a b (fun v => v = a \/ v = b)) as [E|E]; [left; reflexivity|right; reflexivity| |].
    + left. lra.
    + right. left. lra.
Qed.
Lemma amax_spec : forall l m, amax l = Ok m -> In m l /\ forall x, In x l -> x <= m.
Proof.
  intros [|a l] m E; [discriminate|]. injection E as <-. destruct (fold_max l a) as [H1 [H2 H3]].
  split; [destruct H1 as [H1|H1]; [left; symmetry; exact H1|right; exact H1]|].
  intros x [->|Hx]; [exact H2|apply H3; exact Hx].
Qed.
Lemma amin_spec : forall l m, amin l = Ok m -> In m l /\ forall x, In x l -> m <= x.
Proof.
  intros [|a l] m E; [discriminate|]. injection E as <-. destruct (fold_min l a) as [H1 [H2 H3]].
  split; [destruct H1 as [H1|H1]; [left; symmetry; exact H1|right; exact H1]|].
  intros x [->|Hx]; [exact H2|apply H3; exact Hx].
Qed.

(** ** Axes *)
Record axis_of (n : nat) (lin : bool) (xs : list R) (dx : R) : Prop := AxisOf {
  ax_len : length xs = n; ax_two : (2 <= n)%nat; ax_dx : 0 < dx;
  ax_sorted : sorted xs; ax_pos : lin = false -> List.Forall (fun x => 0 < x) xs }.

Lemma nth_error_nth' : forall (l : list R) k x, nth_error l k = Some x -> nth k l 0 = x.
Proof. intros. apply nth_error_nth. exact H. Qed.

Lemma axis_spec : forall step lo hi n lin xs dx, range_ok step lo hi -> axis step lo hi n = Ok (lin, xs, dx) ->
  n = 0%nat \/ (step_kind step = Ok lin /\ axis_of n lin xs dx).
Proof.
  intros step lo hi n lin xs dx [Hlt Hpos] E. unfold axis in E.
  destruct n as [|n']; [left; reflexivity|]. right. set (n := S n') in *. assert (1 <= n)%nat by (unfold n; lia). clearbody n.
  destruct (step_kind step) as [lin'|e] eqn:EK; [|discriminate]. cbn [bindr] in E.
  destruct lin'.
  - destruct (@lin_stepper numR lo hi n) as [xs'|e] eqn:ES; [|discriminate]. cbn [bindr] in E.
    injection E as <- <- <-. split; [reflexivity|].
    assert (N : (n <> 1)%nat). { intros ->. discriminate. }
    assert (H2 : (2 <= n)%nat) by lia.
    pose proof (lin_real lo hi n H2 xs' ES) as HN.
    assert (HL : @length R xs' = n). { unfold lin_stepper in ES. destruct (Nat.eqb n 1); [discriminate|]. injection ES as <-. apply (@lin_length numR). }
    assert (HI : 0 < INR (n - 1)) by (apply lt_0_INR; lia).
    assert (HI' : INR n - 1 = INR (n - 1)) by (rewrite minus_INR by lia; reflexivity).
    assert (HD : 0 < (hi - lo) / INR (n - 1)) by (apply Rdiv_lt_0_compat; lra).
    split; [exact HL|exact H2|rewrite HI'; exact HD| |discriminate].
    intros i Hi. rewrite HL in Hi.
    rewrite (nth_error_nth' _ _ _ (HN i ltac:(lia))), (nth_error_nth' _ _ _ (HN (S i) ltac:(lia))).
    rewrite S_INR. unfold Rdiv in *. nra.
  - destruct (@log_stepper numR lo hi n) as [xs'|e] eqn:ES; [|discriminate]. cbn [bindr] in E.
    destruct (Nat.eqb_spec n 1) as [|N]; [discriminate|].
    injection E as <- <- <-. split; [reflexivity|].
    specialize (Hpos eq_refl).
    assert (H2 : (2 <= n)%nat) by lia.
    pose proof (log_real lo hi n Hpos ltac:(lra) H2 xs' ES) as HN.
    assert (HL : @length R xs' = n). { unfold log_stepper in ES. destruct (eqb numR lo (ofZ numR 0)); [discriminate|]. injection ES as <-. apply (@log_length numR). }
    assert (HI : 0 < INR (n - 1)) by (apply lt_0_INR; lia).
    assert (HI' : INR n - 1 = INR (n - 1)) by (rewrite minus_INR by lia; reflexivity).
    assert (HQ : 1 < hi / lo). { apply Rmult_lt_reg_r with lo; [lra|]. unfold Rdiv. rewrite Rmult_assoc, Rinv_l by lra. lra. }
    assert (HLn : 0 < ln (hi / lo)). { rewrite <- ln_1. apply ln_increasing; lra. }
    split; [exact HL|exact H2|rewrite HI'; apply Rdiv_lt_0_compat; lra| |].
    + intros i Hi. rewrite HL in Hi.
      rewrite (nth_error_nth' _ _ _ (HN i ltac:(lia))), (nth_error_nth' _ _ _ (HN (S i) ltac:(lia))).
      apply Rmult_lt_compat_l; [exact Hpos|]. apply Rpower_lt; [exact HQ|].
      rewrite S_INR. apply Rmult_lt_compat_r; [apply Rinv_0_lt_compat; exact HI|lra].
    + intros _. apply Forall_forall. intros x Hx. apply In_nth_error in Hx. destruct Hx as [k Hk].
      assert (k < n)%nat. { rewrite <- HL. apply nth_error_Some. rewrite Hk. discriminate. }
      rewrite HN in Hk by assumption. injection Hk as <-. apply Rmult_lt_0_compat; [exact Hpos|apply exp_pos].
Qed.

(** ** One dimension *)
Lemma dens_length : forall lin logpdf xs, length logpdf = length xs -> length (dens lin logpdf xs) = length logpdf.
Proof.
  intros lin logpdf. induction logpdf as [|v l IH]; intros xs H; destruct xs as [|x xs]; try discriminate; [reflexivity|].
  cbn [dens length] in *. rewrite IH by lia. reflexivity.
Qed.
Lemma dens_pos : forall (lin : bool) logpdf xs, (lin = false -> List.Forall (fun x => 0 < x) xs) -> List.Forall (fun x => 0 < x) (dens lin logpdf xs).
Proof.
  intros lin logpdf. induction logpdf as [|v l IH]; intros xs H; [constructor|]. destruct xs as [|x xs]; [constructor|].
  cbn [dens]. constructor.
  - destruct lin; [apply exp_pos|]. specialize (H eq_refl). inversion H; subst. apply Rmult_lt_0_compat; [assumption|apply exp_pos].
  - apply IH. intros E. specialize (H E). inversion H; assumption.
Qed.
Lemma dens_scaled : forall (lin : bool) top logpdf xs, length logpdf = length xs ->
  (if lin then map (fun v => exp (v - top)) logpdf else mul2 (map (fun v => exp (v - top)) logpdf) xs)
  = map (fun d => exp (- top) * d) (dens lin logpdf xs).
Proof.
  intros lin top logpdf. induction logpdf as [|v l IH]; intros xs H; destruct xs as [|x xs]; try discriminate.
  - destruct lin; reflexivity.
  - cbn [length] in H. specialize (IH xs ltac:(lia)).
    unfold Rminus in *. destruct lin; cbn [map mul2 dens] in *; rewrite IH, exp_plus; f_equal; ring.
Qed.

Record grid1 (h : hpd1) : Prop := Grid1 {
  g1_axis : axis_of (length (h_logpdf h)) (h_lin h) (h_xvals h) (h_dx h);
  g1_max : In (h_max h) (h_logpdf h) /\ forall v, In v (h_logpdf h) -> v <= h_max h;
  g1_spdf : h_spdf h = map (fun d => exp (- h_max h) * d) (density1 h);
  g1_norm : exists bot, In bot (h_spdf h) /\ (forall x, In x (h_spdf h) -> bot <= x) /\
            h_snorm h = qgt1d (h_spdf h) bot * h_dx h }.

Lemma build1_grid : forall logpdf xlo xhi lin xs dx h, axis_of (length logpdf) lin xs dx ->
  build1 logpdf xlo xhi (lin, xs, dx) = Ok h -> grid1 h.
Proof.
  intros logpdf xlo xhi lin xs dx h HA E. unfold build1 in E.
  destruct (amax logpdf) as [top|] eqn:EM; [|discriminate]. cbn [bindr] in E.
  set (s := if lin then map (fun v => exp (v - top)) logpdf else mul2 (map (fun v => exp (v - top)) logpdf) xs) in *.
  destruct (amin s) as [bot|] eqn:EB; [|discriminate]. cbn [bindr] in E. injection E as <-.
  apply amax_spec in EM. apply amin_spec in EB. split; cbn.
  - exact HA.
  - exact EM.
  - unfold s, density1. cbn. apply dens_scaled. symmetry. apply (ax_len _ _ _ _ HA).
  - exists bot. split; [apply EB|]. split; [apply EB|reflexivity].
Qed.

Lemma made1_grid : forall h, made1 h -> grid1 h.
Proof.
  intros h H. destruct H as [logpdf xlo xhi step h HR E|log_pdf xlo xhi nx step h HR E].
  - unfold new_hpd1 in E. destruct (axis step xlo xhi (length logpdf)) as [[[lin xs] dx]|] eqn:EA; [|discriminate].
    cbn [bindr] in E. destruct (axis_spec _ _ _ _ _ _ _ HR EA) as [E0|[EK HA]].
    + destruct logpdf; [|discriminate]. discriminate.
    + exact (build1_grid _ _ _ _ _ _ _ HA E).
  - unfold new_hpdgrid1 in E. destruct (axis step xlo xhi nx) as [[[lin xs] dx]|] eqn:EA; [|discriminate].
    cbn [bindr fst snd] in E. destruct (axis_spec _ _ _ _ _ _ _ HR EA) as [E0|[EK HA]].
    + assert (xs = []). { subst nx. unfold axis in EA. destruct (step_kind step) as [[|]|]; [| |discriminate]; cbn [bindr] in EA.
        - cbn in EA. injection EA as _ <- _. reflexivity.
        - unfold log_stepper in EA. destruct (eqb numR xlo (ofZ numR 0)); [discriminate|]. cbn in EA. injection EA as _ <- _. reflexivity. }
      subst xs. discriminate.
    + refine (build1_grid _ _ _ _ _ _ _ _ E). rewrite map_length.
      pose proof (ax_len _ _ _ _ HA) as HL. rewrite HL. exact HA.
Qed.

Lemma density1_pos : forall h, grid1 h -> List.Forall (fun x => 0 < x) (density1 h).
Proof. intros h H. apply dens_pos. apply (ax_pos _ _ _ _ (g1_axis h H)). Qed.
Lemma density1_length : forall h, grid1 h -> length (density1 h) = length (h_logpdf h).
Proof. intros h H. apply dens_length. symmetry. apply (ax_len _ _ _ _ (g1_axis h H)). Qed.

Lemma pos_nonneg : forall l, List.Forall (fun x => 0 < x) l -> List.Forall (fun x => 0 <= x) l.
Proof. intros l H. eapply Forall_impl; [|exact H]. cbn. intros; lra. Qed.

Lemma snorm_is : forall h, grid1 h -> no_flat_floor (density1 h) (density1 h) ->
  h_snorm h = exp (- h_max h) * area (density1 h) * h_dx h /\ 0 < h_snorm h.
Proof.
  intros h H HF. destruct (g1_norm h H) as [bot [Hin [Hmin E]]].
  assert (EQ : h_snorm h = exp (- h_max h) * area (density1 h) * h_dx h).
  { rewrite E, qgt1d_region. f_equal. pose proof (g1_spdf h H) as ES. 
    rewrite (region_floor (h_spdf h) (h_spdf h) bot).
    - rewrite ES. apply area_scale.
    - apply Forall_forall. exact Hmin.
    - exact Hmin.
    - rewrite ES. apply floor_scale; [apply exp_pos|exact HF]. }
  split; [exact EQ|]. rewrite EQ. pose proof (ax_dx _ _ _ _ (g1_axis h H)).
  assert (0 < area (density1 h)).
  { apply area_pos; [apply density1_pos; exact H|]. rewrite density1_length by exact H. apply (ax_two _ _ _ _ (g1_axis h H)). }
  pose proof (exp_pos (- h_max h)). apply Rmult_lt_0_compat; [apply Rmult_lt_0_compat|]; assumption.
Qed.

Lemma frac1 : forall h lr, grid1 h -> no_flat_floor (density1 h) (density1 h) ->
  qgt1d (h_spdf h) (exp lr) * h_dx h / h_snorm h = region (density1 h) (level1 h lr) / area (density1 h).
Proof.
  intros h lr H HF. destruct (snorm_is h H HF) as [E HP]. rewrite E in *.
  rewrite qgt1d_region, (g1_spdf h H).
  replace (exp lr) with (exp (- h_max h) * level1 h lr).
  2: { unfold level1. rewrite <- exp_plus. f_equal. ring. }
  rewrite region_scale by apply exp_pos.
  pose proof (ax_dx _ _ _ _ (g1_axis h H)). pose proof (exp_pos (- h_max h)).
  assert (0 < area (density1 h)).
  { apply area_pos; [apply density1_pos; exact H|]. rewrite density1_length by exact H. apply (ax_two _ _ _ _ (g1_axis h H)). }
  field. repeat split; lra.
Qed.

Lemma fracgt1_is : forall h lr, grid1 h -> no_flat_floor (density1 h) (density1 h) ->
  fracgt1 h lr = Ok (region (density1 h) (level1 h lr) / area (density1 h)).
Proof.
  intros h lr H HF. unfold fracgt1. destruct (snorm_is h H HF) as [E HP].
  rewrite (proj2 (Reqb_false (h_snorm h) 0)) by lra. rewrite frac1 by assumption. reflexivity.
Qed.

Lemma frac_facts : forall l, List.Forall (fun x => 0 < x) l -> (2 <= length l)%nat ->
  (forall c, 0 <= region l c / area l <= 1) /\
  (forall c c', c <= c' -> region l c' / area l <= region l c / area l) /\
  (forall c, (forall x, In x l -> c < x) -> region l c / area l = 1) /\
  (forall c, (forall x, In x l -> x <= c) -> region l c / area l = 0).
Proof.
  intros l HP HL. pose proof (area_pos l HP HL) as HA. pose proof (pos_nonneg l HP) as HN.
  assert (HI : 0 < / area l) by (apply Rinv_0_lt_compat; exact HA).
  split; [|split; [|split]].
  - intros c. destruct (region_range l c HN). split.
    + apply Rmult_le_pos; lra.
    + apply Rmult_le_reg_r with (area l); [exact HA|]. unfold Rdiv. rewrite Rmult_assoc, Rinv_l by lra. lra.
  - intros c c' Hc. apply Rmult_le_compat_r; [lra|]. apply region_anti; assumption.
  - intros c H. rewrite region_all; [field; lra|]. apply Forall_forall. exact H.
  - intros c H. rewrite region_none; [field; lra|]. apply Forall_forall. exact H.
Qed.

(** ** Two dimensions *)
Lemma mul2_map : forall l xs, length l = length xs -> mul2 l xs = map (fun ax => fst ax * snd ax) (combine l xs).
Proof.
  intros l. induction l as [|a l IH]; intros xs H; destruct xs as [|x xs]; try discriminate; [reflexivity|].
  cbn [mul2 combine map fst snd]. rewrite IH; [reflexivity|]. cbn in H. lia.
Qed.

Lemma mul2_scale : forall k l xs, mul2 (map (fun a => a * k) l) xs = map (fun a => a * k) (mul2 l xs).
Proof.
  intros k l. induction l as [|a l IH]; intros xs; [reflexivity|]. destruct xs as [|x xs]; [reflexivity|].
  cbn [map mul2]. rewrite IH. f_equal. ring.
Qed.

Lemma dens2_scaled : forall (xlin ylin : bool) top ys logpdf xs, length logpdf = length xs ->
  (forall r, In r logpdf -> length r = length ys) ->
  (let s0 := map (map (fun v => exp (v - top))) logpdf in
   let s1 := if xlin then s0 else scale_rows s0 xs in
   if ylin then s1 else map (fun r => mul2 r ys) s1)
  = map (map (fun d => exp (- top) * d)) (dens2 xlin ylin logpdf xs ys).
Proof.
  intros xlin ylin top ys logpdf. cbv zeta. induction logpdf as [|r l IH]; intros xs H HR; destruct xs as [|x xs]; try discriminate.
  - destruct xlin, ylin; reflexivity.
  - cbn [length] in H. specialize (IH xs ltac:(lia) ltac:(intros r' Hr'; apply HR; right; exact Hr')).
    pose proof (dens_scaled ylin top r ys (HR r (or_introl eq_refl))) as D.
    destruct xlin, ylin; cbn [map scale_rows dens2] in *; rewrite IH; f_equal.
    + rewrite D, map_map. reflexivity.
    + rewrite D, map_map. reflexivity.
    + rewrite D, !map_map. apply map_ext. intros a. ring.
    + rewrite mul2_scale, D, !map_map. apply map_ext. intros a. ring.
Qed.

Lemma dens2_length : forall xlin ylin ys logpdf xs, length logpdf = length xs ->
  length (dens2 xlin ylin logpdf xs ys) = length logpdf.
Proof.
  intros xlin ylin ys logpdf. induction logpdf as [|r l IH]; intros xs H; destruct xs as [|x xs]; try discriminate; [reflexivity|].
  cbn [dens2 length] in *. rewrite IH by lia. reflexivity.
Qed.
Lemma dens2_rows : forall (xlin ylin : bool) ys logpdf xs, length logpdf = length xs ->
  (forall r, In r logpdf -> length r = length ys) ->
  (xlin = false -> List.Forall (fun x => 0 < x) xs) -> (ylin = false -> List.Forall (fun x => 0 < x) ys) ->
  forall r, In r (dens2 xlin ylin logpdf xs ys) -> length r = length ys /\ List.Forall (fun x => 0 < x) r.
Proof.
  intros xlin ylin ys logpdf. induction logpdf as [|r0 l IH]; intros xs H HR HX HY r Hr; destruct xs as [|x xs]; try discriminate.
  - destruct Hr.
  - cbn [dens2] in Hr. destruct Hr as [<-|Hr].
    + rewrite map_length, dens_length by (apply HR; left; reflexivity). split; [apply HR; left; reflexivity|].
      apply Forall_forall. intros y Hy. apply in_map_iff in Hy. destruct Hy as [d [<- Hd]].
      pose proof (dens_pos ylin r0 ys HY) as P. rewrite Forall_forall in P. specialize (P d Hd).
      destruct xlin; [exact P|]. specialize (HX eq_refl). inversion HX; subst. apply Rmult_lt_0_compat; assumption.
    + apply (IH xs); try assumption; [cbn in H; lia|intros r' Hr'; apply HR; right; exact Hr'|].
      intros E. specialize (HX E). inversion HX; assumption.
Qed.

Record grid2 (h : hpd2) : Prop := Grid2 {
  g2_x : axis_of (length (d_logpdf h)) (d_xlin h) (d_xvals h) (d_dx h);
  g2_y : axis_of (length (d_yvals h)) (d_ylin h) (d_yvals h) (d_dy h);
  g2_rows : forall r, In r (d_logpdf h) -> length r = length (d_yvals h);
  g2_max : In (d_max h) (List.concat (d_logpdf h)) /\ forall v, In v (List.concat (d_logpdf h)) -> v <= d_max h;
  g2_spdf : d_spdf h = map (map (fun d => exp (- d_max h) * d)) (density2 h);
  g2_norm : exists bot, (forall x, In x (List.concat (d_spdf h)) -> bot <= x) /\ In bot (List.concat (d_spdf h)) /\
            d_norm h = qgt2d (d_spdf h) bot * d_dx h * d_dy h }.

Lemma build2_grid : forall logpdf xlo xhi xlin xs dx ylo yhi ylin ys dy h,
  axis_of (length logpdf) xlin xs dx -> axis_of (length ys) ylin ys dy ->
  (forall r, In r logpdf -> length r = length ys) ->
  build2 logpdf xlo xhi (xlin, xs, dx) ylo yhi (ylin, ys, dy) = Ok h -> grid2 h.
Proof.
  intros logpdf xlo xhi xlin xs dx ylo yhi ylin ys dy h HX HY HR E. unfold build2 in E.
  destruct (amax (List.concat logpdf)) as [top|] eqn:EM; [|discriminate]. cbn [bindr] in E. cbv zeta in E.
  pose proof (dens2_scaled xlin ylin top ys logpdf xs ltac:(symmetry; apply (ax_len _ _ _ _ HX)) HR) as D. cbv zeta in D.
  rewrite D in E.
  destruct (amin _) as [bot|] eqn:EB; [|discriminate]. cbn [bindr] in E. injection E as <-.
  apply amax_spec in EM. apply amin_spec in EB. split; cbn.
  - exact HX.
  - exact HY.
  - exact HR.
  - exact EM.
  - reflexivity.
  - exists bot. split; [apply EB|]. split; [apply EB|reflexivity].
Qed.

Lemma axis_zero : forall step lo hi lin xs dx, axis step lo hi 0 = Ok (lin, xs, dx) -> xs = [].
Proof.
  intros step lo hi lin xs dx EA. unfold axis in EA. destruct (step_kind step) as [[|]|]; [| |discriminate]; cbn [bindr] in EA.
  - cbn in EA. injection EA as _ <- _. reflexivity.
  - unfold log_stepper in EA. destruct (eqb numR lo (ofZ numR 0)); [discriminate|]. cbn in EA. injection EA as _ <- _. reflexivity.
Qed.

Lemma made2_grid : forall h, made2 h -> grid2 h.
Proof.
  intros h H. destruct H as [logpdf xlo xhi ylo yhi xstep ystep h HX HY HR E|log_pdf xlo xhi nx ylo yhi ny xstep ystep h HX HY E].
  - unfold new_hpd2 in E.
    destruct (axis xstep xlo xhi (length logpdf)) as [[[xlin xs] dx]|] eqn:EX; [|discriminate]. cbn [bindr] in E.
    destruct (axis ystep ylo yhi (length (hd [] logpdf))) as [[[ylin ys] dy]|] eqn:EY; [|discriminate]. cbn [bindr] in E.
    destruct (axis_spec _ _ _ _ _ _ _ HX EX) as [E0|[_ AX]].
    { destruct logpdf; [|discriminate]. discriminate. }
    destruct (axis_spec _ _ _ _ _ _ _ HY EY) as [E0|[_ AY]].
    { exfalso. unfold build2 in E. replace (List.concat logpdf) with (@nil R) in E; [discriminate|]. symmetry.
      clear - HR E0. assert (A : forall r, In r logpdf -> r = []).
      { intros r Hr. specialize (HR r Hr). rewrite E0 in HR. destruct r; [reflexivity|discriminate]. }
      clear HR E0. induction logpdf as [|r l IH]; [reflexivity|]. cbn [List.concat].
      rewrite (A r (or_introl eq_refl)), IH; [reflexivity|]. intros r' Hr'. apply A. right. exact Hr'. }
    refine (build2_grid _ _ _ _ _ _ _ _ _ _ _ _ AX _ _ E).
    + pose proof (ax_len _ _ _ _ AY) as L. rewrite L. exact AY.
    + intros r Hr. rewrite (HR r Hr). symmetry. apply (ax_len _ _ _ _ AY).
  - unfold new_hpdgrid2 in E.
    destruct (axis xstep xlo xhi nx) as [[[xlin xs] dx]|] eqn:EX; [|discriminate]. cbn [bindr] in E.
    destruct (axis ystep ylo yhi ny) as [[[ylin ys] dy]|] eqn:EY; [|discriminate]. cbn [bindr fst snd] in E.
    destruct (axis_spec _ _ _ _ _ _ _ HX EX) as [E0|[_ AX]].
    { subst nx. apply axis_zero in EX. subst xs. discriminate. }
    destruct (axis_spec _ _ _ _ _ _ _ HY EY) as [E0|[_ AY]].
    { subst ny. apply axis_zero in EY. subst ys. exfalso. unfold build2 in E.
      replace (List.concat (map (fun x => map (log_pdf x) []) xs)) with (@nil R) in E; [discriminate|].
      clear. induction xs; [reflexivity|exact IHxs]. }
    refine (build2_grid _ _ _ _ _ _ _ _ _ _ _ _ _ _ _ E).
    + rewrite map_length. pose proof (ax_len _ _ _ _ AX) as L. rewrite L. exact AX.
    + pose proof (ax_len _ _ _ _ AY) as L. rewrite L. exact AY.
    + intros r Hr. apply in_map_iff in Hr. destruct Hr as [x [<- _]]. apply map_length.
Qed.

(** What is known of the density of a grid. *)
Record table (rows : list (list R)) : Prop := Table {
  t_two : (2 <= length rows)%nat;
  t_rows : forall r, In r rows -> (2 <= length r)%nat /\ List.Forall (fun x => 0 < x) r }.
Lemma density2_table : forall h, grid2 h -> table (density2 h).
Proof.
  intros h H. pose proof (g2_x h H) as AX. pose proof (g2_y h H) as AY. split.
  - unfold density2. rewrite dens2_length by (symmetry; apply (ax_len _ _ _ _ AX)). apply (ax_two _ _ _ _ AX).
  - intros r Hr. destruct (dens2_rows _ _ _ _ _ ltac:(symmetry; apply (ax_len _ _ _ _ AX)) (g2_rows h H)
      (ax_pos _ _ _ _ AX) (ax_pos _ _ _ _ AY) r Hr) as [L P]. rewrite L. split; [apply (ax_two _ _ _ _ AY)|exact P].
Qed.

Lemma region2_scale : forall k rows c, 0 < k -> region2 (map (map (fun a => k * a)) rows) (k * c) = k * region2 rows c.
Proof.
  intros k rows c Hk. unfold region2. rewrite <- area_scale, !map_map. f_equal. apply map_ext. intros r. apply region_scale. exact Hk.
Qed.
Lemma area2_scale : forall k rows, area2 (map (map (fun a => k * a)) rows) = k * area2 rows.
Proof.
  intros k rows. unfold area2. rewrite <- area_scale, !map_map. f_equal. apply map_ext. intros r. apply area_scale.
Qed.
Lemma area2_pos : forall rows, table rows -> 0 < area2 rows.
Proof.
  intros rows H. apply area_pos; [|rewrite map_length; apply (t_two _ H)].
  apply Forall_forall. intros a Ha. apply in_map_iff in Ha. destruct Ha as [r [<- Hr]].
  destruct (t_rows _ H r Hr). apply area_pos; assumption.
Qed.
Lemma Forall2_maps : forall (f g : list R -> R) rows, (forall r, In r rows -> f r <= g r) -> Forall2 Rle (map f rows) (map g rows).
Proof.
  intros f g rows H. induction rows as [|r rows IH]; [constructor|]. cbn [map]. constructor; [apply H; left; reflexivity|].
  apply IH. intros r' Hr'. apply H. right. exact Hr'.
Qed.
Lemma area_zero : forall (rows : list (list R)), area (map (fun _ => 0) rows) = 0.
Proof.
  intros rows. induction rows as [|r rows IH]; [reflexivity|]. destruct rows as [|r' rows']; [reflexivity|].
  cbn [map] in *. rewrite area_cons, IH. field.
Qed.

Lemma frac2_facts : forall rows, table rows ->
  (forall c, 0 <= region2 rows c / area2 rows <= 1) /\
  (forall c c', c <= c' -> region2 rows c' / area2 rows <= region2 rows c / area2 rows) /\
  (forall c, (forall x, In x (List.concat rows) -> c < x) -> region2 rows c / area2 rows = 1) /\
  (forall c, (forall x, In x (List.concat rows) -> x <= c) -> region2 rows c / area2 rows = 0).
Proof.
  intros rows HT. pose proof (area2_pos rows HT) as HA.
  assert (HI : 0 < / area2 rows) by (apply Rinv_0_lt_compat; exact HA).
  assert (HN : forall r, In r rows -> List.Forall (fun x => 0 <= x) r).
  { intros r Hr. apply pos_nonneg. apply (t_rows _ HT r Hr). }
  split; [|split; [|split]].
  - intros c. split.
    + apply Rmult_le_pos; [|lra]. unfold region2. rewrite <- (area_zero rows). apply area_mono. apply Forall2_maps.
      intros r Hr. apply region_range. apply HN; exact Hr.
    + apply Rmult_le_reg_r with (area2 rows); [exact HA|]. unfold Rdiv. rewrite Rmult_assoc, Rinv_l by lra.
      rewrite Rmult_1_r, Rmult_1_l. apply area_mono. apply Forall2_maps. intros r Hr. apply region_range. apply HN; exact Hr.
  - intros c c' Hc. apply Rmult_le_compat_r; [lra|]. apply area_mono. apply Forall2_maps.
    intros r Hr. apply region_anti; [apply HN; exact Hr|exact Hc].
  - intros c H. replace (region2 rows c) with (area2 rows); [field; lra|]. unfold region2, area2. f_equal. apply map_ext_in.
    intros r Hr. symmetry. apply region_all. apply Forall_forall. intros x Hx. apply H. apply in_concat. exists r. split; assumption.
  - intros c H. replace (region2 rows c) with 0; [field; lra|]. unfold region2. rewrite <- (area_zero rows). f_equal. apply map_ext_in.
    intros r Hr. symmetry. apply region_none. apply Forall_forall. intros x Hx. apply H. apply in_concat. exists r. split; assumption.
Qed.


Lemma norm2_is : forall h, grid2 h -> level_floor2 (density2 h) ->
  d_norm h = exp (- d_max h) * area2 (density2 h) * d_dx h * d_dy h /\ 0 < d_norm h.
Proof.
  intros h H HF. destruct (g2_norm h H) as [bot [Hmin [_ E]]].
  pose proof (density2_table h H) as HT.
  assert (EQ : d_norm h = exp (- d_max h) * area2 (density2 h) * d_dx h * d_dy h).
  { rewrite E. pose proof (g2_spdf h H) as ES.
    rewrite qgt2d_region by (rewrite ES, map_length; apply (t_two _ HT)).
    replace (region2 (d_spdf h) bot) with (area2 (d_spdf h)).
    - rewrite ES, area2_scale. ring.
    - unfold area2, region2. f_equal. apply map_ext_in. intros r Hr. symmetry.
      apply (region_floor (List.concat (d_spdf h))).
      + apply Forall_forall. intros x Hx. apply Hmin. apply in_concat. exists r. split; assumption.
      + exact Hmin.
      + rewrite ES in Hr |- *. apply in_map_iff in Hr. destruct Hr as [r0 [<- Hr0]].
        rewrite <- concat_map. apply floor_scale; [apply exp_pos|]. apply HF. exact Hr0. }
  split; [exact EQ|]. rewrite EQ.
  pose proof (ax_dx _ _ _ _ (g2_x h H)). pose proof (ax_dx _ _ _ _ (g2_y h H)). pose proof (area2_pos _ HT).
  pose proof (exp_pos (- d_max h)). repeat (apply Rmult_lt_0_compat; [|assumption]). assumption.
Qed.

Lemma frac2 : forall h lr, grid2 h -> level_floor2 (density2 h) ->
  qgt2d (d_spdf h) (exp lr) * d_dx h * d_dy h / d_norm h = region2 (density2 h) (level2 h lr) / area2 (density2 h).
Proof.
  intros h lr H HF. destruct (norm2_is h H HF) as [E HP]. rewrite E in *.
  pose proof (density2_table h H) as HT.
  rewrite qgt2d_region by (rewrite (g2_spdf h H), map_length; apply (t_two _ HT)). rewrite (g2_spdf h H).
  replace (exp lr) with (exp (- d_max h) * level2 h lr).
  2: { unfold level2. rewrite <- exp_plus. f_equal. ring. }
  rewrite region2_scale by apply exp_pos. 
  pose proof (ax_dx _ _ _ _ (g2_x h H)). pose proof (ax_dx _ _ _ _ (g2_y h H)). pose proof (area2_pos _ HT).
  pose proof (exp_pos (- d_max h)). field. repeat split; lra.
Qed.

Lemma fracgt2_is : forall h lr, grid2 h -> level_floor2 (density2 h) ->
  fracgt2 h lr = Ok (region2 (density2 h) (level2 h lr) / area2 (density2 h)).
Proof.
  intros h lr H HF. unfold fracgt2. destruct (norm2_is h H HF) as [E HP].
  rewrite (proj2 (Reqb_false (d_norm h) 0)) by lra. rewrite frac2 by assumption. reflexivity.
Qed.
