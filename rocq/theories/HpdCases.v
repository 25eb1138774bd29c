(** Worked cases for the statements about highest density regions. *)

From Coq Require Import ZArith String List Bool Arith Lia Reals Lra Psatz.
From Verif Require Import Exn PieModel Instances MinModel MinSpec MinLemmas MinLemmas2 HpdModel HpdSpec RefLemmas RefCases
  HpdLemmas HpdLemmas2 HpdLemmas3 HpdLemmas4 HpdLemmas5.
Import ListNotations.
Open Scope R_scope.

Lemma made_lin : forall logpdf xlo xhi, xlo < xhi -> (2 <= length logpdf)%nat ->
  exists h, new_hpd1 logpdf xlo xhi "linear" = Ok h /\ made1 h /\ h_logpdf h = logpdf /\ h_lin h = true
    /\ h_probs h = [] /\ h_deltas h = [] /\ h_levels h = [] /\ h_bounds h = [].
Proof.
  intros logpdf xlo xhi Hx HL.
  assert (E : exists h, new_hpd1 logpdf xlo xhi "linear" = Ok h /\ h_logpdf h = logpdf /\ h_lin h = true
    /\ h_probs h = [] /\ h_deltas h = [] /\ h_levels h = [] /\ h_bounds h = []).
  { unfold new_hpd1, axis. cbn [step_kind String.eqb Ascii.eqb Bool.eqb orb bindr]. unfold lin_stepper.
    destruct (Nat.eqb_spec (length logpdf) 1) as [E|_]; [lia|]. cbn [bindr]. unfold build1.
    destruct logpdf as [|a l]; [cbn in HL; lia|]. cbn [amax bindr map amin].
    eexists. split; [reflexivity|]. split; [reflexivity|]. split; [reflexivity|]. split; [reflexivity|]. split; [reflexivity|]. split; reflexivity. }
  destruct E as [h [E R]]. exists h. split; [exact E|]. split; [|exact R].
  apply (made1_array logpdf xlo xhi "linear"); [|exact E]. split; [exact Hx|]. cbn. discriminate.
Qed.
Lemma made_log : forall logpdf xlo xhi, 0 < xlo < xhi -> (2 <= length logpdf)%nat ->
  exists h, new_hpd1 logpdf xlo xhi "log" = Ok h /\ made1 h /\ h_logpdf h = logpdf /\ h_lin h = false
    /\ @log_stepper numR xlo xhi (length logpdf) = Ok (h_xvals h).
Proof.
  intros logpdf xlo xhi Hx HL.
  assert (E : exists h, new_hpd1 logpdf xlo xhi "log" = Ok h /\ h_logpdf h = logpdf /\ h_lin h = false
     /\ @log_stepper numR xlo xhi (length logpdf) = Ok (h_xvals h)).
  { unfold new_hpd1, axis. cbn [step_kind String.eqb Ascii.eqb Bool.eqb orb bindr]. unfold log_stepper.
    change (eqb numR xlo (ofZ numR 0)) with (Reqb xlo 0). rewrite (proj2 (Reqb_false xlo 0)) by lra.
    cbn [bindr].
    destruct (Nat.eqb_spec (length logpdf) 1) as [E|_]; [lia|]. cbn [bindr]. unfold build1.
    destruct logpdf as [|a l]; [cbn in HL; lia|]. destruct l as [|b l]; [cbn in HL; lia|].
    cbn [amax bindr map amin length log_loop mul2 Nat.eqb].
    eexists. split; [reflexivity|]. split; [reflexivity|]. split; reflexivity. }
  destruct E as [h [E R]]. exists h. split; [exact E|]. split; [|exact R].
  apply (made1_array logpdf xlo xhi "log"); [|exact E]. split; [lra|]. intros _. lra.
Qed.

(** ** Fractions that are not *)
Lemma snorm_region : forall h, grid1 h -> exists bot, In bot (density1 h) /\ (forall x, In x (density1 h) -> bot <= x) /\
  h_snorm h = exp (- h_max h) * region (density1 h) bot * h_dx h.
Proof.
  intros h H. destruct (g1_norm h H) as [bot [Hin [Hmin E]]]. rewrite (g1_spdf h H) in Hin.
  apply in_map_iff in Hin. destruct Hin as [b [<- Hb]]. exists b. split; [exact Hb|].
  pose proof (exp_pos (- h_max h)) as P. split.
  - intros x Hx. assert (K : exp (- h_max h) * b <= exp (- h_max h) * x).
    { apply Hmin. rewrite (g1_spdf h H). apply in_map_iff. exists x. split; [reflexivity|exact Hx]. }
    apply Rmult_le_reg_l in K; assumption.
  - rewrite E, qgt1d_region, (g1_spdf h H), region_scale by exact P. reflexivity.
Qed.

Lemma fracgt1_floor : forall h lr, grid1 h -> exists bot, In bot (density1 h) /\ (forall x, In x (density1 h) -> bot <= x) /\
  fracgt1 h lr = if Req_EM_T (region (density1 h) bot) 0 then Err ZeroDivisionError
                 else Ok (region (density1 h) (level1 h lr) / region (density1 h) bot).
Proof.
  intros h lr H. destruct (snorm_region h H) as [bot [Hb [Hm E]]]. exists bot. split; [exact Hb|]. split; [exact Hm|].
  unfold fracgt1. rewrite E.
  pose proof (ax_dx _ _ _ _ (g1_axis h H)) as D. pose proof (exp_pos (- h_max h)) as P.
  destruct (Req_EM_T (region (density1 h) bot) 0) as [Z|N].
  - rewrite Z. rewrite (proj2 (Reqb_spec _ 0)); [reflexivity|ring].
  - rewrite (proj2 (Reqb_false _ 0)).
    + f_equal. rewrite qgt1d_region, (g1_spdf h H).
      replace (exp lr) with (exp (- h_max h) * level1 h lr) by (unfold level1; rewrite <- exp_plus; f_equal; ring).
      rewrite region_scale by exact P. field. repeat split; lra.
    + intros K. apply Rmult_integral in K. destruct K as [K|K]; [|lra]. apply Rmult_integral in K. destruct K; lra.
Qed.

Lemma uniform_raises : forall h c lr, grid1 h -> (forall x, In x (density1 h) -> x = c) -> fracgt1 h lr = Err ZeroDivisionError.
Proof.
  intros h c lr H HC. destruct (fracgt1_floor h lr H) as [bot [Hb [_ ->]]].
  destruct (Req_EM_T (region (density1 h) bot) 0) as [Z|N]; [reflexivity|]. exfalso. apply N.
  apply region_none. apply Forall_forall. intros x Hx. rewrite (HC x Hx), (HC bot Hb). lra.
Qed.

Lemma max_zero : forall h, grid1 h -> In 0 (h_logpdf h) -> (forall v, In v (h_logpdf h) -> v <= 0) -> h_max h = 0.
Proof.
  intros h H H0 HM. destruct (g1_max h H) as [M1 M2]. specialize (M2 0 H0). specialize (HM _ M1). lra.
Qed.
Lemma dens_lin_is : forall logpdf xs, length logpdf = length xs -> dens true logpdf xs = map exp logpdf.
Proof.
  intros logpdf. induction logpdf as [|v l IH]; intros xs H; [reflexivity|]. destruct xs as [|x xs]; [discriminate|].
  cbn [dens map]. rewrite IH; [reflexivity|]. cbn in H. lia.
Qed.
Lemma density1_lin : forall h, grid1 h -> h_lin h = true -> density1 h = map exp (h_logpdf h).
Proof. intros h H HL. unfold density1. rewrite HL. apply dens_lin_is. symmetry. apply (ax_len _ _ _ _ (g1_axis h H)). Qed.

Lemma ln_neg : forall x, 0 < x < 1 -> ln x < 0.
Proof. intros x H. rewrite <- ln_1. apply ln_increasing; lra. Qed.

Lemma flat_case : exists h, new_hpd1 [ln (1/2); ln (1/2); 0] 0 2 "linear" = Ok h /\ made1 h /\ fracgt1 h (ln (1/10)) = Ok (5/3).
Proof.
  destruct (made_lin [ln (1/2); ln (1/2); 0] 0 2 ltac:(lra) ltac:(cbn; lia)) as [h [E [M [EL [ELin _]]]]].
  exists h. split; [exact E|]. split; [exact M|]. pose proof (made1_grid h M) as G.
  assert (HM : h_max h = 0).
  { pose proof (ln_neg (1/2) ltac:(lra)). apply max_zero; [exact G|rewrite EL; right; right; left; reflexivity|]. rewrite EL.
    intros v [<-|[<-|[<-|[]]]]; lra. }
  destruct (fracgt1_floor h (ln (1/10)) G) as [bot [Hb [Hm ->]]].
  rewrite (density1_lin h G ELin), EL in *. cbn [map] in *. rewrite exp_0, (exp_ln (1/2)) in * by lra.
  assert (bot = 1/2). { pose proof (Hm (1/2) (or_introl eq_refl)). destruct Hb as [<-|[<-|[<-|[]]]]; lra. } subst bot.
  unfold level1. rewrite HM, Rplus_0_l, exp_ln by lra.
  cbn [region]. rewrite (above_none (1/2) (1/2) (1/2)), (above_rise (1/2) 1 (1/2)), !above_both by lra.
  destruct (Req_EM_T _ 0) as [K|K]; [lra|]. f_equal. field.
Qed.

Lemma log_case : exists h, new_hpd1 [0; 0] 1 4 "log" = Ok h /\ made1 h /\ no_flat_floor (density1 h) (density1 h) /\ fracgt1 h 0 = Ok 1.
Proof.
  destruct (made_log [0; 0] 1 4 ltac:(lra) ltac:(cbn; lia)) as [h [E [M [EL [ELin EX]]]]].
  exists h. split; [exact E|]. split; [exact M|]. pose proof (made1_grid h M) as G.
  assert (HM : h_max h = 0).
  { apply max_zero; [exact G|rewrite EL; left; reflexivity|]. rewrite EL. intros v [<-|[<-|[]]]; lra. }
  assert (EXV : h_xvals h = [1; 4]).
  { unfold log_stepper in EX. change (eqb numR 1 (ofZ numR 0)) with (Reqb 1 0) in EX. rewrite (proj2 (Reqb_false 1 0)) in EX by lra.
    cbn [length log_loop Nat.eqb Nat.sub] in EX. injection EX as EX. symmetry. exact EX. }
  assert (ED : density1 h = [1; 4]).
  { unfold density1. rewrite ELin, EL, EXV. cbn [dens]. rewrite exp_0. f_equal; [ring|f_equal; ring]. }
  assert (NF : no_flat_floor (density1 h) (density1 h)).
  { rewrite ED. intros i Hi. cbn [length] in Hi. assert (i = 0%nat) by lia. subst i. cbn [nth]. lra. }
  split; [exact NF|]. rewrite fracgt1_is by assumption. rewrite ED. unfold level1. rewrite HM, Rplus_0_r, exp_0.
  cbn [region]. rewrite above_rise by lra. rewrite area_cons. cbn [area]. f_equal. field.
Qed.

(** ** Numbers *)
Lemma exp_lo : forall x, 1 + x <= exp x.
Proof. intros x. destruct (Req_dec x 0) as [->|N]; [rewrite exp_0; lra|]. left. apply exp_ineq1. exact N. Qed.
Lemma exp_hi : forall x, x < 1 -> exp x <= / (1 - x).
Proof.
  intros x Hx. pose proof (exp_lo (- x)) as K. rewrite exp_Ropp in K.
  pose proof (exp_pos x) as P. apply Rmult_le_reg_r with (1 - x); [lra|]. rewrite Rinv_l by lra.
  apply Rle_trans with (exp x * / exp x); [apply Rmult_le_compat_l; lra|]. rewrite Rinv_r by lra. lra.
Qed.
(** b is more than a by a factor of more than 1/(1-d). *)
Lemma ln_gap : forall a b d, 0 < a -> 0 < b -> 0 < d < 1 -> a <= b * (1 - d) -> ln a + d <= ln b.
Proof.
  intros a b d Ha Hb Hd H. apply Rnot_lt_le. intros C.
  assert (K : exp (ln b) < exp (ln a + d)) by (apply exp_increasing; exact C).
  rewrite exp_plus, !exp_ln in K by assumption. pose proof (exp_hi d ltac:(lra)) as E.
  assert (a * exp d <= a * / (1 - d)) by (apply Rmult_le_compat_l; lra).
  assert (a * / (1 - d) <= b * (1 - d) * / (1 - d)) by (apply Rmult_le_compat_r; [left; apply Rinv_0_lt_compat; lra|exact H]).
  replace (b * (1 - d) * / (1 - d)) with b in * by (field; lra). lra.
Qed.
Lemma rtol_small : 0 < rtol <= 1/1000.
Proof. unfold rtol. split; [apply Rdiv_lt_0_compat; [lra|apply pow_lt; lra]|]. cbn [pow]. lra. Qed.

(** ** A grid too flat for the first guess *)
Lemma almost_flat : exists h, new_hpd1 [ln (9/10); 0; ln (9/10)] 0 2 "linear" = Ok h /\ made1 h /\
  no_flat_floor (density1 h) (density1 h) /\ fracgt1 h (ln (95/100)) = Ok (39/76) /\
  forall cdf ppf brentq tol, - (1/2) * sqrt (ppf (39/76) 1) ^ 2 <= ln (9/10) ->
    snd (critlevel1 cdf ppf brentq (Some (39/76)) None tol h) = Err RuntimeError.
Proof.
  destruct (made_lin [ln (9/10); 0; ln (9/10)] 0 2 ltac:(lra) ltac:(cbn; lia)) as [h [E [M [EL [ELin _]]]]].
  exists h. split; [exact E|]. split; [exact M|]. pose proof (made1_grid h M) as G.
  pose proof (ln_neg (9/10) ltac:(lra)) as LN.
  assert (HM : h_max h = 0).
  { apply max_zero; [exact G|rewrite EL; right; left; reflexivity|]. rewrite EL. intros v [<-|[<-|[<-|[]]]]; lra. }
  assert (ED : density1 h = [9/10; 1; 9/10]).
  { rewrite (density1_lin h G ELin), EL. cbn [map]. rewrite exp_0, exp_ln by lra. reflexivity. }
  assert (NF : no_flat_floor (density1 h) (density1 h)).
  { rewrite ED. intros i Hi. cbn [length] in Hi. destruct i as [|[|i]]; cbn [nth]; [lra|lra|lia]. }
  split; [exact NF|]. split.
  - rewrite fracgt1_is by assumption. rewrite ED. unfold level1. rewrite HM, Rplus_0_l, exp_ln by lra.
    cbn [region]. rewrite above_rise, above_fall by lra. rewrite !area_cons. cbn [area]. f_equal. field.
  - intros cdf ppf brentq tol HS.
    apply (level1_fails cdf ppf brentq h (Some (39/76)) None tol (39/76) (- (1/2) * sqrt (ppf (39/76) 1) ^ 2)).
    + apply object1_new. exact M.
    + exact NF.
    + left. split; [reflexivity|left; reflexivity].
    + left. exists (39/76). split; [reflexivity|]. split; [left; reflexivity|reflexivity].
    + lra.
    + rewrite ED. intros x Hx. apply Rle_trans with (level1 h (ln (9/10))); [apply level1_le; exact HS|].
      unfold level1. rewrite HM, Rplus_0_l, exp_ln by lra. destruct Hx as [<-|[<-|[<-|[]]]]; lra.
Qed.

(** ** Bounds on a logarithmic grid *)
Lemma wide : forall lr, -10 <= lr <= 0 -> forall m x, -100 <= ln x - m <= 100 -> 0 < x ->
  exp (m + (lr - 10 ^ 15)) <= x <= exp (m + (lr + 10 ^ 15)).
Proof.
  intros lr Hlr m x Hx Hp. rewrite <- (exp_ln x) by exact Hp.
  assert (1000 <= 10 ^ 15). { cbn [pow]. lra. }
  set (u := 10 ^ 15) in *. clearbody u.
  split; left; apply exp_increasing; lra.
Qed.

Lemma log_bounds : exists h, new_hpd1 [0; ln (1/4); ln (1/16)] 1 4 "log" = Ok h /\ made1 h /\
  h_xvals h = [1; 2; 4] /\ density1 h = [1; 1/2; 1/4] /\
  forall cdf ppf brentq tol, root_search brentq -> converges brentq -> 0 < tol <= 1/1000 ->
    ln (1/4) < - (1/2) * sqrt (ppf (31/36) 1) ^ 2 ->
    exists h' r v, critlevel1 cdf ppf brentq (Some (31/36)) None tol h = (h', Ok (r, [v])) /\ 1 < v < 2 /\
      1/4 < level1 h r < 1/2.
Proof.
  destruct (made_log [0; ln (1/4); ln (1/16)] 1 4 ltac:(lra) ltac:(cbn; lia)) as [h [E [M [EL [ELin EX]]]]].
  exists h. split; [exact E|]. split; [exact M|]. pose proof (made1_grid h M) as G.
  pose proof (ln_neg (1/4) ltac:(lra)) as L4. pose proof (ln_neg (1/16) ltac:(lra)) as L16.
  assert (HM : h_max h = 0).
  { apply max_zero; [exact G|rewrite EL; left; reflexivity|]. rewrite EL. intros v [<-|[<-|[<-|[]]]]; lra. }
  assert (E2 : exp (ln 4 / 2) = 2).
  { replace 4 with (2 * 2) by ring. rewrite ln_mult by lra. replace ((ln 2 + ln 2) / 2) with (ln 2) by field. apply exp_ln. lra. }
  assert (EXV : h_xvals h = [1; 2; 4]).
  { pose proof (log_real 1 4 3 ltac:(lra) ltac:(lra) ltac:(lia) _ EX 1%nat ltac:(lia)) as K.
    unfold log_stepper in EX. change (eqb numR 1 (ofZ numR 0)) with (Reqb 1 0) in EX. rewrite (proj2 (Reqb_false 1 0)) in EX by lra.
    cbn [length log_loop Nat.eqb Nat.sub] in EX. injection EX as EX. rewrite <- EX in K |- *. cbn [nth_error] in K. injection K as K.
    f_equal. f_equal. cbn in K |- *. rewrite K. unfold Rpower. replace (1 / (1 + 1) * ln (4 / 1)) with (ln 4 / 2).
    - rewrite E2. ring.
    - replace (4 / 1) with 4 by field. field. }
  assert (ED : density1 h = [1; 1/2; 1/4]).
  { unfold density1. rewrite ELin, EL, EXV. cbn [dens]. rewrite exp_0, !exp_ln by lra. f_equal; [ring|]. f_equal; [field|]. f_equal. field. }
  split; [exact EXV|]. split; [exact ED|].
  assert (NF : no_flat_floor (density1 h) (density1 h)).
  { rewrite ED. intros i Hi. cbn [length] in Hi. destruct i as [|[|i]]; cbn [nth]; [lra|lra|lia]. }
  assert (FR : forall lr, 1/4 <= exp lr <= 1/2 -> exp lr < 1/2 -> frac_of1 h lr = (5/4 - 2 * exp lr ^ 2) / (9/8)).
  { intros lr H1 H2. unfold frac_of1, level1. rewrite HM, Rplus_0_l, ED. cbn [region].
    rewrite above_both by lra. rewrite above_fall by lra. rewrite !area_cons. cbn [area]. field. }
  intros cdf ppf brentq tol HB HC Ht HS.
  set (p := 31/36) in *. set (lr := - (1/2) * sqrt (ppf p 1) ^ 2) in *.
  assert (A : asked cdf (Some p) None p) by (left; split; [reflexivity|left; reflexivity]).
  assert (S : starts_at ppf (Some p) None lr) by (left; exists p; split; [reflexivity|split; [left; reflexivity|reflexivity]]).
  assert (LR : lr <= 0) by (unfold lr; nra).
  pose proof (object1_new cdf ppf brentq h M) as O.
  pose proof (exp_lo (-2)) as X2. 
  assert (B4 : -2 <= ln (1/4)).
  { apply Rnot_lt_le. intros C. apply exp_increasing in C. rewrite exp_ln in C by lra.
    replace (-2) with (-1 + -1) in C by ring. rewrite exp_plus in C.
    assert (exp (-1) <= 1/2) by (pose proof (exp_hi (-1) ltac:(lra)); lra). pose proof (exp_pos (-1)). nra. }
  assert (D : (exists h' r b, critlevel1 cdf ppf brentq (Some p) None tol h = (h', Ok (r, b)))).
  { destruct (level1_found cdf ppf brentq h (Some p) None tol p lr HB HC O NF ltac:(lra) A S ltac:(unfold p; lra)) as [D|[h' [_ [r [cs [[Hinc Hcs] Hlen]]]]]].
    - exists (1/4). rewrite ED. split; [right; right; left; reflexivity|]. unfold level1. rewrite HM, Rplus_0_l.
      rewrite <- (exp_ln (1/4)) at 1 by lra. apply exp_increasing. exact HS.
    - rewrite ED. intros x Hx. unfold level1. apply wide; [lra| |destruct Hx as [<-|[<-|[<-|[]]]]; lra]. rewrite HM.
      assert (ln (1/4) <= ln x <= 0).
      { destruct Hx as [<-|[<-|[<-|[]]]]; rewrite ?ln_1; [lra| |lra]. split; [left; apply ln_increasing; lra|left; apply ln_neg; lra]. }
      lra.
    - exact D.
    - exfalso. (* a grid of three points has no ten crossings *)
      pose proof (found_spec r _ _ (ax_sorted _ _ _ _ (g1_axis h G)) (crossings_lengths h G)) as [F1 F2].
      assert (EC : cs = found r (h_xvals h) (map (fun v => v - h_max h) (h_logpdf h))).
      { apply increasing_unique; [exact Hinc|exact F1|]. intros v. rewrite Hcs, F2. reflexivity. }
      rewrite EC, EXV, EL in Hlen. cbn [map found] in Hlen.
      repeat match type of Hlen with context [if ?b then _ else _] => destruct b end; cbn [length] in Hlen; lia. }
  destruct D as [h' [r [b D]]]. exists h', r.
  destruct (level1_ok cdf ppf brentq h (Some p) None tol h' r b HB O NF ltac:(lra) D) as [q [[[Eq _]|[s [Es _]]] [HF [_ [_ [_ [_ HBd]]]]]]]; [|discriminate].
  injection Eq as <-. cbv zeta in HF. set (e := tol + rtol * Rabs r) in *.
  pose proof rtol_small as RT.
  assert (R1 : r < ln (1/2)).
  { apply Rnot_le_lt. intros C.
    assert (K : ln (45/100) <= r - e).
    { pose proof (ln_gap (45/100) (1/2) (1/10) ltac:(lra) ltac:(lra) ltac:(lra) ltac:(lra)) as GP.
      pose proof (ln_neg (1/2) ltac:(lra)). 
      assert (-1 <= ln (1/2)). { pose proof (ln_gap (1/4) (1/2) (1/2) ltac:(lra) ltac:(lra) ltac:(lra) ltac:(lra)).
        apply Rnot_lt_le. intros C'. apply exp_increasing in C'. rewrite exp_ln in C' by lra.
        pose proof (exp_hi (-1) ltac:(lra)). lra. }
      unfold e, Rabs. destruct (Rcase_abs r); nra. }
    pose proof (FR (ln (45/100))) as F1. rewrite exp_ln in F1 by lra. specialize (F1 ltac:(lra) ltac:(lra)).
    pose proof (diff1_anti h p G NF (ln (45/100)) (r - e) K) as AN. rewrite !diff1_is in AN by assumption. unfold p in *. lra. }
  assert (R2 : ln (1/4) < r).
  { apply Rnot_le_lt. intros C.
    assert (K : r + e <= ln (3/10)).
    { pose proof (ln_gap (1/4) (3/10) (1/10) ltac:(lra) ltac:(lra) ltac:(lra) ltac:(lra)) as GP.
      unfold e, Rabs. destruct (Rcase_abs r); nra. }
    pose proof (FR (ln (3/10))) as F1. rewrite exp_ln in F1 by lra. specialize (F1 ltac:(lra) ltac:(lra)).
    pose proof (diff1_anti h p G NF (r + e) (ln (3/10)) K) as AN. rewrite !diff1_is in AN by assumption. unfold p in *. lra. }
  pose proof (ln_neg (1/2) ltac:(lra)) as LH.
  pose proof (ln_increasing (1/16) (1/4) ltac:(lra) ltac:(lra)) as L416.
  set (v0 := 1 + (2 - 1) * (r - (0 - 0)) / (ln (1/4) - 0 - (0 - 0))).
  pose proof (found_spec r _ _ (ax_sorted _ _ _ _ (g1_axis h G)) (crossings_lengths h G)) as FS.
  rewrite EXV, EL, HM in FS. cbn [map found] in FS. fold v0 in FS.
  rewrite (proj2 (Rltb_false (0 - 0) r)), (proj2 (Rltb_spec (ln (1/4) - 0) r)), (proj2 (Rltb_spec r (0 - 0))),
    (proj2 (Rltb_false r (ln (1/4) - 0))) in FS by lra.
  rewrite (proj2 (Rltb_false r (ln (1/16) - 0))) in FS by lra. cbn [andb orb] in FS.
  rewrite Bool.andb_false_r in FS. cbn [orb] in FS.
  assert (EB : b = [v0]).
  { change [v0] with (firstn 10 [v0]). apply HBd. rewrite EXV, EL, HM. exact FS. }
  exists v0. rewrite <- EB. split; [exact D|]. split.
  - destruct FS as [_ FS]. destruct (proj1 (FS v0) (or_introl eq_refl)) as [i Hi]. pose proof (crosses_bounds _ _ _ _ _ Hi) as BB.
    destruct Hi as [[Hi Hs] _]. cbn [length] in Hi. destruct i as [|[|i]]; cbn [nth] in *; [lra|exfalso; lra|lia].
  - unfold level1. rewrite HM, Rplus_0_l. split.
    + rewrite <- (exp_ln (1/4)) by lra. apply exp_increasing. exact R2.
    + rewrite <- (exp_ln (1/2)) by lra. apply exp_increasing. exact R1.
Qed.

(** ** A call that fails late *)
Definition zigzag : list R := [ln (1/2); 0; ln (1/2); 0; ln (1/2); 0; ln (1/2); 0; ln (1/2); 0; ln (1/2); 0; ln (1/2)].
Lemma zig_bounds : forall xs r, ln (1/2) < r < 0 -> length xs = length zigzag ->
  x_ok (xvalues xs (map (fun v => v - 0) zigzag) r 10) = false.
Proof.
  intros xs r Hr HL. unfold zigzag in *. cbn [length] in HL. cbn [map].
  do 14 (destruct xs as [|? xs]; [try discriminate|]); [|discriminate]. unfold xvalues.
  assert (A : Rltb (ln (1/2) - 0) r = true) by (apply Rltb_spec; lra).
  assert (B : Rltb r (0 - 0) = true) by (apply Rltb_spec; lra).
  assert (C : Rltb (0 - 0) r = false) by (apply Rltb_false; lra).
  do 6 (rewrite xv_step; cbv zeta; rewrite A, B; cbn [andb]; rewrite xv_step; cbv zeta; rewrite C, A, B; cbn [andb Nat.ltb Nat.leb]).
  reflexivity.
Qed.
Lemma zig_case : exists h, new_hpd1 zigzag 0 12 "linear" = Ok h /\ made1 h /\ no_flat_floor (density1 h) (density1 h) /\
  forall cdf ppf brentq tol, root_search brentq -> converges brentq -> 0 < tol <= 1/1000 ->
    ln (1/2) < - (1/2) * sqrt (ppf (7/12) 1) ^ 2 ->
    exists h', critlevel1 cdf ppf brentq (Some (7/12)) None tol h = (h', Err RuntimeError) /\
      length (h_probs h') = 1%nat /\ length (h_deltas h') = 1%nat /\ length (h_levels h') = 1%nat /\ h_bounds h' = [].
Proof.
  destruct (made_lin zigzag 0 12 ltac:(lra) ltac:(cbn; lia)) as [h [E [M [EL [ELin [EP [EDl [ELv EB]]]]]]]].
  exists h. split; [exact E|]. split; [exact M|]. pose proof (made1_grid h M) as G.
  pose proof (ln_neg (1/2) ltac:(lra)) as LH.
  assert (HM : h_max h = 0).
  { apply max_zero; [exact G|rewrite EL; right; left; reflexivity|]. rewrite EL. intros v Hv. unfold zigzag in Hv. cbn [In] in Hv.
    repeat (destruct Hv as [<-|Hv]; [lra|]). destruct Hv. }
  assert (ED : density1 h = [1/2; 1; 1/2; 1; 1/2; 1; 1/2; 1; 1/2; 1; 1/2; 1; 1/2]).
  { rewrite (density1_lin h G ELin), EL. unfold zigzag. cbn [map]. rewrite exp_0, exp_ln by lra. reflexivity. }
  assert (NF : no_flat_floor (density1 h) (density1 h)).
  { rewrite ED. intros i Hi. cbn [length] in Hi. do 12 (destruct i as [|i]; [cbn [nth]; lra|]). lia. }
  split; [exact NF|].
  assert (FR : forall lr, 1/2 <= exp lr < 1 -> frac_of1 h lr = (1 - exp lr ^ 2) * 4 / 3).
  { intros lr H1. unfold frac_of1, level1. rewrite HM, Rplus_0_l, ED. cbn [region].
    rewrite above_rise, above_fall by lra. rewrite !area_cons. cbn [area]. field. }
  intros cdf ppf brentq tol HB HC Ht HS.
  set (p := 7/12) in *. set (lr := - (1/2) * sqrt (ppf p 1) ^ 2) in *.
  assert (A : asked cdf (Some p) None p) by (left; split; [reflexivity|left; reflexivity]).
  assert (S : starts_at ppf (Some p) None lr) by (left; exists p; split; [reflexivity|split; [left; reflexivity|reflexivity]]).
  assert (LR : lr <= 0) by (unfold lr; nra).
  pose proof (object1_new cdf ppf brentq h M) as O.
  assert (B2 : -1 <= ln (1/2)).
  { apply Rnot_lt_le. intros C'. apply exp_increasing in C'. rewrite exp_ln in C' by lra.
    pose proof (exp_hi (-1) ltac:(lra)). lra. }
  rewrite crit1_unfold, (guess_of cdf ppf _ _ _ _ A S), (nonzero1 h G NF). unfold search.
  destruct (bracket_found (diff1 h p) lr p ltac:(unfold p; lra) (diff1_anti h p G NF)) as [a [b [EZ Ho]]].
  - intros x Hx. rewrite diff1_is by assumption. unfold frac_of1. rewrite frac_one; [reflexivity|apply density1_pos; exact G|apply density1_two; exact G|exact NF|].
    intros y Hy. apply Rle_trans with (level1 h (lr - 10 ^ 15)); [apply level1_le; exact Hx|].
    rewrite ED in Hy. assert (Y : y = 1/2 \/ y = 1) by (cbn [In] in Hy; lra).
    apply wide; [lra| |destruct Y; lra]. rewrite HM. destruct Y as [-> | ->]; rewrite ?ln_1; lra.
  - intros x Hx. rewrite diff1_is by assumption. unfold frac_of1.
    destruct (frac_facts (density1 h) (density1_pos h G) (density1_two h G)) as [_ [_ [_ F0]]]. rewrite F0; [ring|].
    intros y Hy. apply Rle_trans with (level1 h (lr + 10 ^ 15)); [|apply level1_le; exact Hx].
    rewrite ED in Hy. assert (Y : y = 1/2 \/ y = 1) by (cbn [In] in Hy; lra).
    apply wide; [lra| |destruct Y; lra]. rewrite HM. destruct Y as [-> | ->]; rewrite ?ln_1; lra.
  - intros x Hx. rewrite diff1_is by assumption. unfold frac_of1.
    assert (region (density1 h) (level1 h x) / area (density1 h) < 1); [|lra].
    apply frac_less; [apply density1_pos; exact G|apply density1_two; exact G|].
    exists (1/2). split; [rewrite ED; left; reflexivity|]. apply Rlt_le_trans with (level1 h lr); [|apply level1_le; exact Hx].
    unfold level1. rewrite HM, Rplus_0_l. rewrite <- (exp_ln (1/2)) at 1 by lra. apply exp_increasing. exact HS.
  - rewrite EZ. cbn [bindr fst snd]. destruct (HC _ a b tol ltac:(lra) Ho) as [r Er]. rewrite Er. cbv zeta.
    assert (ES : search brentq (diff1 h p) false lr tol = Ok r) by (unfold search; rewrite EZ; exact Er).
    pose proof (search_ok brentq _ _ _ _ HB (proj1 Ht) (diff1_anti h p G NF) ES) as HF. cbv zeta in HF.
    set (e := tol + rtol * Rabs r) in *. rewrite !diff1_is in HF by assumption. pose proof rtol_small as RT.
    assert (R1 : r < 0).
    { apply Rnot_le_lt. intros C.
      assert (K : ln (9/10) <= r - e).
      { pose proof (ln_gap (9/10) 1 (1/10) ltac:(lra) ltac:(lra) ltac:(lra) ltac:(lra)) as GP. rewrite ln_1 in GP.
        unfold e. rewrite Rabs_right by lra. nra. }
      pose proof (FR (ln (9/10))) as F1. rewrite exp_ln in F1 by lra. specialize (F1 ltac:(lra)).
      pose proof (diff1_anti h p G NF _ _ K) as AN. rewrite !diff1_is in AN by assumption. unfold p in *. lra. }
    assert (R2 : ln (1/2) < r).
    { apply Rnot_le_lt. intros C.
      assert (K : r + e <= ln (6/10)).
      { pose proof (ln_gap (1/2) (6/10) (1/10) ltac:(lra) ltac:(lra) ltac:(lra) ltac:(lra)) as GP.
        unfold e. rewrite Rabs_left by lra. nra. }
      pose proof (FR (ln (6/10))) as F1. rewrite exp_ln in F1 by lra. specialize (F1 ltac:(lra)).
      pose proof (diff1_anti h p G NF _ _ K) as AN. rewrite !diff1_is in AN by assumption. unfold p in *. lra. }
    assert (XO : x_ok (bounds_out h r) = false).
    { unfold bounds_out. rewrite EL, HM. apply zig_bounds; [lra|]. rewrite <- EL. apply (ax_len _ _ _ _ (g1_axis h G)). }
    rewrite XO. eexists. split; [reflexivity|]. cbn. rewrite EP, EDl, ELv, EB. split; [reflexivity|split; [reflexivity|split; reflexivity]].
Qed.

(** ** A search that meets what is assumed of brentq *)
Fixpoint halve (n : nat) (f : R -> R) (a b : R) : R * R :=
  match n with
  | O => (a, b)
  | S n' => let m := (a + b) / 2 in if Rle_dec (f a * f m) 0 then halve n' f a m else halve n' f m b
  end.
Definition bisect (f : R -> R) (a b tol : R) : res R := Ok (fst (halve (Z.to_nat (up (Rabs (b - a) / tol))) f a b)).

Lemma inside_half : forall a b x, inside a ((a + b) / 2) x -> inside a b x.
Proof. unfold inside. intros a b x H. unfold Rmin, Rmax in *. repeat destruct (Rle_dec _ _); lra. Qed.
Lemma inside_half' : forall a b x, inside ((a + b) / 2) b x -> inside a b x.
Proof. unfold inside. intros a b x H. unfold Rmin, Rmax in *. repeat destruct (Rle_dec _ _); lra. Qed.
Lemma halve_spec : forall f n a b, f a * f b <= 0 -> let (r, v) := halve n f a b in
  inside a b r /\ inside a b v /\ f r * f v <= 0 /\ Rabs (v - r) * 2 ^ n = Rabs (b - a).
Proof.
  intros f n. induction n as [|n IH]; intros a b H.
  - cbn [halve pow]. split; [unfold inside, Rmin, Rmax; repeat destruct (Rle_dec _ _); lra|].
    split; [unfold inside, Rmin, Rmax; repeat destruct (Rle_dec _ _); lra|]. split; [exact H|ring].
  - cbn [halve]. destruct (Rle_dec (f a * f ((a + b) / 2)) 0) as [C|C].
    + specialize (IH a ((a + b) / 2) C). destruct (halve n f a ((a + b) / 2)) as [r v]. destruct IH as [I1 [I2 [I3 I4]]].
      split; [apply inside_half; exact I1|]. split; [apply inside_half; exact I2|]. split; [exact I3|].
      cbn [pow]. replace (Rabs (v - r) * (2 * 2 ^ n)) with (2 * (Rabs (v - r) * 2 ^ n)) by ring. rewrite I4.
      replace ((a + b) / 2 - a) with ((b - a) * / 2) by field. rewrite Rabs_mult, (Rabs_right (/ 2)) by lra. lra.
    + assert (C' : f ((a + b) / 2) * f b <= 0).
      { apply Rnot_le_lt in C. apply Rnot_lt_le. intros D. 
        assert (0 < (f a * f ((a + b) / 2)) * (f ((a + b) / 2) * f b)) by (apply Rmult_lt_0_compat; assumption).
        assert (0 <= f ((a + b) / 2) * f ((a + b) / 2)) by nra. nra. }
      specialize (IH ((a + b) / 2) b C'). destruct (halve n f ((a + b) / 2) b) as [r v]. destruct IH as [I1 [I2 [I3 I4]]].
      split; [apply inside_half'; exact I1|]. split; [apply inside_half'; exact I2|]. split; [exact I3|].
      cbn [pow]. replace (Rabs (v - r) * (2 * 2 ^ n)) with (2 * (Rabs (v - r) * 2 ^ n)) by ring. rewrite I4.
      replace (b - (a + b) / 2) with ((b - a) * / 2) by field. rewrite Rabs_mult, (Rabs_right (/ 2)) by lra. lra.
Qed.
Lemma pow2_ge : forall n, INR n <= 2 ^ n.
Proof.
  intros n. induction n as [|n IH]; [cbn; lra|]. rewrite S_INR. cbn [pow].
  assert (1 <= 2 ^ n) by (apply pow_R1_Rle; lra). lra.
Qed.
Lemma bisect_search : root_search bisect.
Proof.
  intros f a b tol Ht H. unfold bisect. set (n := Z.to_nat (up (Rabs (b - a) / tol))).
  pose proof (halve_spec f n a b ltac:(lra)) as K. destruct (halve n f a b) as [r v]. destruct K as [K1 [K2 [K3 K4]]]. cbn [fst].
  exists v. split; [exact K1|]. split; [exact K2|]. split; [|exact K3].
  pose proof (Rabs_pos r) as Pr. pose proof rtol_small as RT. pose proof (Rabs_pos (v - r)) as Pv. pose proof (Rabs_pos (b - a)) as Pb.
  assert (N : Rabs (b - a) / tol <= 2 ^ n).
  { apply Rle_trans with (INR n); [|apply pow2_ge]. unfold n.
    destruct (archimed (Rabs (b - a) / tol)) as [U _].
    assert (0 <= Rabs (b - a) / tol) by (apply Rmult_le_pos; [lra|left; apply Rinv_0_lt_compat; lra]).
    assert (Z0 : (0 <= up (Rabs (b - a) / tol))%Z) by (apply le_IZR; lra).
    rewrite INR_IZR_INZ, Z2Nat.id by exact Z0. lra. }
  assert (T : Rabs (v - r) <= tol).
  { assert (P : 0 < 2 ^ n) by (apply pow_lt; lra). apply Rmult_le_reg_r with (2 ^ n); [exact P|]. rewrite K4.
    replace (Rabs (b - a)) with (tol * (Rabs (b - a) / tol)) by (field; lra). apply Rmult_le_compat_l; lra. }
  nra.
Qed.
Lemma bisect_converges : converges bisect.
Proof. intros f a b tol _ _. unfold bisect. eexists. reflexivity. Qed.

(** ** Two dimensions *)
Lemma made2_lin : forall r0 r1 xlo xhi ylo yhi, xlo < xhi -> ylo < yhi -> (2 <= length r0)%nat -> length r1 = length r0 ->
  exists h, new_hpd2 [r0; r1] xlo xhi ylo yhi "linear" "linear" = Ok h /\ made2 h /\ d_logpdf h = [r0; r1] /\ d_xlin h = true /\ d_ylin h = true
   /\ d_yhi h = None.
Proof.
  intros r0 r1 xlo xhi ylo yhi Hx Hy H0 H1.
  assert (E : exists h, new_hpd2 [r0; r1] xlo xhi ylo yhi "linear" "linear" = Ok h /\ d_logpdf h = [r0; r1] /\ d_xlin h = true /\ d_ylin h = true
    /\ d_yhi h = None).
  { unfold new_hpd2, axis. cbn [step_kind String.eqb Ascii.eqb Bool.eqb orb bindr]. unfold lin_stepper. cbn [length Nat.eqb hd bindr].
    destruct (Nat.eqb_spec (length r0) 1) as [E|_]; [lia|]. cbn [bindr]. unfold build2.
    destruct r0 as [|a l]; [cbn in H0; lia|]. cbn [amax bindr map amin List.concat app].
    eexists. split; [reflexivity|]. split; [reflexivity|]. split; [reflexivity|]. split; reflexivity. }
  destruct E as [h [E R]]. exists h. split; [exact E|]. split; [|exact R].
  apply (made2_array [r0; r1] xlo xhi ylo yhi "linear" "linear"); [| | |exact E].
  - split; [exact Hx|]. cbn. discriminate.
  - split; [exact Hy|]. cbn. discriminate.
  - intros r [<-|[<-|[]]]; cbn [hd]; [reflexivity|exact H1].
Qed.

Lemma square_case : exists h, new_hpd2 [[0; ln (1/2)]; [ln (1/2); ln (1/4)]] 0 1 0 1 "linear" "linear" = Ok h /\ made2 h /\
  density2 h = [[1; 1/2]; [1/2; 1/4]] /\ d_max h = 0 /\ level_floor2 (density2 h).
Proof.
  destruct (made2_lin [0; ln (1/2)] [ln (1/2); ln (1/4)] 0 1 0 1 ltac:(lra) ltac:(lra) ltac:(cbn; lia) eq_refl) as [h [E [M [EL [E1 [E2 _]]]]]].
  exists h. split; [exact E|]. split; [exact M|]. pose proof (made2_grid h M) as G.
  pose proof (ln_neg (1/2) ltac:(lra)) as L2. pose proof (ln_neg (1/4) ltac:(lra)) as L4.
  assert (ED : density2 h = [[1; 1/2]; [1/2; 1/4]]).
  { unfold density2. rewrite EL, E1, E2.
    pose proof (ax_len _ _ _ _ (g2_x h G)) as LX. pose proof (g2_rows h G [0; ln (1/2)]) as LY. rewrite EL in LX, LY. specialize (LY (or_introl eq_refl)).
    cbn [length hd] in LX, LY.
    destruct (d_xvals h) as [|x0 [|x1 [|? ?]]]; try discriminate. destruct (d_yvals h) as [|y0 [|y1 [|? ?]]]; try discriminate.
    cbn [dens2 dens map]. rewrite exp_0, !exp_ln by lra. reflexivity. }
  split; [exact ED|]. split.
  - destruct (g2_max h G) as [M1 M2]. rewrite EL in M1, M2. cbn [List.concat app] in M1, M2.
    pose proof (M2 0 (or_introl eq_refl)) as M3. destruct M1 as [M1|[M1|[M1|[M1|[]]]]]; rewrite <- M1 in *; lra.
  - rewrite ED. intros r Hr i Hi Heq. destruct Hr as [<-|[<-|[]]]; cbn [length] in Hi; (destruct i as [|i]; [cbn [nth] in Heq; lra|lia]).
Qed.
