(** The values of slmlike and slmliked. *)

From Coq Require Import ZArith List Bool Arith Reals Lra Lia Psatz.
From Verif Require Import Exn PieModel Instances CountModel CountSpec CountLemmas CountLemmas2.
Import ListNotations.
Open Scope R_scope.

Lemma abs_iff : forall x d, Rabs x <= d <-> - d <= x <= d.
Proof.
  intros x d. split; [|apply Rabs_le]. intros H. pose proof (Rle_abs x). pose proof (Rle_abs (- x)) as K.
  rewrite Rabs_Ropp in K. lra.
Qed.

Lemma lterm_ww : forall n_on t_on n_off t_off s k,
  lterm n_on t_on n_off t_off s k = exp (- (s * t_on)) * ww n_on n_off (s * (t_on + t_off)) k.
Proof. intros. unfold lterm, ww, Rdiv. ring. Qed.
Lemma lterm_pos : forall n_on t_on n_off t_off s k, 0 < s -> 0 < t_on -> 0 < t_off -> 0 < lterm n_on t_on n_off t_off s k.
Proof.
  intros. rewrite lterm_ww. apply Rmult_lt_0_compat; [apply exp_pos|]. apply ww_pos, Rmult_lt_0_compat; lra.
Qed.

Lemma ln_ww : forall n_on n_off x k, 0 < x ->
  ln (ww n_on n_off x k) = INR k * ln x + ln (INR (fact (n_on + n_off - k))) - ln (INR (fact (n_on - k))) - ln (INR (fact k)).
Proof.
  intros n_on n_off x k Hx. unfold ww. pose proof (fact_pos (n_on + n_off - k)). pose proof (fact_pos (n_on - k)).
  pose proof (fact_pos k). pose proof (pow_lt x k Hx).
  unfold Rdiv. rewrite ln_mult, ln_mult, ln_Rinv, ln_mult; try assumption;
    try (apply Rmult_lt_0_compat; assumption); try (apply Rinv_0_lt_compat, Rmult_lt_0_compat; assumption).
  rewrite <- (Rpower_pow k x Hx). unfold Rpower at 1. rewrite ln_exp. ring.
Qed.

Lemma G3 : forall G delta n_on n_off km off ln0, log_fact G delta -> (km <= n_on)%nat ->
  let arg2 := INR n_on - IZR (Z.of_nat km) + 1 in
  let arg1 := arg2 + INR n_off in
  let arg3 := IZR (Z.of_nat km) + 1 in
  Rabs ((IZR (Z.of_nat km) * ln0 + G arg1 - G arg2 - G arg3 - off)
    - (INR km * ln0 + ln (INR (fact (n_on + n_off - km))) - ln (INR (fact (n_on - km))) - ln (INR (fact km)) - off)) <= 3 * delta.
Proof.
  intros G delta n_on n_off km off ln0 H Hk. cbv zeta. rewrite <- INR_IZR_INZ.
  replace (INR n_on - INR km + 1) with (INR (n_on - km) + 1) by (rewrite minus_INR by lia; ring).
  replace (INR (n_on - km) + 1 + INR n_off) with (INR (n_on + n_off - km) + 1)
    by (rewrite !minus_INR, plus_INR by lia; ring).
  pose proof (H (n_on + n_off - km)%nat) as A. pose proof (H (n_on - km)%nat) as B. pose proof (H km) as C.
  apply Rabs_le. apply abs_iff in A, B, C. lra.
Qed.

(** What both routines compute for a positive rate. *)
Lemma series_core : forall G s n_on t_on n_off t_off offset cut, 0 < s -> 0 < t_on -> 0 < t_off ->
  let stt := s * (t_on + t_off) in
  let w := ww n_on n_off stt in
  exists km L, (km <= n_on)%nat
  /\ (forall delta, log_fact G delta -> Rabs (L - (ln (w km) - s * t_on - offset)) <= 3 * delta)
  /\ (forall i j, (i <= j <= km)%nat -> w i <= w j)
  /\ (forall i j, (km <= i <= j)%nat -> (j <= n_on)%nat -> w j <= w i)
  /\ (if Rltb L (-700) || Rltb 700 L
      then slmlike G s n_on t_on n_off t_off offset cut = Ierr /\ slmliked G s n_on t_on n_off t_off offset cut = Ierrd
      else exists a b, (a <= km <= b)%nat /\ (b <= n_on)%nat
        /\ slmlike G s n_on t_on n_off t_off offset cut = Slm (ln (exp L / w km * sum_over a (S b - a) w)) (S b - a)
        /\ slmliked G s n_on t_on n_off t_off offset cut = Slmd (ln (exp L / w km * sum_over a (S b - a) w))
             (sum_over a (S b - a) (fun i => w i * (INR i / s - t_on)) / sum_over a (S b - a) w) (S b - a)
        /\ ((0 < a)%nat -> (a < km)%nat /\ w a <= cut * w km) /\ ((b < n_on)%nat -> (km < b)%nat /\ w b <= cut * w km)
        /\ (forall i, (a < i < b)%nat -> i <> km -> cut * w km < w i)).
Proof.
  intros G s n_on t_on n_off t_off offset cut Hs Hon Hoff stt w.
  assert (Hx : 0 < stt) by (apply Rmult_lt_0_compat; lra).
  destruct (largest_spec n_on n_off stt Hx) as (km & E & Hk & Hu & Hd).
  assert (Wp : forall i, 0 < w i) by (intros i; now apply ww_pos).
  exists km, (IZR (Z.of_nat km) * ln stt + G (INR n_on - IZR (Z.of_nat km) + 1 + INR n_off)
    - G (INR n_on - IZR (Z.of_nat km) + 1) - G (IZR (Z.of_nat km) + 1) - s * t_on - offset).
  refine (conj Hk (conj _ (conj _ (conj _ _)))).
  - intros delta HG. pose proof (G3 G delta n_on n_off km (s * t_on + offset) (ln stt) HG Hk) as A. cbv zeta in A.
    unfold w. rewrite ln_ww by exact Hx. apply abs_iff in A. apply abs_iff. lra.
  - intros i j H. now apply (w_up n_on n_off stt Hx km Hk Hu).
  - intros i j H1 H2. now apply (w_down n_on n_off stt Hx km Hk Hd).
  - unfold slmlike, slmliked. rewrite (proj2 (Reqb_false s 0)) by lra. cbv zeta. fold stt. rewrite E.
    set (L := _ - s * t_on - offset). destruct (Rltb L (-700) || Rltb 700 L) eqn:RL; [split; reflexivity|].
    set (C := exp L / w km). assert (HC : 0 < C) by (apply Rdiv_lt_0_compat; [apply exp_pos|apply Wp]).
    assert (EL : exp L = C * w km) by (unfold C; field; pose proof (Wp km); lra).
    rewrite EL. rewrite Nat2Z.id. replace (Z.to_nat (Z.of_nat n_on - Z.of_nat km)) with (n_on - km)%nat by lia.
    rewrite (sl_of_sld_down n_on n_off stt (cut * (C * w km)) s t_on km (Z.of_nat km) (C * w km) (C * w km) (C * w km * (IZR (Z.of_nat km) / s - t_on)) 1).
    destruct (sld_down_spec n_on n_off stt Hx (cut * (C * w km)) s t_on C km (C * w km)
      (C * w km * (IZR (Z.of_nat km) / s - t_on)) 1 Hk) as (a & Ha & Ea & A1 & A2).
    fold w in Ea. rewrite Ea.
    set (sl1 := C * w km + _). set (ds1 := C * w km * _ + _).
    rewrite (sl_of_sld_up n_on n_off stt (cut * (C * w km)) s t_on (n_on - km) (Z.of_nat km) (C * w km) sl1 ds1).
    destruct (sld_up_spec n_on n_off stt Hx (cut * (C * w km)) s t_on C (n_on - km) km sl1 ds1 (1 + (km - a)) ltac:(lia)) as (b & Hb & Eb & B1 & B2).
    fold w in Eb. rewrite Eb.
    assert (SW : forall f, C * f km + C * sum_over a (km - a) f + C * sum_over (S km) (b - km) f = C * sum_over a (S b - a) f).
    { intros f. replace (S b - a)%nat with (km - a + S (b - km))%nat by lia. rewrite so_app.
      replace (a + (km - a))%nat with km by lia. rewrite so_front. ring. }
    exists a, b. refine (conj _ (conj _ (conj _ (conj _ (conj _ (conj _ _)))))).
    + lia.
    + lia.
    + unfold sl1. rewrite SW. f_equal. lia.
    + unfold sl1, ds1. rewrite SW, <- INR_IZR_INZ.
      pose proof (SW (fun i => w i * (INR i / s - t_on))) as SD. cbv beta in SD.
      rewrite (Rmult_assoc C (w km)), SD.
      assert (0 < sum_over a (S b - a) w) by (apply so_pos; [lia|intros; apply Wp]).
      f_equal; [field; lra|lia].
    + intros P. destruct (A1 P) as [P1 P2]. split; [exact P1|]. fold w in P2. nra.
    + intros P. destruct (B1 P) as [P1 P2]. split; [exact P1|]. fold w in P2. nra.
    + intros i Hi Ni. destruct (Nat.lt_ge_cases i km) as [Q|Q].
      * pose proof (A2 i ltac:(lia)) as K. fold w in K. nra.
      * pose proof (B2 i ltac:(lia)) as K. fold w in K. nra.
Qed.
