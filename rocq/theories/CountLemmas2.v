(** The largest term and the two-sided summation. *)

From Coq Require Import ZArith List Bool Arith Reals Lra Lia Psatz.
From Verif Require Import Exn PieModel Instances CountModel CountSpec CountLemmas.
Import ListNotations.
Open Scope R_scope.

Lemma Int_part_bounds : forall x, IZR (Int_part x) <= x < IZR (Int_part x) + 1.
Proof. intros x. destruct (base_Int_part x) as [H1 H2]. lra. Qed.

(** Where the terms stop increasing. *)
Lemma largest_spec : forall n_on n_off stt, 0 < stt ->
  exists km, largest n_on n_off stt = Z.of_nat km /\ (km <= n_on)%nat
    /\ (forall j, (j < km)%nat -> (INR j + 1) * (INR (n_on + n_off) - INR j) <= stt * (INR n_on - INR j))
    /\ (forall j, (km <= j < n_on)%nat -> stt * (INR n_on - INR j) <= (INR j + 1) * (INR (n_on + n_off) - INR j)).
Proof.
  intros n_on n_off stt Hs. unfold largest. cbv zeta.
  set (nn := INR (n_on + n_off)). set (nns := nn + stt - 1). set (disc := nns * nns + 4 * (nn - INR n_on * stt)).
  assert (P0 : 0 <= INR n_on) by apply pos_INR. assert (P1 : 0 <= INR n_off) by apply pos_INR.
  assert (En : nn = INR n_on + INR n_off) by (unfold nn; apply plus_INR).
  assert (Pn : INR n_on * INR n_on - nns * INR n_on - (nn - INR n_on * stt) = - INR n_off * (INR n_on + 1))
    by (unfold nns; rewrite En; ring).
  assert (D0 : 0 <= disc).
  { unfold disc. replace (nns * nns + 4 * (nn - INR n_on * stt)) with
      ((nns - 2 * INR n_on) * (nns - 2 * INR n_on) + 4 * (INR n_off * (INR n_on + 1))).
    - pose proof (Rle_0_sqr (nns - 2 * INR n_on)) as Q. unfold Rsqr in Q.
      pose proof (Rmult_le_pos _ _ P1 (Rplus_le_le_0_compat _ _ P0 Rle_0_1)). lra.
    - pose proof Pn. lra. }
  rewrite (proj2 (Rleb_spec 0 disc)) by exact D0.
  set (q := sqrt disc). assert (Q0 : 0 <= q) by apply sqrt_pos. assert (QQ : q * q = disc) by now apply sqrt_def.
  set (jm := 1/2 * (nns - q)).
  assert (Jm : -1 < jm).
  { unfold jm. assert (q < nns + 2); [|lra].
    assert (0 < nns + 2) by (unfold nns; lra).
    assert (q * q < (nns + 2) * (nns + 2)); [|nra].
    rewrite QQ. unfold disc, nns. pose proof (Rmult_le_pos _ _ P0 (Rlt_le _ _ Hs)). nra. }
  assert (Jn : jm <= INR n_on).
  { unfold jm. assert (nns - 2 * INR n_on <= q); [|lra].
    destruct (Rle_or_lt (nns - 2 * INR n_on) 0); [lra|].
    assert ((nns - 2 * INR n_on) * (nns - 2 * INR n_on) <= q * q); [|nra].
    rewrite QQ. unfold disc. pose proof (Rmult_le_pos _ _ P1 (Rplus_le_le_0_compat _ _ P0 Rle_0_1)). lra. }
  assert (Jp : INR n_on <= nns - jm).
  { replace (nns - jm) with (1/2 * (nns + q)) by (unfold jm; field).
    assert (2 * INR n_on - nns <= q); [|lra].
    destruct (Rle_or_lt (2 * INR n_on - nns) 0); [lra|].
    assert ((2 * INR n_on - nns) * (2 * INR n_on - nns) <= q * q); [|nra].
    rewrite QQ. unfold disc. pose proof (Rmult_le_pos _ _ P1 (Rplus_le_le_0_compat _ _ P0 Rle_0_1)). lra. }
  (* p(j) = (j - jm) (j - jp) *)
  assert (F : forall j, stt * (INR n_on - j) - (j + 1) * (nn - j) = (j - jm) * (j - (nns - jm))).
  { intros j. assert (jm * (nns - jm) = - (nn - INR n_on * stt)).
    { replace (jm * (nns - jm)) with (1/4 * (nns * nns - q * q)) by (unfold jm; field).
      rewrite QQ. unfold disc. field. }
    replace ((j - jm) * (j - (nns - jm))) with (j * j - nns * j + jm * (nns - jm)) by ring.
    rewrite H. unfold nns. ring. }
  unfold trunc. rewrite (proj2 (Rleb_spec 0 (jm + 1))) by lra.
  pose proof (Int_part_bounds (jm + 1)) as [I1 I2]. set (f := Int_part (jm + 1)) in *.
  assert (F0 : (0 <= f)%Z).
  { apply le_IZR. apply Rnot_lt_le. intros C. assert (f <= -1)%Z as C2 by (apply lt_IZR in C; lia). apply IZR_le in C2. lra. }
  exists (Z.to_nat (Z.min f (Z.of_nat n_on))).
  assert (KM : INR (Z.to_nat (Z.min f (Z.of_nat n_on))) = IZR (Z.min f (Z.of_nat n_on))).
  { rewrite INR_IZR_INZ. f_equal. lia. }
  refine (conj _ (conj _ (conj _ _))).
  - lia.
  - lia.
  - intros j Hj. pose proof (F (INR j)) as E.
    assert (INR j <= jm).
    { assert (Z.of_nat j + 1 <= f)%Z as Hj' by lia. apply IZR_le in Hj'. rewrite plus_IZR, <- INR_IZR_INZ in Hj'. lra. }
    assert (0 <= (jm - INR j) * (nns - jm - INR j)) by (apply Rmult_le_pos; lra). lra.
  - intros j Hj. pose proof (F (INR j)) as E.
    assert (jm <= INR j).
    { assert (f <= Z.of_nat j)%Z as Hj' by lia. apply IZR_le in Hj'. rewrite <- INR_IZR_INZ in Hj'. lra. }
    assert (INR j <= INR n_on) by (apply le_INR; lia).
    assert (0 <= (INR j - jm) * (nns - jm - INR j)) by (apply Rmult_le_pos; lra). lra.
Qed.

(** ** The terms *)
Definition ww (n_on n_off : nat) (x : R) (k : nat) : R :=
  x ^ k * INR (fact (n_on + n_off - k)) / (INR (fact (n_on - k)) * INR (fact k)).
Lemma ww_vw : forall n_on n_off x k, ww n_on n_off x k = vw n_on n_off x k / INR (fact k).
Proof. intros. unfold ww, vw. pose proof (fact_pos k). pose proof (fact_pos (n_on - k)). field. lra. Qed.
Lemma ww_pos : forall n_on n_off x k, 0 < x -> 0 < ww n_on n_off x k.
Proof. intros. rewrite ww_vw. apply Rdiv_lt_0_compat; [now apply vw_pos|apply fact_pos]. Qed.
Lemma ww_step : forall n_on n_off x k, (k < n_on)%nat ->
  ww n_on n_off x (S k) * ((INR k + 1) * (INR (n_on + n_off) - INR k)) = ww n_on n_off x k * (x * (INR n_on - INR k)).
Proof.
  intros n_on n_off x k Hk. rewrite !ww_vw. pose proof (vw_step n_on n_off x k Hk) as V.
  rewrite fact_simpl, mult_INR, S_INR. pose proof (fact_pos k). pose proof (pos_INR k).
  replace (vw n_on n_off x (S k) / ((INR k + 1) * INR (fact k)) * ((INR k + 1) * (INR (n_on + n_off) - INR k)))
    with (vw n_on n_off x (S k) * (INR (n_on + n_off) - INR k) / INR (fact k)) by (field; lra).
  rewrite V. field. lra.
Qed.

Lemma coef_pos : forall n_on n_off x, 0 < x -> forall j, (j < n_on)%nat -> 0 < x * (INR n_on - INR j) /\ 0 < (INR j + 1) * (INR (n_on + n_off) - INR j).
Proof.
  intros n_on n_off x xp j Hj. rewrite <- !minus_INR by lia. pose proof (pos_INR j).
  split; apply Rmult_lt_0_compat; try lra; apply lt_0_INR; lia.
Qed.

Section Unimodal.
Variables n_on n_off : nat.
Variable x : R.
Hypothesis xp : 0 < x.
Let w := ww n_on n_off x.
Variable km : nat.
Hypothesis kmle : (km <= n_on)%nat.
Hypothesis up : forall j, (j < km)%nat -> (INR j + 1) * (INR (n_on + n_off) - INR j) <= x * (INR n_on - INR j).
Hypothesis down : forall j, (km <= j < n_on)%nat -> x * (INR n_on - INR j) <= (INR j + 1) * (INR (n_on + n_off) - INR j).

Lemma w_up1 : forall j, (j < km)%nat -> w j <= w (S j).
Proof.
  intros j Hj. pose proof (up j Hj). pose proof (ww_step n_on n_off x j ltac:(lia)) as E. fold w in E.
  pose proof (coef_pos n_on n_off x xp j ltac:(lia)) as [A B]. pose proof (ww_pos n_on n_off x (S j) xp : 0 < w (S j)). pose proof (ww_pos n_on n_off x j xp : 0 < w j).
  set (a := x * _) in *. set (b := (INR j + 1) * _) in *. nra.
Qed.
Lemma w_down1 : forall j, (km <= j < n_on)%nat -> w (S j) <= w j.
Proof.
  intros j Hj. pose proof (down j Hj). pose proof (ww_step n_on n_off x j ltac:(lia)) as E. fold w in E.
  pose proof (coef_pos n_on n_off x xp j ltac:(lia)) as [A B]. pose proof (ww_pos n_on n_off x (S j) xp : 0 < w (S j)). pose proof (ww_pos n_on n_off x j xp : 0 < w j).
  set (a := x * _) in *. set (b := (INR j + 1) * _) in *. nra.
Qed.
Lemma w_up : forall i j, (i <= j <= km)%nat -> w i <= w j.
Proof.
  intros i j. induction j as [|j IH]; intros H; [assert (i = 0)%nat as -> by lia; lra|].
  destruct (Nat.eq_dec i (S j)) as [->|N]; [lra|]. pose proof (IH ltac:(lia)). pose proof (w_up1 j ltac:(lia)). lra.
Qed.
Lemma w_down : forall i j, (km <= i <= j)%nat -> (j <= n_on)%nat -> w j <= w i.
Proof.
  intros i j. induction j as [|j IH]; intros H L; [assert (i = 0)%nat as -> by lia; lra|].
  destruct (Nat.eq_dec i (S j)) as [->|N]; [lra|]. pose proof (IH ltac:(lia) ltac:(lia)).
  pose proof (w_down1 j ltac:(lia)). lra.
Qed.
End Unimodal.

(** ** The two loops *)
Section Loops.
Variables n_on n_off : nat.
Variable stt : R.
Hypothesis sp : 0 < stt.
Variables low s t_on C : R.
Hypothesis Cp : 0 < C.
Let w := ww n_on n_off stt.
Let d (i : nat) := w i * (INR i / s - t_on).

Lemma sl_of_sld_down : forall count k term slike dsl nt,
  sl_down n_on n_off stt low count k term slike nt =
  let '(a, _, b) := sld_down n_on n_off stt low s t_on count k term slike dsl nt in (a, b).
Proof.
  induction count as [|m IH]; intros; cbn [sl_down sld_down]; [reflexivity|]. cbv zeta.
  destruct (Rltb low _); [apply IH|reflexivity].
Qed.
Lemma sl_of_sld_up : forall count k term slike dsl nt,
  sl_up n_on n_off stt low count k term slike nt =
  let '(a, _, b) := sld_up n_on n_off stt low s t_on count k term slike dsl nt in (a, b).
Proof.
  induction count as [|m IH]; intros; cbn [sl_up sld_up]; [reflexivity|]. cbv zeta.
  destruct (Rltb low _); [apply IH|reflexivity].
Qed.

Lemma sld_down_spec : forall k slike dsl nt, (k <= n_on)%nat ->
  exists a, (a <= k)%nat /\
    sld_down n_on n_off stt low s t_on k (Z.of_nat k) (C * w k) slike dsl nt
      = (slike + C * sum_over a (k - a) w, dsl + C * sum_over a (k - a) d, (nt + (k - a))%nat)
    /\ ((0 < a)%nat -> (a < k)%nat /\ C * w a <= low)
    /\ (forall i, (a < i < k)%nat -> low < C * w i).
Proof.
  induction k as [|k IH]; intros slike dsl nt Hk.
  - exists 0%nat. refine (conj (le_n _) (conj _ (conj _ _))).
    + cbn [sld_down Nat.sub]. rewrite !so_0. f_equal; [f_equal; ring|lia].
    + lia.
    + intros; lia.
  - cbn [sld_down]. cbv zeta. replace (Z.of_nat (S k) - 1)%Z with (Z.of_nat k) by lia. rewrite <- !INR_IZR_INZ.
    assert (E : C * w (S k) * (INR (n_on + n_off) - INR k) * (INR k + 1) / (stt * (INR n_on - INR k)) = C * w k).
    { pose proof (ww_step n_on n_off stt k ltac:(lia)) as V. fold w in V.
      pose proof (coef_pos n_on n_off stt sp k ltac:(lia)) as [A B].
      replace (C * w (S k) * (INR (n_on + n_off) - INR k) * (INR k + 1) / (stt * (INR n_on - INR k))) with
       (C * (w (S k) * ((INR k + 1) * (INR (n_on + n_off) - INR k))) / (stt * (INR n_on - INR k))) by (unfold Rdiv; ring).
      rewrite V. set (c := stt * (INR n_on - INR k)) in *. field. lra. }
    rewrite E. destruct (Rltb low (C * w k)) eqn:L.
    + apply Rltb_spec in L. destruct (IH (slike + C * w k) (dsl + C * w k * (INR k / s - t_on)) (S nt) ltac:(lia)) as (a & Ha & Er & H1 & H2).
      exists a. refine (conj _ (conj _ (conj _ _))); [lia| | |].
      * rewrite Er. replace (S k - a)%nat with (S (k - a)) by lia. rewrite !so_end.
        replace (a + (k - a))%nat with k by lia. change (d k) with (w k * (INR k / s - t_on)). f_equal; [f_equal; ring|lia].
      * intros P. destruct (H1 P). split; [lia|assumption].
      * intros i Hi. destruct (Nat.eq_dec i k) as [->|N]; [exact L|apply H2; lia].
    + apply Rltb_false in L. exists k. refine (conj _ (conj _ (conj _ _))); [lia| | |].
      * replace (S k - k)%nat with 1%nat by lia. rewrite !so_front, !so_0. unfold d. f_equal; [f_equal; ring|lia].
      * intros _. split; [lia|lra].
      * intros; lia.
Qed.

Lemma sld_up_spec : forall count k slike dsl nt, (k + count = n_on)%nat ->
  exists b, (k <= b <= n_on)%nat /\
    sld_up n_on n_off stt low s t_on count (Z.of_nat k) (C * w k) slike dsl nt
      = (slike + C * sum_over (S k) (b - k) w, dsl + C * sum_over (S k) (b - k) d, (nt + (b - k))%nat)
    /\ ((b < n_on)%nat -> (k < b)%nat /\ C * w b <= low)
    /\ (forall i, (k < i < b)%nat -> low < C * w i).
Proof.
  induction count as [|m IH]; intros k slike dsl nt Hk.
  - exists k. refine (conj _ (conj _ (conj _ _))); [lia| | |].
    + cbn [sld_up]. rewrite Nat.sub_diag, !so_0. f_equal; [f_equal; ring|lia].
    + lia.
    + intros; lia.
  - cbn [sld_up]. cbv zeta. replace (Z.of_nat k + 1)%Z with (Z.of_nat (S k)) by lia. rewrite <- !INR_IZR_INZ.
    assert (E : C * w k * stt * (INR n_on - INR (S k) + 1) / (INR (S k) * (INR (n_on + n_off) - INR (S k) + 1)) = C * w (S k)).
    { pose proof (ww_step n_on n_off stt k ltac:(lia)) as V. fold w in V.
      pose proof (coef_pos n_on n_off stt sp k ltac:(lia)) as [A B]. rewrite S_INR.
      replace (INR n_on - (INR k + 1) + 1) with (INR n_on - INR k) by ring.
      replace (INR (n_on + n_off) - (INR k + 1) + 1) with (INR (n_on + n_off) - INR k) by ring.
      replace (C * w k * stt * (INR n_on - INR k)) with (C * (w k * (stt * (INR n_on - INR k)))) by ring.
      rewrite <- V. set (c := (INR k + 1) * _) in *. field. lra. }
    rewrite E. destruct (Rltb low (C * w (S k))) eqn:L.
    + apply Rltb_spec in L. destruct (IH (S k) (slike + C * w (S k)) (dsl + C * w (S k) * (INR (S k) / s - t_on)) (S nt) ltac:(lia)) as (b & Hb & Er & H1 & H2).
      exists b. refine (conj _ (conj _ (conj _ _))); [lia| | |].
      * rewrite Er. replace (b - k)%nat with (S (b - S k)) by lia. rewrite !so_front.
        change (d (S k)) with (w (S k) * (INR (S k) / s - t_on)). f_equal; [f_equal; ring|lia].
      * intros P. destruct (H1 P). split; [lia|assumption].
      * intros i Hi. destruct (Nat.eq_dec i (S k)) as [->|N]; [exact L|apply H2; lia].
    + apply Rltb_false in L. exists (S k). refine (conj _ (conj _ (conj _ _))); [lia| | |].
      * replace (S k - k)%nat with 1%nat by lia. rewrite !so_front, !so_0. unfold d. f_equal; [f_equal; ring|lia].
      * intros _. split; [lia|lra].
      * intros; lia.
Qed.
End Loops.
