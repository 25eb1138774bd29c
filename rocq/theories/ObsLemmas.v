(** Extrapolation of second differences. *)

From Coq Require Import List Bool Arith Reals Lra Lia.
From Verif Require Import Exn Instances CountSpec CountLemmas McModel BaModel BaSpec BaLemmas ObsModel ObsSpec.
Import ListNotations.
Open Scope R_scope.

Lemma rds_upd : forall i v p j, (i < length p)%nat -> rds (upd i (Some v) p) j = if Nat.eqb j i then Ok v else rds p j.
Proof. intros i v p j H. unfold rds. rewrite rd_upd by exact H. now destruct (Nat.eqb j i). Qed.

Lemma ratio_pos : 0 < ratio. Proof. unfold ratio. lra. Qed.
Lemma ratio_lt1 : ratio < 1. Proof. unfold ratio. lra. Qed.
Lemma con2_gt1 : 1 < 1 / ratio * (1 / ratio).
Proof.
  pose proof ratio_pos. pose proof ratio_lt1.
  assert (1 < 1 / ratio) by (apply Rmult_lt_reg_r with ratio; [assumption|]; unfold Rdiv; rewrite Rmult_assoc, Rinv_l; lra). nra.
Qed.
Lemma big_pos : 0 < big. Proof. unfold big. apply IZR_lt. reflexivity. Qed.

Lemma reqb_ne : forall a b, a <> b -> Reqb a b = false.
Proof. intros a b H. destruct (Reqb a b) eqn:E; [|reflexivity]. apply Reqb_spec in E. contradiction. Qed.
Lemma rleb_yes : forall a b, a <= b -> Rleb a b = true.
Proof. intros a b H. now apply Rleb_spec. Qed.
Lemma rleb_no : forall a b, b < a -> Rleb a b = false.
Proof. intros a b H. apply Rleb_false. lra. Qed.

Lemma rid_stopped : forall y n l s, iter l (rid_outer y n) (s, true) = Ok (s, true).
Proof. intros y n l. induction l as [|i l IH]; intros s; [reflexivity|]. cbn [iter]. unfold rid_outer at 1. apply IH. Qed.

(** One element of the tableau *)
Lemma inner_step : forall n i j a err result fac p q v,
  rds a ((i - 1) * n + (j - 2)) = Ok p -> rds a ((i - 2) * n + (j - 2)) = Ok q -> 1 < fac -> (p * fac - q) / (fac - 1) = v ->
  ((i - 1) * n + (j - 1) < length a)%nat ->
  rid_inner n i j (Rid a err result, fac) =
    Ok (if Rleb (Rmax (Rabs (v - p)) (Rabs (v - q))) err then Rid (upd ((i - 1) * n + (j - 1)) (Some v) a) (Rmax (Rabs (v - p)) (Rabs (v - q))) (Some v)
        else Rid (upd ((i - 1) * n + (j - 1)) (Some v) a) err result, 1 / ratio * (1 / ratio) * fac).
Proof.
  intros n i j a err result fac p q v Hp Hq Hf Hv L. unfold rid_inner. cbn [rid_a rid_err rid_result].
  rewrite Hp, Hq, reqb_ne by lra. rewrite Hv, wr_ok by exact L. reflexivity.
Qed.

Lemma eqb_no : forall a b : nat, a <> b -> Nat.eqb a b = false.
Proof. intros. now apply Nat.eqb_neq. Qed.

(** Differences that depend on the step as c + d h^2: the result is c. *)
Lemma rid_even : forall y n c d, (2 <= n)%nat -> (forall i, (1 <= i <= n)%nat -> rds y (n - i) = Ok (c + d * (ratio ^ (i - 1)) ^ 2)) -> Rabs d <= big ->
  rid_ex y n = Ok (Some c, if Nat.eqb n 2 then Rabs d else 0).
Proof.
  intros y n c d N Hy Hd. pose proof ratio_pos as RP. pose proof ratio_lt1 as RL. pose proof con2_gt1 as CG.
  set (con2 := 1 / ratio * (1 / ratio)) in *.
  assert (CR : con2 * ratio ^ 2 = 1) by (unfold con2; field; lra).
  assert (NN : (2 * n <= n * n)%nat) by nia.
  unfold rid_ex. rewrite (Hy 1%nat) by lia. rewrite wr_ok by (rewrite repeat_length; lia).
  replace (seq 2 (n - 1)) with (2 :: seq 3 (n - 2))%nat by (replace (n - 1)%nat with (S (n - 2)) by lia; reflexivity).
  cbn [iter]. unfold rid_outer at 1. cbn [rid_a rid_err rid_result].
  set (y1 := c + d * (ratio ^ (1 - 1)) ^ 2). set (a1 := upd 0 (Some y1) (repeat None (n * n))).
  assert (L1 : length a1 = (n * n)%nat) by (unfold a1; rewrite upd_len, repeat_length; [reflexivity|rewrite repeat_length; lia]).
  rewrite (Hy 2%nat) by lia. rewrite wr_ok by (rewrite L1; lia).
  set (y2 := c + d * (ratio ^ (2 - 1)) ^ 2). set (a2 := upd ((2 - 1) * n) (Some y2) a1).
  assert (L2 : length a2 = (n * n)%nat) by (unfold a2; rewrite upd_len; [exact L1|rewrite L1; lia]).
  assert (R11 : rds a1 0 = Ok y1) by (unfold a1; rewrite rds_upd by (rewrite repeat_length; lia); reflexivity).
  assert (Q11 : rds a2 0 = Ok y1) by (unfold a2; rewrite rds_upd by (rewrite L1; lia); rewrite eqb_no by lia; exact R11).
  assert (Q12 : rds a2 n = Ok y2) by (unfold a2; rewrite rds_upd by (rewrite L1; lia); replace ((2 - 1) * n)%nat with n by lia; now rewrite Nat.eqb_refl).
  replace (seq 2 (2 - 1)) with [2%nat] by reflexivity. cbn [iter]. fold con2.
  assert (V2 : (y2 * con2 - y1) / (con2 - 1) = c).
  { unfold y1, y2. cbn [Nat.sub pow]. replace ((c + d * (ratio * 1 * (ratio * 1 * 1))) * con2) with (c * con2 + d * (con2 * ratio ^ 2)) by ring. rewrite CR. field. lra. }
  rewrite (inner_step n 2 2 a2 big None con2 y2 y1 c); [|replace ((2 - 1) * n + (2 - 2))%nat with n by lia; exact Q12|replace ((2 - 2) * n + (2 - 2))%nat with 0%nat by lia; exact Q11|exact CG|exact V2|rewrite L2; lia].
  assert (A1 : Rabs (c - y1) = Rabs d) by (unfold y1; cbn [Nat.sub pow]; replace (c - _) with (- d) by ring; apply Rabs_Ropp).
  assert (A2 : Rabs (c - y2) = Rabs d * ratio ^ 2).
  { unfold y2. cbn [Nat.sub pow]. replace (c - _) with (- (d * ratio ^ 2)) by ring. rewrite Rabs_Ropp, Rabs_mult. f_equal. apply Rabs_pos_eq. nra. }
  assert (D0 := Rabs_pos d).
  assert (M2 : Rmax (Rabs (c - y2)) (Rabs (c - y1)) = Rabs d) by (rewrite A1, A2; apply Rmax_right; nra).
  rewrite M2, rleb_yes by exact Hd. fold con2.
  set (a3 := upd ((2 - 1) * n + (2 - 1)) (Some c) a2).
  assert (L3 : length a3 = (n * n)%nat) by (unfold a3; rewrite upd_len; [exact L2|rewrite L2; lia]).
  assert (S11 : rds a3 0 = Ok y1) by (unfold a3; rewrite rds_upd by (rewrite L2; lia); rewrite eqb_no by lia; exact Q11).
  assert (S12 : rds a3 n = Ok y2) by (unfold a3; rewrite rds_upd by (rewrite L2; lia); rewrite eqb_no by lia; exact Q12).
  assert (S22 : rds a3 (n + 1) = Ok c) by (unfold a3; rewrite rds_upd by (rewrite L2; lia); replace ((2 - 1) * n + (2 - 1))%nat with (n + 1)%nat by lia; now rewrite Nat.eqb_refl).
  cbn [fst rid_a rid_err].
  replace ((2 - 1) * n + (2 - 1))%nat with (n + 1)%nat by lia. replace ((2 - 2) * n + (2 - 2))%nat with 0%nat by lia.
  rewrite S22, S11. rewrite A1.
  destruct (Req_dec d 0) as [D|D].
  { rewrite D, Rabs_R0, rleb_yes by lra. rewrite rid_stopped. cbn [fst rid_result rid_err]. now destruct (Nat.eqb n 2). }
  assert (DP : 0 < Rabs d) by now apply Rabs_pos_lt.
  rewrite rleb_no by lra.
  destruct (Nat.eq_dec n 2) as [E|E].
  { replace (n - 2)%nat with 0%nat by lia. cbn [seq iter]. cbn [fst rid_result rid_err]. rewrite (proj2 (Nat.eqb_eq n 2) E). reflexivity. }
  assert (N3 : (3 * n <= n * n)%nat) by nia.
  replace (seq 3 (n - 2)) with (3 :: seq 4 (n - 3))%nat by (replace (n - 2)%nat with (S (n - 3)) by lia; reflexivity).
  cbn [iter]. unfold rid_outer at 1. cbn [rid_a rid_err rid_result].
  rewrite (Hy 3%nat) by lia. rewrite wr_ok by (rewrite L3; lia).
  set (y3 := c + d * (ratio ^ (3 - 1)) ^ 2). set (a4 := upd ((3 - 1) * n) (Some y3) a3).
  assert (L4 : length a4 = (n * n)%nat) by (unfold a4; rewrite upd_len; [exact L3|rewrite L3; lia]).
  assert (T12 : rds a4 n = Ok y2) by (unfold a4; rewrite rds_upd by (rewrite L3; lia); rewrite eqb_no by lia; exact S12).
  assert (T22 : rds a4 (n + 1) = Ok c) by (unfold a4; rewrite rds_upd by (rewrite L3; lia); rewrite eqb_no by lia; exact S22).
  assert (T13 : rds a4 (2 * n) = Ok y3) by (unfold a4; rewrite rds_upd by (rewrite L3; lia); replace ((3 - 1) * n)%nat with (2 * n)%nat by lia; now rewrite Nat.eqb_refl).
  replace (seq 2 (3 - 1)) with [2%nat; 3%nat] by reflexivity. cbn [iter]. fold con2.
  assert (V3 : (y3 * con2 - y2) / (con2 - 1) = c).
  { unfold y3, y2. replace (3 - 1)%nat with 2%nat by reflexivity. replace (2 - 1)%nat with 1%nat by reflexivity.
    replace ((c + d * (ratio ^ 2) ^ 2) * con2) with (c * con2 + d * ratio ^ 2 * (con2 * ratio ^ 2)) by ring. rewrite CR. field. lra. }
  rewrite (inner_step n 3 2 a4 (Rabs d) (Some c) con2 y3 y2 c); [|replace ((3 - 1) * n + (2 - 2))%nat with (2 * n)%nat by lia; exact T13|replace ((3 - 2) * n + (2 - 2))%nat with n by lia; exact T12|exact CG|exact V3|rewrite L4; lia].
  assert (A3 : Rabs (c - y3) = Rabs d * ratio ^ 4).
  { unfold y3. replace (3 - 1)%nat with 2%nat by reflexivity. replace (c - _) with (- (d * ratio ^ 4)) by ring. rewrite Rabs_Ropp, Rabs_mult. f_equal. apply Rabs_pos_eq. apply pow_le. lra. }
  assert (M3 : Rmax (Rabs (c - y3)) (Rabs (c - y2)) = Rabs d * ratio ^ 2).
  { rewrite A3, A2. apply Rmax_right. apply Rmult_le_compat_l; [exact D0|]. replace (ratio ^ 4) with (ratio ^ 2 * ratio ^ 2) by ring. nra. }
  rewrite M3, rleb_yes by nra. fold con2.
  set (a5 := upd ((3 - 1) * n + (2 - 1)) (Some c) a4).
  assert (L5 : length a5 = (n * n)%nat) by (unfold a5; rewrite upd_len; [exact L4|rewrite L4; lia]).
  assert (U22 : rds a5 (n + 1) = Ok c) by (unfold a5; rewrite rds_upd by (rewrite L4; lia); rewrite eqb_no by lia; exact T22).
  assert (U23 : rds a5 (2 * n + 1) = Ok c) by (unfold a5; rewrite rds_upd by (rewrite L4; lia); replace ((3 - 1) * n + (2 - 1))%nat with (2 * n + 1)%nat by lia; now rewrite Nat.eqb_refl).
  assert (G2 : 1 < con2 * con2) by nra.
  rewrite (inner_step n 3 3 a5 (Rabs d * ratio ^ 2) (Some c) (con2 * con2) c c c); [|replace ((3 - 1) * n + (3 - 2))%nat with (2 * n + 1)%nat by lia; exact U23|replace ((3 - 2) * n + (3 - 2))%nat with (n + 1)%nat by lia; exact U22|exact G2|field; lra|rewrite L5; lia].
  replace (c - c) with 0 by ring. rewrite Rabs_R0, Rmax_left by lra. rewrite rleb_yes by nra.
  set (a6 := upd ((3 - 1) * n + (3 - 1)) (Some c) a5).
  assert (W33 : rds a6 (2 * n + 2) = Ok c) by (unfold a6; rewrite rds_upd by (rewrite L5; lia); replace ((3 - 1) * n + (3 - 1))%nat with (2 * n + 2)%nat by lia; now rewrite Nat.eqb_refl).
  assert (W22 : rds a6 (n + 1) = Ok c) by (unfold a6; rewrite rds_upd by (rewrite L5; lia); rewrite eqb_no by lia; exact U22).
  cbn [fst rid_a rid_err].
  replace ((3 - 1) * n + (3 - 1))%nat with (2 * n + 2)%nat by lia. replace ((3 - 2) * n + (3 - 2))%nat with (n + 1)%nat by lia.
  rewrite W33, W22. replace (c - c) with 0 by ring. rewrite Rabs_R0, rleb_yes by lra.
  rewrite rid_stopped. cbn [fst rid_result rid_err]. now rewrite eqb_no by exact E.
Qed.
