(** Two extrapolations: terms of the sixth degree. *)

From Coq Require Import List Bool Arith Reals Lra Lia.
From Verif Require Import Exn Instances CountSpec CountLemmas McModel McLemmas9 BaModel BaSpec BaLemmas ObsModel ObsSpec ObsLemmas ObsLemmas2 ObsLemmas3 ObsLemmas4.
Import ListNotations.
Open Scope R_scope.

Lemma Rabs_ge_of : forall x m, (m <= x \/ m <= - x) -> m <= Rabs x.
Proof. intros x m H. unfold Rabs. destruct (Rcase_abs x); lra. Qed.
Lemma abs_tri : forall a b, Rabs a - Rabs b <= Rabs (a + b).
Proof. intros a b. unfold Rabs. destruct (Rcase_abs a), (Rcase_abs b), (Rcase_abs (a + b)); lra. Qed.

Lemma rid_three : forall y c d e, rds y 2 = Ok (c + d + e) -> rds y 1 = Ok (c + d * ratio ^ 2 + e * ratio ^ 4) -> rds y 0 = Ok (c + d * ratio ^ 4 + e * ratio ^ 8) ->
  2 * Rabs e <= Rabs d -> 2 * Rabs d <= big -> rid_ex y 3 = Ok (Some c, Rabs e * ratio ^ 2).
Proof.
  intros y c d e Y2 Y1 Y0 DE DB. pose proof ratio_pos as RP. pose proof ratio_lt1 as RL. pose proof con2_gt1 as CG. set (con2 := 1 / ratio * (1 / ratio)) in *.
  assert (CR : con2 * ratio ^ 2 = 1) by (unfold con2; field; lra). assert (Q1 : ratio ^ 2 < 1 / 2) by (unfold ratio; lra). assert (Q0 : 0 < ratio ^ 2) by nra.
  set (q := ratio ^ 2) in *. replace (ratio ^ 4) with (q ^ 2) in * by (unfold q; ring). replace (ratio ^ 8) with (q ^ 4) in * by (unfold q; ring).
  assert (C0 := Rabs_pos e). assert (Cq : con2 = 1 / q) by (apply Rmult_eq_reg_r with q; [rewrite CR; field|]; lra).
  assert (E0 : 0 <= Rabs e * q) by nra.
  unfold rid_ex. cbn [Nat.sub]. rewrite Y2. cbn [Nat.mul Nat.add repeat wr length Nat.ltb Nat.leb upd firstn skipn app seq iter].
  unfold rid_outer at 1. cbn [Nat.sub]. rewrite Y1. cbn [rid_a rid_err rid_result Nat.mul Nat.add wr length Nat.ltb Nat.leb upd firstn skipn app seq iter]. fold con2.
  set (y1 := c + d + e). set (y2 := c + d * q + e * q ^ 2). set (y3 := c + d * q ^ 2 + e * q ^ 4).
  set (a22 := c - e * q). set (a23 := c - e * q ^ 3).
  assert (V22 : (y2 * con2 - y1) / (con2 - 1) = a22) by (rewrite Cq; unfold y1, y2, a22; field; lra).
  assert (V23 : (y3 * con2 - y2) / (con2 - 1) = a23) by (rewrite Cq; unfold y2, y3, a23; field; lra).
  assert (V33 : (a23 * (con2 * con2) - a22) / (con2 * con2 - 1) = c) by (rewrite Cq; unfold a22, a23; field; split; [lra|nra]).
  assert (G2 : 1 < con2 * con2) by nra.
  match goal with |- context [rid_inner 3 2 2 (Rid ?a big None, con2)] => rewrite (inner_step 3 2 2 a big None con2 y2 y1 a22 eq_refl eq_refl CG V22 ltac:(cbn; lia)) end.
  set (E22 := Rmax (Rabs (a22 - y2)) (Rabs (a22 - y1))).
  assert (B1 : Rabs (a22 - y1) <= big).
  { eapply Rle_trans; [|exact DB]. unfold a22, y1. replace (c - e * q - (c + d + e)) with (- (d + (1 + q) * e)) by ring. rewrite Rabs_Ropp.
    eapply Rle_trans; [apply Rabs_triang|]. rewrite Rabs_mult, (Rabs_pos_eq (1 + q)) by lra. nra. }
  assert (B2 : Rabs (a22 - y2) <= big).
  { eapply Rle_trans; [|exact DB]. unfold a22, y2. replace (c - e * q - (c + d * q + e * q ^ 2)) with (- (q * (d + (1 + q) * e))) by ring. rewrite Rabs_Ropp, Rabs_mult, (Rabs_pos_eq q) by lra.
    assert (T : Rabs (d + (1 + q) * e) <= 2 * Rabs d) by (eapply Rle_trans; [apply Rabs_triang|]; rewrite Rabs_mult, (Rabs_pos_eq (1 + q)) by lra; nra). assert (P := Rabs_pos (d + (1 + q) * e)). nra. }
  assert (L22 : Rabs e * q <= E22).
  { eapply Rle_trans; [|apply Rmax_r]. unfold a22, y1. replace (c - e * q - (c + d + e)) with (- (d + (1 + q) * e)) by ring. rewrite Rabs_Ropp.
    eapply Rle_trans; [|apply abs_tri]. rewrite Rabs_mult, (Rabs_pos_eq (1 + q)) by lra. nra. }
  rewrite rleb_yes by (apply Rmax_lub; assumption).
  cbn [fst rid_a rid_err rid_result Nat.mul Nat.sub Nat.add upd firstn skipn app]. unfold rds at 1, rd at 1. cbn [nth_error]. unfold rds at 1, rd at 1. cbn [nth_error].
  destruct (Rleb (2 * E22) (Rabs (a22 - y1))) eqn:St.
  { apply Rleb_spec in St. assert (LE : Rabs (a22 - y1) <= E22) by apply Rmax_r. assert (Z : E22 <= 0) by (assert (P := Rabs_pos (a22 - y1)); lra).
    assert (EZ : Rabs e = 0) by nra. assert (e = 0) by (destruct (Req_dec e 0); [assumption|]; assert (0 < Rabs e) by (now apply Rabs_pos_lt); lra).
    unfold rid_outer. cbn [fst rid_result rid_err]. replace a22 with c by (unfold a22; subst e; ring). rewrite EZ. replace E22 with 0 by nra. do 2 f_equal. ring. }
  unfold rid_outer at 1. cbn [Nat.sub]. rewrite Y0. cbn [rid_a rid_err rid_result Nat.mul Nat.add wr length Nat.ltb Nat.leb upd firstn skipn app seq iter]. fold con2. fold y3.
  match goal with |- context [rid_inner 3 3 2 (Rid ?a E22 (Some a22), con2)] => rewrite (inner_step 3 3 2 a E22 (Some a22) con2 y3 y2 a23 eq_refl eq_refl CG V23 ltac:(cbn; lia)) end.
  set (E23 := Rmax (Rabs (a23 - y3)) (Rabs (a23 - y2))).
  assert (L23 : Rabs e * q <= E23).
  { eapply Rle_trans; [|apply Rmax_r]. unfold a23, y2. replace (c - e * q ^ 3 - (c + d * q + e * q ^ 2)) with (- (q * (d + (q + q ^ 2) * e))) by ring. rewrite Rabs_Ropp, Rabs_mult, (Rabs_pos_eq q) by lra.
    assert (T : Rabs e <= Rabs (d + (q + q ^ 2) * e)).
    { eapply Rle_trans; [|apply abs_tri]. rewrite Rabs_mult, (Rabs_pos_eq (q + q ^ 2)) by nra. assert (q + q ^ 2 <= 1) by nra. nra. }
    nra. }
  assert (F : forall err a r, Rabs e * q <= err -> rds a 7 = Ok a23 -> rds a 4 = Ok a22 -> (8 < length a)%nat ->
    rid_inner 3 3 3 (Rid a err r, con2 * con2) = Ok (Rid (upd 8 (Some c) a) (Rabs e * q) (Some c), 1 / ratio * (1 / ratio) * (con2 * con2))).
  { intros err a r Le A7 A4 L. rewrite (inner_step 3 3 3 a err r (con2 * con2) a23 a22 c A7 A4 G2 V33 L).
    assert (M : Rmax (Rabs (c - a23)) (Rabs (c - a22)) = Rabs e * q).
    { unfold a22, a23. replace (c - (c - e * q ^ 3)) with (e * q ^ 3) by ring. replace (c - (c - e * q)) with (e * q) by ring. rewrite !Rabs_mult, (Rabs_pos_eq (q ^ 3)), (Rabs_pos_eq q) by (try apply pow_le; lra).
      apply Rmax_right. apply Rmult_le_compat_l; [exact C0|]. replace (q ^ 3) with (q * (q * q)) by ring. nra. }
    rewrite M, rleb_yes by exact Le. reflexivity. }
  destruct (Rleb E23 E22); rewrite F by (assumption || reflexivity || (cbn; lia)); cbn [fst rid_a rid_err rid_result Nat.mul Nat.sub Nat.add upd firstn skipn app]; unfold rds, rd; cbn [nth_error fst rid_result rid_err]; reflexivity.
Qed.

(** One parameter, two extrapolations *)
Lemma obsinfo_sixth : forall lf m d maxll top Q k4 k6, d <> 0 -> (maxll = None \/ maxll = Some top) -> lf [m] = Ok top ->
  (forall t, exists a b, lf [m + t] = Ok a /\ lf [m - t] = Ok b /\ a + b = 2 * top - Q * t ^ 2 + k4 * t ^ 4 + k6 * t ^ 6) ->
  2 * (Rabs k6 * d ^ 2) <= Rabs k4 -> 2 * (Rabs k4 * d ^ 2) <= big ->
  obsinfo lf [d] maxll 2 [m] = ([m], Ok (Mat 1 1 [Q], Mat 1 1 [Rabs k6 * d ^ 4 * ratio ^ 2])).
Proof.
  intros lf m d maxll top Q k4 k6 D HM T H B1 B2.
  assert (E : obsinfo lf [d] maxll 2 [m] = ninfol lf top [d] 3 [m]).
  { unfold obsinfo, bind at 1, get. unfold bind at 1. assert (X : match maxll with Some v => ret v | None => call_lf lf end [m] = ([m], Ok top)) by (destruct HM as [->| ->]; [unfold call_lf; now rewrite T|reflexivity]).
    rewrite X. reflexivity. }
  rewrite E. clear E. unfold ninfol, bind at 1, get. cbn [length seq over]. unfold bind at 1, bind at 1. unfold diag_one, bind at 1, get_mu. cbn [rd nth_error]. unfold bind at 1, lift at 1. cbn [rd nth_error]. unfold bind at 1.
  pose proof ratio_pos as RP. assert (D2 : 0 < d ^ 2) by nra.
  destruct (diag_diffs_ok lf top m d 0 3 (fun j => - Q + k4 * d ^ 2 * (ratio ^ (3 - j)) ^ 2 + k6 * d ^ 4 * (ratio ^ (3 - j)) ^ 4) [m] ltac:(cbn; lia)) with (m := 3%nat) (lo := 1%nat) (d2f := repeat (@None R) 3) (t := m) as [d2f [t [E Y]]];
    [|lia|lia|reflexivity|intros; lia|].
  { intros j Hj. assert (P : 0 < ratio ^ (3 - j)) by now apply pow_lt. destruct (H (d * ratio ^ (3 - j))) as [a [b [Ha [Hb Hab]]]]. exists a, b. cbn [upd firstn skipn app]. split; [exact Ha|]. split; [exact Hb|].
    unfold quot. rewrite reqb_ne by (apply Rmult_integral_contrapositive_currified; apply Rmult_integral_contrapositive_currified; lra). rewrite Hab. f_equal. field. split; lra. }
  cbn [upd firstn skipn app] in E. rewrite E. cbn [Nat.ltb Nat.leb]. unfold bind at 1, bind at 1, lift at 1. unfold extrapolated.
  assert (A4 : Rabs (k4 * d ^ 2) = Rabs k4 * d ^ 2) by (rewrite Rabs_mult, (Rabs_pos_eq (d ^ 2)) by lra; reflexivity).
  assert (A6 : Rabs (k6 * d ^ 4) = Rabs k6 * d ^ 4) by (rewrite Rabs_mult, (Rabs_pos_eq (d ^ 4)) by (replace (d ^ 4) with (d ^ 2 * d ^ 2) by ring; nra); reflexivity).
  rewrite (rid_three d2f (- Q) (k4 * d ^ 2) (k6 * d ^ 4)).
  - cbn [fst snd]. rewrite A6. unfold ret at 1. rewrite Ropp_involutive. rewrite Rabs_pos_eq.
    + unfold bind, lift, ret, set_mu. cbn. reflexivity.
    + assert (0 <= Rabs k6) by apply Rabs_pos. apply Rmult_le_pos; [apply Rmult_le_pos; [assumption|replace (d ^ 4) with (d ^ 2 * d ^ 2) by ring; nra]|apply pow_le; lra].
  - change 2%nat with (3 - 1)%nat at 1. rewrite (Y 3%nat) by lia. f_equal. cbn [Nat.sub pow]. ring.
  - change 1%nat with (2 - 1)%nat at 1. rewrite (Y 2%nat) by lia. f_equal. cbn [Nat.sub pow]. ring.
  - change 0%nat with (1 - 1)%nat at 1. rewrite (Y 1%nat) by lia. f_equal. cbn [Nat.sub pow]. ring.
  - rewrite A4, A6. replace (d ^ 4) with (d ^ 2 * d ^ 2) by ring. assert (0 <= Rabs k6) by apply Rabs_pos. nra.
  - rewrite A4. exact B2.
Qed.
