(** Lemmas for piecewise linear densities: one interval. *)

From Coq Require Import ZArith List Bool Arith Reals Lia Lra.
From Coquelicot Require Import Coquelicot.
From Verif Require Import Exn Instances CountSpec HpdLemmas McModel McSpec PwlModel PwlSpec.
Import ListNotations.
Open Scope R_scope.

Lemma zero_int : forall c d : R, is_RInt (fun _ : R => 0) c d 0.
Proof. intros c d. pose proof (is_RInt_const (V := R_NormedModule) c d 0) as H. replace (scal (d - c) (0 : R_NormedModule)) with (0 : R) in H by (unfold scal; cbn; unfold mult; cbn; ring). exact H. Qed.

Section One.
Variables lo hi p q : R.
Hypothesis LH : lo < hi.
Hypothesis P0 : 0 <= p.
Hypothesis Q0 : 0 <= q.
Hypothesis PQ : 0 < p + q.
Definition cum (x : R) : R := p * (x - lo) + (q - p) * (x - lo) ^ 2 / (2 * (hi - lo)).
Let A := (p + q) / 2 * (hi - lo).
Lemma A_pos : 0 < A. Proof. unfold A. apply Rmult_lt_0_compat; lra. Qed.
Lemma cum_lo : cum lo = 0. Proof. unfold cum. field. lra. Qed.
Lemma cum_hi : cum hi = A. Proof. unfold cum, A. field. lra. Qed.
Lemma cum_int : forall a b, is_RInt (fun x => PwlSpec.line lo hi p q x) a b (cum b - cum a).
Proof.
  intros a b. apply (is_RInt_derive (V := R_CompleteNormedModule) cum).
  - intros x _. unfold cum, PwlSpec.line. auto_derive; [exact I|]. field. lra.
  - intros x _. unfold PwlSpec.line. apply (ex_derive_continuous (V := R_NormedModule)). auto_derive. exact I.
Qed.
Lemma line_nonneg : forall x, lo <= x <= hi -> 0 <= PwlSpec.line lo hi p q x.
Proof.
  intros x X. unfold PwlSpec.line. replace (p + (q - p) * (x - lo) / (hi - lo)) with ((p * (hi - x) + q * (x - lo)) / (hi - lo)) by (field; lra).
  apply Rmult_le_pos; [|apply Rlt_le, Rinv_0_lt_compat; lra]. apply Rplus_le_le_0_compat; apply Rmult_le_pos; lra.
Qed.
Lemma cum_up : forall x y, lo <= x -> x < y -> y <= hi -> cum x < cum y.
Proof.
  intros x y X XY Y. assert (E : cum y - cum x = (y - x) * ((p * (hi - x) + q * (x - lo)) + (p * (hi - y) + q * (y - lo))) / (2 * (hi - lo))) by (unfold cum; field; lra).
  assert (0 < (p * (hi - x) + q * (x - lo)) + (p * (hi - y) + q * (y - lo))).
  { assert (0 <= p * (hi - x)) by (apply Rmult_le_pos; lra). assert (0 <= p * (hi - y)) by (apply Rmult_le_pos; lra).
    assert (0 <= q * (x - lo)) by (apply Rmult_le_pos; lra). assert (0 <= q * (y - lo)) by (apply Rmult_le_pos; lra).
    destruct (Rle_lt_or_eq_dec _ _ P0) as [PP|PE].
    - assert (0 < p * (hi - x)) by (apply Rmult_lt_0_compat; lra). lra.
    - assert (0 < q * (y - lo)) by (apply Rmult_lt_0_compat; lra). lra. }
  assert (0 < cum y - cum x); [|lra]. rewrite E. apply Rmult_lt_0_compat; [apply Rmult_lt_0_compat; lra|apply Rinv_0_lt_compat; lra].
Qed.
Lemma invert_is : forall u, 0 <= u <= 1 -> lo <= invert (lo, hi) (p, q) u <= hi /\ cum (invert (lo, hi) (p, q) u) = u * A.
Proof.
  intros u U. unfold invert. destruct (Reqb p q) eqn:E.
  - apply Reqb_spec in E. split.
    + assert (0 <= (hi - lo) * u) by (apply Rmult_le_pos; lra). assert ((hi - lo) * u <= (hi - lo) * 1) by (apply Rmult_le_compat_l; lra). lra.
    + unfold cum, A. rewrite <- E. field. lra.
  - apply Reqb_false in E. set (Q := p ^ 2 + (q ^ 2 - p ^ 2) * u). set (s := sqrt Q).
    assert (QE : Q = p ^ 2 * (1 - u) + q ^ 2 * u) by (unfold Q; ring).
    assert (QP : 0 <= Q). { rewrite QE. apply Rplus_le_le_0_compat; apply Rmult_le_pos; try lra; apply pow2_ge_0. }
    assert (SQ : s ^ 2 = Q) by (unfold s; now rewrite pow2_sqrt). assert (S0 : 0 <= s) by apply sqrt_pos.
    assert (SB : (p <= s <= q /\ p < q) \/ (q <= s <= p /\ q < p)).
    { destruct (Rlt_le_dec p q) as [L|L]; [left|right]; (split; [|lra]).
      - assert (0 <= (q ^ 2 - p ^ 2) * u) by (apply Rmult_le_pos; [nra|lra]). assert (0 <= (q ^ 2 - p ^ 2) * (1 - u)) by (apply Rmult_le_pos; [nra|lra]).
        split; [destruct (Rle_lt_dec p s) as [HH|HH]; [exact HH|]|destruct (Rle_lt_dec s q) as [HH|HH]; [exact HH|]]; exfalso; unfold Q in SQ; nra.
      - assert (q < p) by lra. assert (0 <= (p ^ 2 - q ^ 2) * u) by (apply Rmult_le_pos; [nra|lra]). assert (0 <= (p ^ 2 - q ^ 2) * (1 - u)) by (apply Rmult_le_pos; [nra|lra]).
        split; [destruct (Rle_lt_dec q s) as [HH|HH]; [exact HH|]|destruct (Rle_lt_dec s p) as [HH|HH]; [exact HH|]]; exfalso; unfold Q in SQ; nra. }
    assert (NZ : q - p <> 0) by lra.
    set (t := (s - p) / (q - p)). assert (T : 0 <= t <= 1).
    { assert (ST : s - p = t * (q - p)) by (unfold t; field; exact NZ). destruct SB as [[SB L]|[SB L]]; split.
      - destruct (Rle_lt_dec 0 t) as [H|H]; [exact H|exfalso; nra].
      - destruct (Rle_lt_dec t 1) as [H|H]; [exact H|exfalso; nra].
      - destruct (Rle_lt_dec 0 t) as [H|H]; [exact H|exfalso; nra].
      - destruct (Rle_lt_dec t 1) as [H|H]; [exact H|exfalso; nra]. }
    replace (lo - (hi - lo) / (q - p) * p + (hi - lo) / (q - p) * s) with (lo + (hi - lo) * t) by (unfold t; field; exact NZ).
    split.
    + assert (0 <= (hi - lo) * t) by (apply Rmult_le_pos; lra). assert ((hi - lo) * t <= (hi - lo) * 1) by (apply Rmult_le_compat_l; lra). lra.
    + unfold cum. replace (lo + (hi - lo) * t - lo) with ((hi - lo) * t) by ring. unfold t. transitivity ((hi - lo) * (s ^ 2 - p ^ 2) / (2 * (q - p))); [field; lra|].
      rewrite SQ. unfold Q, A. field. exact NZ.
Qed.
Lemma quantile : forall u y, 0 <= u <= 1 -> lo <= y <= hi -> (invert (lo, hi) (p, q) u <= y <-> u * A <= cum y).
Proof.
  intros u y U Y. destruct (invert_is u U) as [B E]. rewrite <- E. split; intros H.
  - destruct H as [H|H]; [apply Rlt_le; apply cum_up; lra|rewrite H; lra].
  - destruct (Rle_lt_dec (invert (lo, hi) (p, q) u) y) as [L|L]; [exact L|]. assert (cum y < cum (invert (lo, hi) (p, q) u)) by (apply cum_up; lra). lra.
Qed.
(** What part of the u gives a sample up to y. *)
Definition upto (y : R) : R := cum (Rmin hi (Rmax lo y)).
Lemma cum_range : forall y, lo <= y <= hi -> 0 <= cum y <= A.
Proof.
  intros y Y. rewrite <- cum_lo, <- cum_hi. split.
  - destruct (Rle_lt_or_eq_dec lo y) as [H|H]; [lra|apply Rlt_le, cum_up; lra|rewrite H; lra].
  - destruct (Rle_lt_or_eq_dec y hi) as [H|H]; [lra|apply Rlt_le, cum_up; lra|rewrite H; lra].
Qed.
Lemma mean_upto : forall y, mean 1 (fun us => if Rle_dec (invert (lo, hi) (p, q) (nth 0 us 0)) y then 1 else 0) = upto y / A.
Proof.
  intros y. pose proof A_pos as AP. cbn [mean nth]. set (c := upto y / A).
  assert (YR : lo <= Rmin hi (Rmax lo y) <= hi).
  { split; [apply Rmin_glb; [lra|apply Rmax_l]|apply Rmin_l]. }
  assert (C : 0 <= c <= 1).
  { pose proof (cum_range _ YR) as CR. fold (upto y) in CR. unfold c. split; [apply Rmult_le_pos; [lra|apply Rlt_le, Rinv_0_lt_compat; lra]|].
    apply Rmult_le_reg_r with A; [exact AP|]. unfold Rdiv. rewrite Rmult_assoc, Rinv_l by lra. lra. }
  assert (EQ : forall u, 0 < u < 1 -> (if Rle_dec (invert (lo, hi) (p, q) u) y then 1 else 0) = (if Rle_dec u c then 1 else 0)).
  { intros u U. destruct (invert_is u ltac:(lra)) as [B _].
    assert (I1 : invert (lo, hi) (p, q) u <= y \/ y < invert (lo, hi) (p, q) u) by lra.
    assert (I2 : invert (lo, hi) (p, q) u <= y <-> u <= c).
    { transitivity (u * A <= upto y).
      - destruct (Rle_lt_dec lo y) as [L1|L1]; [destruct (Rle_lt_dec y hi) as [L2|L2]|].
        + unfold upto. rewrite (Rmax_right lo y), (Rmin_right hi y) by lra. apply quantile; lra.
        + unfold upto. rewrite (Rmax_right lo y) by lra. rewrite (Rmin_left hi y) by lra. rewrite cum_hi. split; intros _; [|lra]. assert (u * A <= 1 * A) by (apply Rmult_le_compat_r; lra). lra.
        + unfold upto. rewrite (Rmax_left lo y), (Rmin_right hi lo) by lra. rewrite cum_lo. assert (0 < u * A) by (apply Rmult_lt_0_compat; lra). split; intros; exfalso; lra.
      - unfold c. split; intros H.
        + apply Rmult_le_reg_r with A; [exact AP|]. unfold Rdiv. rewrite Rmult_assoc, Rinv_l by lra. lra.
        + apply (Rmult_le_compat_r A) in H; [|lra]. unfold Rdiv in H. rewrite Rmult_assoc, Rinv_l in H by lra. lra. }
    destruct (Rle_dec (invert (lo, hi) (p, q) u) y), (Rle_dec u c); tauto || reflexivity. }
  apply (RInt_is _ _ _ (c * 1 + (1 - c) * 0)); [|ring].
  apply is_RInt_ext with (fun u => if Rle_dec u c then 1 else 0).
  { intros u U. rewrite Rmin_left, Rmax_right in U by lra. symmetry. apply EQ. lra. }
  replace (c * 1 + (1 - c) * 0) with (plus (scal (c - 0) (1 : R)) (scal (1 - c) (0 : R))) by (unfold plus, scal; cbn; unfold mult; cbn; ring).
  apply (is_RInt_Chasles (V := R_NormedModule) _ 0 c 1).
  - apply is_RInt_ext with (fun _ => 1); [|apply (is_RInt_const (V := R_NormedModule))]. intros u U. rewrite Rmin_left, Rmax_right in U by lra. destruct (Rle_dec u c); [reflexivity|lra].
  - apply is_RInt_ext with (fun _ => 0); [|apply (is_RInt_const (V := R_NormedModule))]. intros u U. rewrite Rmin_left, Rmax_right in U by lra. destruct (Rle_dec u c); [lra|reflexivity].
Qed.
(** The part of the density over this interval. *)
Lemma piece_int : forall a y, a <= lo -> a <= y ->
  is_RInt (fun x => if Rle_dec lo x then if Rlt_dec x hi then PwlSpec.line lo hi p q x else 0 else 0) a y (upto y).
Proof.
  intros a y AL AY. set (f := fun x => _).
  assert (ZL : forall c d, c <= d -> d <= lo -> is_RInt f c d 0).
  { intros c d CD D. apply is_RInt_ext with (fun _ => 0).
    - intros x X. rewrite Rmin_left, Rmax_right in X by lra. unfold f. destruct (Rle_dec lo x); [lra|reflexivity].
    - apply zero_int. }
  assert (ZR : forall c d, c <= d -> hi <= c -> is_RInt f c d 0).
  { intros c d CD D. apply is_RInt_ext with (fun _ => 0).
    - intros x X. rewrite Rmin_left, Rmax_right in X by lra. unfold f. destruct (Rle_dec lo x); [|reflexivity]. destruct (Rlt_dec x hi); [lra|reflexivity].
    - apply zero_int. }
  assert (MI : forall d, lo <= d <= hi -> is_RInt f lo d (cum d)).
  { intros d D. apply is_RInt_ext with (fun x => PwlSpec.line lo hi p q x).
    - intros x X. rewrite Rmin_left, Rmax_right in X by lra. unfold f. destruct (Rle_dec lo x); [|lra]. destruct (Rlt_dec x hi); [reflexivity|lra].
    - pose proof (cum_int lo d) as CI. rewrite cum_lo, Rminus_0_r in CI. exact CI. }
  unfold upto. destruct (Rle_lt_dec lo y) as [L1|L1].
  - rewrite (Rmax_right lo y) by lra. replace (cum (Rmin hi y)) with (plus 0 (cum (Rmin hi y)) : R) by (unfold plus; cbn; ring).
    apply (is_RInt_Chasles (V := R_NormedModule) _ a lo y); [apply ZL; lra|]. destruct (Rle_lt_dec y hi) as [L2|L2].
    + rewrite Rmin_right by lra. apply MI. lra.
    + rewrite Rmin_left by lra. replace (cum hi) with (plus (cum hi) 0 : R) by (unfold plus; cbn; ring). apply (is_RInt_Chasles (V := R_NormedModule) _ lo hi y); [apply MI; lra|apply ZR; lra].
  - rewrite (Rmax_left lo y), (Rmin_right hi lo), cum_lo by lra. apply ZL; lra.
Qed.
End One.
