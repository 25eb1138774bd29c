(** Second differences along one and two axes. *)

From Coq Require Import List Bool Arith Reals Lra Lia.
From Verif Require Import Exn Instances CountSpec CountLemmas McModel McLemmas9 BaModel BaSpec BaLemmas ObsModel ObsSpec ObsLemmas.
Import ListNotations.
Open Scope R_scope.

Lemma upd_ext : forall A (p q : list A), length p = length q -> (forall k, (k < length p)%nat -> rd p k = rd q k) -> p = q.
Proof.
  intros A p. induction p as [|a p IH]; intros [|b q] L H; cbn [length] in L; try lia; [reflexivity|].
  f_equal.
  - specialize (H 0%nat ltac:(cbn; lia)). cbn in H. now injection H.
  - apply IH; [lia|]. intros k K. exact (H (S k) ltac:(cbn; lia)).
Qed.
Lemma upd_upd : forall A i (v w : A) p, (i < length p)%nat -> upd i v (upd i w p) = upd i v p.
Proof.
  intros A i v w p H. assert (L := upd_len A i w p H). apply upd_ext; [rewrite !upd_len; [reflexivity|exact H|exact H|lia]|].
  intros k _. rewrite !rd_upd by lia. now destruct (Nat.eqb k i).
Qed.
Lemma upd_comm : forall A i j (v w : A) p, (i < length p)%nat -> (j < length p)%nat -> i <> j -> upd i v (upd j w p) = upd j w (upd i v p).
Proof.
  intros A i j v w p H H' N. assert (L := upd_len A i v p H). assert (L' := upd_len A j w p H'). apply upd_ext; [rewrite !upd_len; lia|].
  intros k _. rewrite !rd_upd by lia. destruct (Nat.eqb_spec k i) as [->|]; [|reflexivity]. destruct (Nat.eqb_spec i j); [lia|reflexivity].
Qed.
Lemma upd_back : forall A i (v w : A) p, rd p i = Ok v -> (i < length p)%nat -> upd i v (upd i w p) = p.
Proof.
  intros A i v w p Hv H. assert (L := upd_len A i w p H). apply upd_ext; [rewrite !upd_len; lia|].
  intros k _. rewrite !rd_upd by lia. destruct (Nat.eqb_spec k i) as [->|]; congruence.
Qed.

Lemma moved_len : forall mu v, length (moved mu v) = length mu.
Proof. intros. unfold moved. now rewrite map_length, seq_length. Qed.
Lemma rd_moved : forall mu v k, (k < length mu)%nat -> rd (moved mu v) k = Ok (nth k mu 0 + v k).
Proof.
  intros mu v k H. unfold rd, moved. rewrite nth_error_map, (nth_error_nth' _ 0%nat) by now rewrite seq_length.
  rewrite seq_nth by exact H. reflexivity.
Qed.
Lemma moved_axis : forall mu i t v, (i < length mu)%nat -> (forall k, (k < length mu)%nat -> v k = axis i t k) -> upd i (nth i mu 0 + t) mu = moved mu v.
Proof.
  intros mu i t v H E. apply upd_ext; [rewrite moved_len; now apply upd_len|].
  intros k K. rewrite upd_len in K by exact H. rewrite rd_upd, rd_moved, E by assumption. unfold axis.
  destruct (Nat.eqb_spec k i) as [->|]; [reflexivity|]. now rewrite rd_nth, Rplus_0_r.
Qed.
Lemma moved_two : forall mu i j s t v, (i < length mu)%nat -> (j < length mu)%nat -> i <> j -> (forall k, (k < length mu)%nat -> v k = two_axes i s j t k) ->
  upd j (nth j mu 0 + t) (upd i (nth i mu 0 + s) mu) = moved mu v.
Proof.
  intros mu i j s t v H H' N E. assert (L := upd_len R i (nth i mu 0 + s) mu H). apply upd_ext; [rewrite moved_len, upd_len; lia|].
  intros k K. rewrite upd_len in K by lia. rewrite L in K. rewrite !rd_upd, rd_moved, E by lia. unfold two_axes, axis.
  destruct (Nat.eqb_spec k j) as [->|]; [rewrite eqb_no by lia; now rewrite Rplus_0_l|].
  destruct (Nat.eqb_spec k i) as [->|]; [now rewrite Rplus_0_r|]. now rewrite rd_nth, !Rplus_0_r.
Qed.

(** ** The quadratic form *)
Lemma quad_ext : forall n Q v w, (forall k, (k < n)%nat -> v k = w k) -> quad n Q v = quad n Q w.
Proof. intros n Q v w H. unfold quad. apply so_ext. intros i Hi. apply so_ext. intros j Hj. rewrite !H by lia. reflexivity. Qed.
Lemma quad_scaled : forall n Q t v, quad n Q (scaled t v) = t ^ 2 * quad n Q v.
Proof.
  intros n Q t v. unfold quad. rewrite <- so_scal. apply so_ext. intros i _. rewrite <- so_scal. apply so_ext. intros j _. unfold scaled. ring.
Qed.
Lemma so_axis : forall n i t f, (i < n)%nat -> sum_over 0 n (fun k => f k * axis i t k) = f i * t.
Proof.
  intros n i t f H. rewrite (so_one n 0 (fun k => f k * axis i t k) i); [unfold axis; now rewrite Nat.eqb_refl|lia|].
  intros k _ K. unfold axis. rewrite eqb_no by lia. ring.
Qed.
Lemma quad_axis : forall n Q i t, (i < n)%nat -> quad n Q (axis i t) = Q i i * t ^ 2.
Proof.
  intros n Q i t H. unfold quad. rewrite (so_ext _ _ _ (fun k => (Q k i * t) * axis i t k)).
  - rewrite so_axis by exact H. ring.
  - intros k _. rewrite (so_axis n i t (fun j => Q k j * axis i t k) H). ring.
Qed.
Lemma quad_two : forall n Q i j s t, (i < n)%nat -> (j < n)%nat -> quad n Q (two_axes i s j t) = Q i i * s ^ 2 + (Q i j + Q j i) * (s * t) + Q j j * t ^ 2.
Proof.
  intros n Q i j s t H H'. unfold quad.
  rewrite (so_ext _ _ _ (fun k => (Q k i * s + Q k j * t) * axis i s k + (Q k i * s + Q k j * t) * axis j t k)).
  - rewrite so_plus, (so_axis n i s (fun k => Q k i * s + Q k j * t)), (so_axis n j t (fun k => Q k i * s + Q k j * t)) by assumption. ring.
  - intros k _. rewrite (so_ext _ _ _ (fun l => (Q k l * two_axes i s j t k) * axis i s l + (Q k l * two_axes i s j t k) * axis j t l)) by (intros; unfold two_axes; ring).
    rewrite so_plus, (so_axis n i s (fun l => Q k l * two_axes i s j t k)), (so_axis n j t (fun l => Q k l * two_axes i s j t k)) by assumption. unfold two_axes. ring.
Qed.

(** ** Loops *)
Lemma over_up : forall S T (P : nat -> T -> S -> Prop) n lo body (t : T) (s : S), P lo t s ->
  (forall i t s, (lo <= i < lo + n)%nat -> P i t s -> exists t' s', body i t s = (s', Ok t') /\ P (Datatypes.S i) t' s') ->
  exists t' s', over (seq lo n) body t s = (s', Ok t') /\ P (lo + n)%nat t' s'.
Proof.
  intros S T P n. induction n as [|n IH]; intros lo body t s H0 H; cbn [seq over].
  - exists t, s. split; [reflexivity|now rewrite Nat.add_0_r].
  - destruct (H lo t s ltac:(lia) H0) as [t' [s' [E H1]]]. unfold bind. rewrite E.
    destruct (IH (Datatypes.S lo) body t' s' H1) as [t2 [s2 [E2 H2]]].
    + intros i u r Hi. apply H. lia.
    + exists t2, s2. split; [exact E2|]. now replace (lo + Datatypes.S n)%nat with (Datatypes.S lo + n)%nat by lia.
Qed.

Section One.
Variable lf : list R -> res R.

Lemma set_mu_ok : forall i v mu, (i < length mu)%nat -> set_mu i v mu = (upd i v mu, Ok tt).
Proof. intros i v mu H. unfold set_mu. now rewrite wr_ok. Qed.

(** Along one axis, from the differences *)
Lemma diag_diffs_ok : forall lfmax mu1 dpi i iters (Y : nat -> R) mu, (i < length mu)%nat ->
  (forall j, (1 <= j <= iters)%nat -> exists a b, lf (upd i (mu1 + dpi * ratio ^ (iters - j)) mu) = Ok a /\ lf (upd i (mu1 - dpi * ratio ^ (iters - j)) mu) = Ok b /\
     quot a b lfmax (dpi * ratio ^ (iters - j)) = Ok (Y j)) ->
  forall m lo d2f t, (1 <= lo)%nat -> (lo + m = S iters)%nat -> length d2f = iters -> (forall j, (1 <= j < lo)%nat -> rds d2f (j - 1) = Ok (Y j)) ->
  exists d2f' t', diag_diffs lf lfmax mu1 dpi i iters (seq lo m) d2f (upd i t mu) = (upd i t' mu, Ok d2f') /\ forall j, (1 <= j <= iters)%nat -> rds d2f' (j - 1) = Ok (Y j).
Proof.
  intros lfmax mu1 dpi i iters Y mu Hi HY m. induction m as [|m IH]; intros lo d2f t Hlo Hm HL Hd; cbn [seq diag_diffs].
  - exists d2f, t. split; [reflexivity|]. intros j Hj. apply Hd. lia.
  - destruct (HY lo ltac:(lia)) as [a [b [Ha [Hb Hq]]]].
    unfold bind. rewrite set_mu_ok by (rewrite upd_len; exact Hi). rewrite upd_upd by exact Hi. unfold call_lf at 1. rewrite Ha.
    rewrite set_mu_ok by (rewrite upd_len; exact Hi). rewrite upd_upd by exact Hi. unfold call_lf. rewrite Hb. unfold lift at 1. rewrite Hq.
    unfold lift. rewrite wr_ok by lia.
    apply IH; [lia|lia|rewrite upd_len by lia; exact HL|].
    intros j Hj. rewrite rds_upd by lia. destruct (Nat.eqb_spec (j - 1) (lo - 1)) as [E|E]; [now replace j with lo by lia|]. apply Hd. lia.
Qed.
Lemma mixed_diffs_ok : forall lfmax mu1 mu2 sig1 sig2 i j iters (Y : nat -> R) mu, (i < length mu)%nat -> (j < length mu)%nat -> i <> j ->
  (forall k, (1 <= k <= iters)%nat -> exists a b, lf (upd j (mu2 + ratio ^ (iters - k) * sig2) (upd i (mu1 + ratio ^ (iters - k) * sig1) mu)) = Ok a /\
     lf (upd j (mu2 - ratio ^ (iters - k) * sig2) (upd i (mu1 - ratio ^ (iters - k) * sig1) mu)) = Ok b /\ quot a b lfmax (ratio ^ (iters - k)) = Ok (Y k)) ->
  forall m lo d2f t u, (1 <= lo)%nat -> (lo + m = S iters)%nat -> length d2f = iters -> (forall k, (1 <= k < lo)%nat -> rds d2f (k - 1) = Ok (Y k)) ->
  exists d2f' t' u', mixed_diffs lf lfmax mu1 mu2 sig1 sig2 i j iters (seq lo m) d2f (upd j u (upd i t mu)) = (upd j u' (upd i t' mu), Ok d2f') /\
    forall k, (1 <= k <= iters)%nat -> rds d2f' (k - 1) = Ok (Y k).
Proof.
  intros lfmax mu1 mu2 sig1 sig2 i j iters Y mu Hi Hj N HY m. induction m as [|m IH]; intros lo d2f t u Hlo Hm HL Hd; cbn [seq mixed_diffs].
  - exists d2f, t, u. split; [reflexivity|]. intros k Hk. apply Hd. lia.
  - destruct (HY lo ltac:(lia)) as [a [b [Ha [Hb Hq]]]].
    assert (SI : forall v w x, set_mu i v (upd j w (upd i x mu)) = (upd j w (upd i v mu), Ok tt)).
    { intros v w x. rewrite set_mu_ok by (rewrite !upd_len; rewrite ?upd_len; exact Hi || exact Hj). f_equal.
      rewrite upd_comm by (rewrite ?upd_len; assumption || lia). now rewrite upd_upd by exact Hi. }
    assert (SJ : forall v w x, set_mu j v (upd j w (upd i x mu)) = (upd j v (upd i x mu), Ok tt)).
    { intros v w x. assert (L := upd_len R i x mu Hi). rewrite set_mu_ok by (rewrite !upd_len; lia). f_equal. apply upd_upd. lia. }
    unfold bind. rewrite SI, SJ. unfold call_lf at 1. rewrite Ha. rewrite SI, SJ. unfold call_lf. rewrite Hb. unfold lift at 1. rewrite Hq.
    unfold lift. rewrite wr_ok by lia.
    apply IH; [lia|lia|rewrite upd_len by lia; exact HL|].
    intros k Hk. rewrite rds_upd by lia. destruct (Nat.eqb_spec (k - 1) (lo - 1)) as [E|E]; [now replace k with lo by lia|]. apply Hd. lia.
Qed.
End One.

(** ** From differences to an estimate *)
Definition err_of (iters : nat) (d : R) : R := if Nat.eqb iters 2 then Rabs d else 0.
Lemma extrapolated_even : forall y n c d, (2 <= n)%nat -> (forall j, (1 <= j <= n)%nat -> rds y (j - 1) = Ok (c + d * (ratio ^ (n - j)) ^ 2)) -> Rabs d <= big ->
  extrapolated y n = Ok (c, err_of n d).
Proof.
  intros y n c d N H B. unfold extrapolated. rewrite (rid_even y n c d N); [reflexivity| |exact B].
  intros i Hi. specialize (H (n - i + 1)%nat ltac:(lia)). replace (n - i + 1 - 1)%nat with (n - i)%nat in H by lia. replace (n - (n - i + 1))%nat with (i - 1)%nat in H by lia. exact H.
Qed.
