(** DRLHRE as sums over points *)

From Coq Require Import List Bool Arith ZArith Reals Permutation Lra Lia.
From Verif Require Import Exn Instances McModel BaModel BaLemmas ObsModel ObsLemmas2 CountSpec McLemmas5 AdModel AdLemmas AdLemmas2 SySpec SyModel SyLemmas2 SyLemmas4 SyLemmas5 SyLemmas6 SyLemmas7 DcModel DcLemmas DcLemmas2.
Import ListNotations.
Open Scope R_scope.

(** Generators 0 < x1 < x2 *)
Definition gphi (x1 x2 : R) (j : nat) : R := match j with O => 0 | 1%nat => x1 | 2%nat => x2 | _ => x2 + INR j end.
Lemma gphi_mono : forall x1 x2, 0 < x1 < x2 -> forall a b, (a < b)%nat -> gphi x1 x2 a < gphi x1 x2 b.
Proof.
  intros x1 x2 H a b L. destruct a as [|[|[|a]]], b as [|[|[|b]]]; try lia; cbn [gphi]; try lra.
  1-3: assert (P := pos_INR (S (S (S b)))); assert (Q := lt_0_INR (S (S (S b))) ltac:(lia)); lra.
  apply Rplus_lt_compat_l. now apply lt_INR.
Qed.

Definition ax (n i : nat) (v : R) : list R := upd (i - 1) v (repeat 0 n).
Lemma ax_len : forall n i v, (1 <= i <= n)%nat -> length (ax n i v) = n.
Proof. intros n i v H. unfold ax. rewrite upd_len; rewrite repeat_length; lia. Qed.
Lemma nth_rep : forall k n, nth k (repeat 0 n) 0 = 0.
Proof. intros k n. destruct (Nat.lt_ge_cases k n) as [H|H]; [now apply nth_repeat_lt || apply nth_repeat|]. apply nth_overflow. now rewrite repeat_length. Qed.
Lemma aff_zero : forall c h, length h = length c -> aff c h (repeat 0 (length c)) = c.
Proof. induction c as [|a c IH]; intros [|b h] H; try discriminate; [reflexivity|]. cbn [length repeat aff] in *. rewrite IH by lia. f_equal. ring. Qed.
Lemma ax_point : forall c h i v, length h = length c -> (1 <= i <= length c)%nat -> wr1 c i (nth (i - 1) c 0 + v * nth (i - 1) h 0) = Ok (aff c h (ax (length c) i v)).
Proof.
  intros c h i v L H. rewrite wr1_upd by lia. f_equal. apply (nth_ext _ _ 0 0); [rewrite aff_len by (rewrite ?ax_len; lia); now rewrite upd_len by lia|].
  rewrite upd_len by lia. intros k Hk. rewrite nth_upd' by lia. rewrite aff_nth by (rewrite ?ax_len; lia). unfold ax. rewrite nth_upd' by (rewrite repeat_length; lia). rewrite nth_rep.
  destruct (Nat.eqb_spec k (i - 1)) as [->|N]; [reflexivity|ring].
Qed.

Section Rule.
Variables (f : list R -> vec) (n numfun : nat) (t : table).
Variable gsp : nat -> R * R * nat * nat.
Definition g_phi (i : nat) : nat -> R := let '(x1, x2, _, _) := gsp i in gphi x1 x2.
Definition g_sel (i : nat) : list (list nat) := let '(_, _, c1, c2) := gsp i in sel n c1 c2.
Definition g_ones (i : nat) : list nat := let '(_, _, c1, c2) := gsp i in ones n c1 c2.
Definition g_ok (i : nat) : Prop := let '(x1, x2, c1, c2) := gsp i in 0 < x1 < x2 /\ (c1 + c2 <= n)%nat.
Hypothesis n2 : (2 <= n)%nat.
Hypothesis gok : forall i, In i (seq 4 (t_len t - 3)) -> g_ok i /\ t_g t i = map (g_phi i) (g_ones i).
Variables g2 g3 : R.

(** The sum of the values at the points of a generator *)
Definition orb (i : nat) (U : list R -> R) : R := sumR (map (fun p => sumR (map (fun s => U (gs (g_phi i) p s)) (signs (mask p)))) (g_sel i)).
Definition axs (U : list R -> R) (v : R) : R := sumR (map (fun i => U (ax n i (- v)) + U (ax n i v)) (seq 1 n)).
Definition LL (w : nat -> R) (U : list R -> R) : R :=
  w 1%nat * U (repeat 0 n) + w 2%nat * axs U g2 + w 3%nat * axs U g3 + sumR (map (fun i => w i * orb i U) (seq 4 (t_len t - 3))).

Variables c h : list R.
Hypothesis c_len : length c = n.
Hypothesis h_len : length h = n.
Definition at_ (j : nat) (u : list R) : R := f (aff c h u) j.

Lemma orb_ok : forall i g, In i (seq 4 (t_len t - 3)) -> g = t_g t i -> exists v, dfshre f n c h g = Ok (v, t_g t i) /\ forall j, v j = orb i (at_ j).
Proof.
  intros i g Hi ->. destruct (gok i Hi) as [G E]. rewrite E. unfold orb. unfold g_ok, g_phi, g_ones, g_sel in *. destruct (gsp i) as [[[x1 x2] c1] c2]. destruct G as [G1 G2].
  destruct (dfshre_is (gphi x1 x2) (gphi_mono x1 x2 G1) eq_refl f n c h c_len h_len (ones n c1 c2) (sel n c1 c2)) as (v & Q & J).
  - now apply ones_len.
  - lia.
  - apply ones_desc.
  - intros j Hj. apply ones_le in Hj. lia.
  - now apply sel_all.
  - exists v. split; [exact Q|exact J].
Qed.

Lemma volume_ok : exists d, drl_volume n h = Ok (prodl h, d) /\ (1 <= d <= n)%nat.
Proof.
  unfold drl_volume. destruct (iter_up _ (fun i st => fst st = prodl (firstn (i - 1) h) /\ (1 <= snd st <= n)%nat) n 1 (fun i st =>
    let! h0 := rd1 h i in
    let! d := rd1 h (snd st) in
    Ok (fst st * h0, if Rltb d h0 then i else snd st)) (1, 1%nat)) as ([v d] & E & V & D).
  - cbn. split; [reflexivity|lia].
  - intros i [v d] Hi [V D]. cbn [fst snd] in *. rewrite (rd1_nth _ h i 0) by lia. rewrite (rd1_nth _ h d 0) by lia. eexists. split; [reflexivity|]. cbn [fst snd].
    split; [|destruct (Rltb _ _); lia]. replace (S i - 1)%nat with (S (i - 1)) by lia. rewrite (firstn_snoc _ h (i - 1) 0) by lia. rewrite prodl_app, V. cbn [prodl]. ring.
  - exists d. split; [|exact D]. rewrite E. cbn [fst] in V. rewrite V. do 2 f_equal. replace (1 + n - 1)%nat with n by lia. rewrite firstn_all2 by lia. reflexivity.
Qed.

Definition axpart (w : nat -> R) (U : list R -> R) (i : nat) : R := w 2%nat * (U (ax n i (- g2)) + U (ax n i g2)) + w 3%nat * (U (ax n i (- g3)) + U (ax n i g3)).
Lemma axes_ok : forall v st, (1 <= x_divaxn st <= n)%nat -> exists st', drl_axes f n numfun t c h g2 g3 v st = Ok st' /\
  (forall j, x_bas st' j = x_bas st j + sumR (map (axpart (t_w t 1%nat) (at_ j)) (seq 1 n))) /\
  (forall k j, x_null st' k j = x_null st k j + sumR (map (axpart (t_w t (k + 1)%nat) (at_ j)) (seq 1 n))) /\ (1 <= x_divaxn st' <= n)%nat.
Proof.
  intros v st D. unfold drl_axes.
  match goal with |- context [iter (seq 1 n) ?b st] => destruct (iter_up _ (fun i st' =>
    (forall j, x_bas st' j = x_bas st j + sumR (map (axpart (t_w t 1%nat) (at_ j)) (seq 1 (i - 1)))) /\
    (forall k j, x_null st' k j = x_null st k j + sumR (map (axpart (t_w t (k + 1)%nat) (at_ j)) (seq 1 (i - 1)))) /\ (1 <= x_divaxn st' <= n)%nat) n 1 b st) as (st' & E & B & N & D') end.
  - cbn. split; [intros; unfold sumR; cbn; ring|]. split; [intros; unfold sumR; cbn; ring|exact D].
  - intros i s Hi (B & N & D'). rewrite (rd1_nth _ c i 0) by lia. rewrite (rd1_nth _ h i 0) by lia.
    assert (P := fun v => ax_point c h i v ltac:(lia) ltac:(lia)). rewrite c_len in P.
    replace (nth (i - 1) c 0 - nth (i - 1) h 0 * g2) with (nth (i - 1) c 0 + (- g2) * nth (i - 1) h 0) by ring. rewrite P.
    replace (nth (i - 1) c 0 + nth (i - 1) h 0 * g2) with (nth (i - 1) c 0 + g2 * nth (i - 1) h 0) by ring. rewrite P.
    replace (nth (i - 1) c 0 - nth (i - 1) h 0 * g3) with (nth (i - 1) c 0 + (- g3) * nth (i - 1) h 0) by ring. rewrite P.
    replace (nth (i - 1) c 0 + nth (i - 1) h 0 * g3) with (nth (i - 1) c 0 + g3 * nth (i - 1) h 0) by ring. rewrite P.
    eexists. split; [reflexivity|].
    assert (SN : forall g, sumR (map g (seq 1 (S i - 1))) = sumR (map g (seq 1 (i - 1))) + g i).
    { intros g. replace (S i - 1)%nat with (S (i - 1)) by lia. rewrite seq_S, map_app, sumR_cat. replace (1 + (i - 1))%nat with i by lia. unfold sumR. cbn [map fold_right]. ring. }
    split; [|split].
    + intros j. rewrite SN. match goal with |- context [Rltb (x_difmax s) ?d] => destruct (Rltb (x_difmax s) d) end; cbn [x_bas]; rewrite B; unfold axpart, at_; ring.
    + intros k j. rewrite SN. match goal with |- context [Rltb (x_difmax s) ?d] => destruct (Rltb (x_difmax s) d) end; cbn [x_null]; rewrite N; unfold axpart, at_; ring.
    + match goal with |- context [Rltb (x_difmax s) ?d] => destruct (Rltb (x_difmax s) d) end; cbn [x_divaxn]; lia.
  - exists st'. split; [exact E|]. replace (1 + n - 1)%nat with n in * by lia. auto.
Qed.

Lemma sums_ok : forall st, (forall i, s_g st i = t_g t i) -> exists st', drl_sums f n t c h st = Ok st' /\ (forall i, s_g st' i = t_g t i) /\
  (forall j, s_bas st' j = s_bas st j + sumR (map (fun i => t_w t 1%nat i * orb i (at_ j)) (seq 4 (t_len t - 3)))) /\
  (forall k j, s_null st' k j = s_null st k j + sumR (map (fun i => t_w t (k + 1)%nat i * orb i (at_ j)) (seq 4 (t_len t - 3)))).
Proof.
  intros st G. unfold drl_sums.
  match goal with |- context [iter (seq 4 _) ?b st] => destruct (iter_up _ (fun i st' => (forall i, s_g st' i = t_g t i) /\
    (forall j, s_bas st' j = s_bas st j + sumR (map (fun i => t_w t 1%nat i * orb i (at_ j)) (seq 4 (i - 4)))) /\
    (forall k j, s_null st' k j = s_null st k j + sumR (map (fun i => t_w t (k + 1)%nat i * orb i (at_ j)) (seq 4 (i - 4))))) (t_len t - 3) 4 b st) as (st' & E & I) end.
  - split; [exact G|]. cbn. split; intros; unfold sumR; cbn; ring.
  - intros i s Hi (G' & B & N). destruct (orb_ok i (s_g s i)) as (v & Q & J); [apply in_seq; lia|apply G'|]. rewrite Q. eexists. split; [reflexivity|]. cbn [s_g s_bas s_null].
    assert (SN : forall g, sumR (map g (seq 4 (S i - 4))) = sumR (map g (seq 4 (i - 4))) + g i).
    { intros g. replace (S i - 4)%nat with (S (i - 4)) by lia. rewrite seq_S, map_app, sumR_cat. replace (4 + (i - 4))%nat with i by lia. unfold sumR. cbn [map fold_right]. ring. }
    split; [|split].
    + intros k. destruct (Nat.eqb_spec k i) as [->|NE]; [reflexivity|apply G'].
    + intros j. rewrite SN, B, J. ring.
    + intros k j. rewrite SN, N, J. ring.
  - exists st'. split; [exact E|]. replace (4 + (t_len t - 3) - 4)%nat with (t_len t - 3)%nat in I by lia. exact I.
Qed.

Lemma axs_part : forall w U, sumR (map (axpart w U) (seq 1 n)) = w 2%nat * axs U g2 + w 3%nat * axs U g3.
Proof.
  intros w U. unfold axs, axpart. generalize (seq 1 n). intros l. induction l as [|i l IH]; unfold sumR in *; cbn [map fold_right]; [ring|]. rewrite IH. ring.
Qed.

Lemma search_ext : forall null null' j i, null i j = null' i j -> null (i + 1)%nat j = null' (i + 1)%nat j -> drl_search n t null j i = drl_search n t null' j i.
Proof. intros null null' j i H1 H2. unfold drl_search. rewrite H1, H2. reflexivity. Qed.
Lemma error_ext : forall null null' j, (forall k, null k j = null' k j) -> drl_error n t null j = drl_error n t null' j.
Proof. intros null null' j H. unfold drl_error. rewrite !(search_ext null null') by apply H. reflexivity. Qed.

Lemma drlhre_is : forall g, (forall i, g i = t_g t i) -> (exists r, t_g t 2 = g2 :: r) -> (exists r, t_g t 3 = g3 :: r) ->
  exists v e d g', drlhre f n numfun t c h g = Ok (v, e, d, g') /\ (forall i, g' i = t_g t i) /\ (1 <= d <= n)%nat /\
  (forall j, v j = prodl h * LL (t_w t 1%nat) (at_ j)) /\ (forall j, e j = prodl h * drl_error n t (fun k j => LL (t_w t (k + 1)%nat) (at_ j)) j).
Proof.
  intros g G [r2 E2] [r3 E3]. unfold drlhre. destruct volume_ok as (d0 & V & D0). rewrite V. rewrite !G, E2, E3. cbn [rd1]. change (rd (g2 :: r2) 0) with (Ok g2). change (rd (g3 :: r3) 0) with (Ok g3). cbn [fst snd].
  destruct (axes_ok (f c) (Axes (fun j => t_w t 1%nat 1%nat * f c j) (fun k j => t_w t (k + 1)%nat 1%nat * f c j) 0 d0) D0) as (a & EA & BA & NA & DA). rewrite EA.
  destruct (sums_ok (Sums (x_bas a) (x_null a) g) G) as (s & ES & GS & BS & NS). rewrite ES.
  assert (F0 : forall j, at_ j (repeat 0 n) = f c j) by (intros j; unfold at_; rewrite <- c_len; now rewrite aff_zero by lia).
  eexists _, _, _, _. split; [reflexivity|]. split; [exact GS|]. split; [exact DA|]. split.
  - intros j. f_equal. rewrite BS. cbn [s_bas]. rewrite BA. cbn [x_bas]. rewrite axs_part. unfold LL. rewrite F0. ring.
  - intros j. f_equal. apply error_ext. intros k. rewrite NS. cbn [s_null]. rewrite NA. cbn [x_null]. rewrite axs_part. unfold LL. rewrite F0. ring.
Qed.
End Rule.
