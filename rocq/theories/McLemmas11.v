(** Lemmas for the inclusion probabilities: the sampler. *)

From Coq Require Import ZArith List Bool Arith Reals Lia Lra Permutation.
From Coquelicot Require Import Coquelicot.
From Verif Require Import Exn Instances CountSpec CountLemmas McModel McSpec McLemmas5 McLemmas9 McLemmas10.
Import ListNotations.
Open Scope R_scope.

Lemma E_le : forall N l m s, (forall j, (j < N)%nat -> 0 <= l j) -> E N l m s <= (sum_over 0 N l) ^ m.
Proof.
  intros N l m. induction m as [|m IH]; intros s H; cbn [E pow]; [lra|]. rewrite Rmult_comm, <- so_scal. unfold rest. apply so_le. intros j J.
  assert (L : 0 <= l j) by (apply H; lia). assert (S : 0 <= sum_over 0 N l) by (apply so_nonneg; intros i I; apply H; lia).
  destruct (mem j s); [apply Rmult_le_pos; [now apply pow_le|exact L]|]. rewrite (Rmult_comm _ (l j)). apply Rmult_le_compat_l; [exact L|]. now apply IH.
Qed.

Section Sampler.
Variable argsort : list R -> list nat.
Hypothesis SO : sorts argsort.
Variable w : list R.
Hypothesis WO : weights_ok w.
Variable n : nat.
Hypothesis N1 : (1 <= n < length w)%nat.
Hypothesis NW : List.Forall (fun x => INR n * x < sumR w) w.
Let sw := in_order argsort w.
Let ls := lams argsort w n.
Let N := length sw.
Let pr := fun i => nth i sw 0 / sumR sw.
Let lr := fun i => nth i ls 0.
Let c := / sumR ls.
Lemma N_is : N = length w.
Proof. unfold N, sw. now apply in_order_length. Qed.
Lemma tot_is : sumR sw = sumR w.
Proof. unfold sw. now apply in_order_sum. Qed.
Lemma tot_pos : 0 < sumR sw.
Proof. rewrite tot_is. apply WO. Qed.
Lemma ls_pos : 0 < sumR ls.
Proof. unfold ls. apply lams_sum_pos; assumption. Qed.
Lemma pr_sum : sum_over 0 N pr = 1.
Proof.
  unfold pr. rewrite (so_ext N 0 _ (fun i => / sumR sw * nth i sw 0)) by (intros; unfold Rdiv; ring). rewrite so_scal. unfold N. rewrite <- sumR_so. pose proof tot_pos. field. lra.
Qed.
Lemma ls_len : length ls = length sw.
Proof. unfold ls. rewrite lams_length by exact SO. symmetry. exact N_is. Qed.
Lemma c_sum : c * sum_over 0 N lr = 1.
Proof. unfold c, lr, N. rewrite <- ls_len, <- sumR_so. pose proof ls_pos. field. lra. Qed.
Lemma sw_at : forall j, (j < N)%nat -> 0 <= nth j sw 0 /\ INR n * nth j sw 0 < sumR sw.
Proof.
  intros j J. assert (I : In (nth j sw 0) sw) by now apply nth_In. split.
  - pose proof (sw_nonneg argsort SO w WO) as F. rewrite Forall_forall in F. now apply F.
  - rewrite tot_is. pose proof (sw_small argsort SO w n NW) as F. rewrite Forall_forall in F. now apply F.
Qed.
Lemma pr_pos : forall j, (j < N)%nat -> 0 <= pr j.
Proof. intros j J. unfold pr, Rdiv. apply Rmult_le_pos; [now apply sw_at|]. apply Rlt_le, Rinv_0_lt_compat, tot_pos. Qed.
Lemma pr_small : forall j, (j < N)%nat -> INR n * pr j < 1.
Proof.
  intros j J. pose proof tot_pos as T. apply Rmult_lt_reg_r with (sumR sw); [exact T|]. unfold pr, Rdiv. rewrite Rmult_1_l, !Rmult_assoc, Rinv_l, Rmult_1_r by lra. now apply sw_at.
Qed.
Lemma lr_is : forall j, (j < N)%nat -> lr j = pr j / (1 - INR n * pr j).
Proof.
  intros j J. unfold lr, ls. rewrite lams_nth by (assumption || (rewrite <- N_is; exact J)). unfold lam, pr. fold sw. now rewrite tot_is.
Qed.
Lemma lr_rel : forall j, (j < N)%nat -> lr j - pr j = INR n * pr j * lr j.
Proof. intros j J. rewrite lr_is by exact J. pose proof (pr_small j J). field. lra. Qed.
Lemma lr_pos : forall j, (j < N)%nat -> 0 <= lr j /\ (0 < pr j -> 0 < lr j).
Proof.
  intros j J. rewrite lr_is by exact J. pose proof (pr_small j J). pose proof (pr_pos j J). assert (0 < / (1 - INR n * pr j)) by (apply Rinv_0_lt_compat; lra).
  unfold Rdiv. split; [apply Rmult_le_pos; lra|]. intros. now apply Rmult_lt_0_compat.
Qed.
Definition chance : R := c ^ (n - 1) * whole N lr pr n.
Lemma c_pos : 0 < c.
Proof. apply Rinv_0_lt_compat, ls_pos. Qed.
Lemma chance_pos : 0 < chance.
Proof.
  unfold chance. apply Rmult_lt_0_compat; [apply pow_lt, c_pos|]. apply whole_pos; [lia|apply pr_sum|apply pr_pos|apply lr_pos|apply pr_small].
Qed.
Lemma chance_le : chance <= 1.
Proof.
  unfold chance, whole. rewrite <- pr_sum, <- so_scal. apply so_le. intros i I. pose proof (pr_pos i ltac:(lia)) as P.
  pose proof (E_le N lr (n - 1) [i] (fun j J => proj1 (lr_pos j J))) as L. assert (C : 0 < c ^ (n - 1)) by apply pow_lt, c_pos.
  apply Rmult_le_compat_l with (r := c ^ (n - 1)) in L; [|lra]. rewrite <- Rpow_mult_distr, c_sum, pow1 in L.
  replace (c ^ (n - 1) * (pr i * E N lr (n - 1) [i])) with (pr i * (c ^ (n - 1) * E N lr (n - 1) [i])) by ring. rewrite <- (Rmult_1_r (pr i)) at 2. now apply Rmult_le_compat_l.
Qed.
Variables (p : pps) (idx : list Z).
Hypothesis PR : prepared argsort false w n p idx.
Lemma trial_is : forall t us, trial p t us = snd (sampford_loop (list R) tape tape (cumsum sw) (map Num (cumsum ls)) n t 0 us).
Proof.
  intros t us. unfold trial, samplenr_from. destruct (prepared_is argsort SO w WO n N1 NW p idx PR) as [RD [_ _]]. red in RD. rewrite RD. cbn [f_ratios f_nsamp f_cumwts].
  destruct n as [|n']; [lia|]. reflexivity.
Qed.
Theorem returns_mean : forall t k, (t * n <= k)%nat -> mean k (fun us => returns (trial p t us)) = 1 - (1 - chance) ^ t.
Proof.
  intros t k K.
  rewrite (mean_ext k _ (fun us => returns (snd (sampford_loop (list R) tape tape (cumsum sw) (map Num (cumsum ls)) n t 0 us)))) by (intros us; now rewrite trial_is).
  rewrite (loop_mean sw ls n ltac:(lia) ls_len (sw_nonneg argsort SO w WO) tot_pos (lams_nonneg argsort SO w WO n NW) ls_pos returns (fun _ => 1) (fun _ _ => eq_refl) (fun _ => eq_refl) t 0 k K).
  pose proof (value_is N pr lr c n (fun _ => 1) c_sum pr_sum (E N lr) (fun s _ => eq_refl) (fun m s _ => eq_refl) (E_set N lr) t) as V.
  fold N pr lr c. unfold stop, total in V. fold (whole N lr pr n) in V. fold chance in V. pose proof chance_pos. apply Rmult_eq_reg_l with chance; [exact V|lra].
Qed.
Lemma place : forall x, (x < length w)%nat -> exists i, (i < N)%nat /\ nth i (order argsort w) 0%nat = x /\
  forall s, fine N s -> existsb (Z.eqb (Z.of_nat x)) (members idx s) = mem i s.
Proof.
  intros x X. assert (I : In x (order argsort w)) by (eapply Permutation_in; [symmetry; apply order_perm; exact SO|apply in_seq; lia]).
  destruct (In_nth _ _ 0%nat I) as [i [L EI]]. rewrite order_length in L by exact SO. exists i. split; [now rewrite N_is|]. split; [exact EI|].
  intros s F. destruct (prepared_is argsort SO w WO n N1 NW p idx PR) as [_ [-> _]].
  assert (F1 : List.Forall (fun i => (i < length (order argsort w))%nat) s). { eapply Forall_impl; [|exact F]. intros j J. cbn beta in *. rewrite order_length by exact SO. now rewrite <- N_is. }
  rewrite members_order by exact F1. apply eq_true_iff_eq. rewrite mem_in, existsb_exists. split.
  - intros [y [Y EY]]. apply Z.eqb_eq in EY. subst y. apply in_map_iff in Y. destruct Y as [y [EY Y]]. apply Nat2Z.inj in EY. subst y. apply in_map_iff in Y. destruct Y as [j [EJ J]].
    assert (j = i); [|now subst]. rewrite Forall_forall in F1. apply (proj1 (NoDup_nth (order argsort w) 0%nat)); [|now apply F1|now rewrite order_length|congruence].
    eapply Permutation_NoDup; [symmetry; apply order_perm; exact SO|apply seq_NoDup].
  - intros J. exists (Z.of_nat x). split; [|apply Z.eqb_refl]. apply in_map, in_map_iff. exists i. now split.
Qed.
Theorem includes_mean : forall t k x, (x < length w)%nat -> (t * n <= k)%nat ->
  mean k (fun us => includes idx x (trial p t us)) = INR n * nth x w 0 / sumR w * (1 - (1 - chance) ^ t).
Proof.
  intros t k x X K. destruct (place x X) as [i [I [EI PL]]].
  rewrite (mean_ext k _ (fun us => includes idx x (snd (sampford_loop (list R) tape tape (cumsum sw) (map Num (cumsum ls)) n t 0 us)))) by (intros us; now rewrite trial_is).
  set (pay := fun s => if existsb (Z.eqb (Z.of_nat x)) (members idx s) then 1 else 0).
  rewrite (loop_mean sw ls n ltac:(lia) ls_len (sw_nonneg argsort SO w WO) tot_pos (lams_nonneg argsort SO w WO n NW) ls_pos (includes idx x) pay (fun _ _ => eq_refl) (fun _ => eq_refl) t 0 k K).
  assert (HQ : forall s, fine N s -> H N lr i 0 s = pay s) by (intros s F; cbn [H]; unfold pay; now rewrite PL).
  pose proof (value_is N pr lr c n pay c_sum pr_sum (H N lr i) HQ (fun m s _ => eq_refl) (H_set N lr i) t) as V.
  fold N pr lr c. unfold stop, total in V. fold chance in V. fold (part N lr pr n i) in V. rewrite (part_is N lr pr n ltac:(lia) pr_sum lr_rel i I) in V.
  replace (c ^ (n - 1) * (INR n * pr i * whole N lr pr n)) with (INR n * pr i * chance) in V by (unfold chance; ring).
  pose proof chance_pos. apply Rmult_eq_reg_l with chance; [|lra]. rewrite V.
  replace (pr i) with (nth x w 0 / sumR w); [unfold Rdiv; ring|]. unfold pr. rewrite tot_is. f_equal. unfold sw. rewrite in_order_nth by (rewrite order_length by exact SO; now rewrite <- N_is). now rewrite EI.
Qed.
Lemma chance_lim : is_lim_seq (fun t => 1 - (1 - chance) ^ t) 1.
Proof.
  pose proof chance_pos. pose proof chance_le. replace (Finite 1) with (Finite (1 - 0)) by (f_equal; ring). apply is_lim_seq_minus'; [apply is_lim_seq_const|].
  apply is_lim_seq_geom. rewrite Rabs_pos_eq; lra.
Qed.
End Sampler.

Theorem inclusion : forall argsort w n p idx,
  sorts argsort -> weights_ok w -> (1 <= n)%nat -> List.Forall (fun x => INR n * x < sumR w) w -> prepared argsort false w n p idx ->
  (forall t k x, (x < length w)%nat -> (t * n <= k)%nat ->
     mean k (fun us => includes idx x (trial p t us)) = INR n * nth x w 0 / sumR w * mean k (fun us => returns (trial p t us))) /\
  is_lim_seq (fun t => mean (t * n) (fun us => returns (trial p t us))) 1 /\
  (forall x, (x < length w)%nat -> is_lim_seq (fun t => mean (t * n) (fun us => includes idx x (trial p t us))) (INR n * nth x w 0 / sumR w)).
Proof.
  intros argsort w n p idx SO WO N1 NW PR.
  assert (N2 : (1 <= n < length w)%nat).
  { split; [exact N1|]. apply Nat.nle_gt. intros L.
    assert (G : forall v, List.Forall (fun x => INR n * x < sumR w) v -> v <> [] -> INR n * sumR v < INR (length v) * sumR w).
    { induction 1 as [|y v Y FV IH]; [now intros []|]. intros _. change (sumR (y :: v)) with (y + sumR v). cbn [length]. rewrite S_INR.
      destruct v as [|z v]; [cbn in *; lra|]. specialize (IH ltac:(discriminate)). lra. }
    assert (NE : w <> []) by (intros ->; destruct WO as [_ K]; cbn in K; lra). specialize (G w NW NE). apply le_INR in L. destruct WO as [_ K].
    apply Rmult_lt_reg_r in G; [lra|exact K]. }
  split; [|split].
  - intros t k x X K. rewrite (includes_mean argsort SO w WO n N2 NW p idx PR) by assumption. now rewrite (returns_mean argsort SO w WO n N2 NW p idx PR).
  - eapply is_lim_seq_ext; [|exact (chance_lim argsort SO w WO n N2 NW)]. intros t. symmetry. now apply returns_mean with (idx := idx); [..|lia].
  - intros x X. eapply is_lim_seq_ext; [intros t; symmetry; apply (includes_mean argsort SO w WO n N2 NW p idx PR); [exact X|lia]|].
    replace (Finite (INR n * nth x w 0 / sumR w)) with (Rbar_mult (INR n * nth x w 0 / sumR w) 1) by (cbn [Rbar_mult]; cbn; f_equal; ring).
    apply is_lim_seq_scal_l. exact (chance_lim argsort SO w WO n N2 NW).
Qed.
