(** romberg returns for bounded functions; quintics. *)

From Coq Require Import List Bool Arith Reals Lra Lia.
From Verif Require Import Instances RgSpec RgLemmas RoModel RoSpec RoLemmas.
Import ListNotations.
Open Scope R_scope.

Lemma Sum_bound {A} (g : A -> R) M l : (forall k, In k l -> Rabs (g k) <= M) -> Rabs (Sum g l) <= INR (length l) * M.
Proof.
  induction l as [|x l IH]; intros H; unfold Sum in *; cbn [fold_right]; [cbn [length INR]; rewrite Rabs_R0; lra|].
  change (length (x :: l)) with (S (length l)). rewrite S_INR. eapply Rle_trans; [apply Rabs_triang|].
  pose proof (H x (or_introl eq_refl)). pose proof (IH (fun k Hk => H k (or_intror Hk))). lra.
Qed.
Lemma abs_between x y : Rabs x <= y -> - y <= x <= y.
Proof. intros H. pose proof (Rle_abs x). pose proof (Rle_abs (- x)). rewrite Rabs_Ropp in *. lra. Qed.
Lemma between a b s : 0 <= s <= 1 -> Rmin a b <= a + s * (b - a) <= Rmax a b.
Proof. intros H. unfold Rmin, Rmax. destruct (Rle_dec a b); split; nra. Qed.
Lemma four n : 4 <= 4 ^ S n.
Proof. cbn [pow]. pose proof (pow_R1_Rle 4 n ltac:(lra)). lra. Qed.

Section Bounded.
Variable f : R -> R.
Variables a b M : R.
Hypothesis HM : forall t, Rmin a b <= t <= Rmax a b -> Rabs (f t) <= M.
Let B := M * Rabs (b - a).
Lemma M_pos : 0 <= M.
Proof. eapply Rle_trans; [apply Rabs_pos|apply (HM (a + 0 * (b - a))), between; lra]. Qed.
Lemma B_pos : 0 <= B. Proof. apply Rmult_le_pos; [apply M_pos|apply Rabs_pos]. Qed.
Lemma trapezoids_bound n : (n <> 0)%nat -> Rabs (trapezoids f a b n) <= B.
Proof.
  intros Hn. destruct n as [|n]; [destruct Hn; reflexivity|]. assert (P : 0 < INR (S n)) by (apply lt_0_INR; lia).
  unfold trapezoids. replace (S n - 1)%nat with n by lia. set (X := Sum _ _).
  assert (HX : Rabs X <= INR n * M).
  { unfold X. rewrite <- (seq_length n 1) at 2. apply Sum_bound. intros k Hk. apply in_seq in Hk.
    replace (a + INR k * ((b - a) / INR (S n))) with (a + (INR k / INR (S n)) * (b - a)) by (field; lra).
    apply HM, between. assert (INR k <= INR (S n)) by (apply le_INR; lia). pose proof (pos_INR k).
    split; [apply Rmult_le_pos; [lra|left; apply Rinv_0_lt_compat; lra]|]. apply (Rmult_le_reg_r (INR (S n))); [lra|]. unfold Rdiv. rewrite Rmult_assoc, Rinv_l by lra. lra. }
  assert (Ha : Rabs (f a) <= M) by (replace a with (a + 0 * (b - a)) at 1 by ring; apply HM, between; lra).
  assert (Hb : Rabs (f b) <= M) by (replace b with (a + 1 * (b - a)) at 1 by ring; apply HM, between; lra).
  assert (HY : Rabs ((f a + f b) / 2 + X) <= INR (S n) * M).
  { rewrite S_INR. apply Rabs_le. apply abs_between in HX, Ha, Hb. lra. }
  rewrite Rabs_mult. unfold Rdiv at 1. rewrite Rabs_mult, (Rabs_right (/ _)) by (left; apply Rinv_0_lt_compat; lra).
  apply (Rle_trans _ (Rabs (b - a) * / INR (S n) * (INR (S n) * M))).
  - apply Rmult_le_compat_l; [|exact HY]. apply Rmult_le_pos; [apply Rabs_pos|left; apply Rinv_0_lt_compat; lra].
  - right. unfold B. field. lra.
Qed.
Lemma table_bound m n : Rabs (table f a b m n) <= B * (3 - 2 / 4 ^ m).
Proof.
  revert n. induction m as [|m IH]; intros n.
  - cbn [pow]. replace (3 - 2 / 1) with 1 by field. rewrite Rmult_1_r. apply (trapezoids_bound (2 ^ n)), pow2_nz.
  - change (table f a b (S m) n) with (table f a b m n + (table f a b m n - table f a b m (n - 1)) / (4 ^ S m - 1)).
    pose proof (IH n) as H1. pose proof (IH (n - 1)%nat) as H2. pose proof (four m) as H4. pose proof B_pos as HB.
    set (q := 4 ^ S m) in *. assert (Eq : 4 ^ m = q / 4) by (unfold q; cbn [pow]; field). rewrite Eq in H1, H2.
    set (u := table f a b m n) in *. set (w := table f a b m (n - 1)) in *. set (c := B * (3 - 2 / (q / 4))) in *.
    assert (Hd : Rabs ((u - w) / (q - 1)) <= 2 * c / (q - 1)).
    { unfold Rdiv. rewrite Rabs_mult, (Rabs_right (/ _)) by (left; apply Rinv_0_lt_compat; lra). apply Rmult_le_compat_r; [left; apply Rinv_0_lt_compat; lra|].
      apply Rabs_le. apply abs_between in H1, H2. lra. }
    eapply Rle_trans; [apply Rabs_triang|]. apply (Rle_trans _ (c + 2 * c / (q - 1))); [lra|]. unfold c.
    replace (B * (3 - 2 / (q / 4)) + 2 * (B * (3 - 2 / (q / 4))) / (q - 1)) with (B * ((3 - 8 / q) * (q + 1) / (q - 1))) by (field; lra).
    apply Rmult_le_compat_l; [exact HB|]. apply (Rmult_le_reg_r (q * (q - 1))); [nra|].
    replace ((3 - 8 / q) * (q + 1) / (q - 1) * (q * (q - 1))) with ((3 * q - 8) * (q + 1)) by (field; lra).
    replace ((3 - 2 / q) * (q * (q - 1))) with ((3 * q - 2) * (q - 1)) by (field; lra). nra.
Qed.
Lemma table_bound' m n : Rabs (table f a b m n) <= 3 * B.
Proof.
  eapply Rle_trans; [apply table_bound|]. rewrite (Rmult_comm 3). apply Rmult_le_compat_l; [apply B_pos|].
  assert (0 < 2 / 4 ^ m) by (apply Rdiv_lt_0_compat; [lra|apply pow_lt; lra]). lra.
Qed.
Lemma ends_bound n : (1 <= n)%nat -> Rabs (table f a b (n - 1) n - table f a b n n) <= 6 * B / (4 ^ n - 1).
Proof.
  intros Hn. destruct n as [|n]; [lia|]. replace (S n - 1)%nat with n by lia.
  change (table f a b (S n) (S n)) with (table f a b n (S n) + (table f a b n (S n) - table f a b n (S n - 1)) / (4 ^ S n - 1)).
  pose proof (four n). pose proof (table_bound' n (S n)) as H1. pose proof (table_bound' n (S n - 1)) as H2. set (u := table f a b n (S n)) in *. set (w := table f a b n (S n - 1)) in *.
  replace (u - (u + (u - w) / (4 ^ S n - 1))) with ((w - u) / (4 ^ S n - 1)) by (field; lra).
  unfold Rdiv. rewrite Rabs_mult, (Rabs_right (/ _)) by (left; apply Rinv_0_lt_compat; lra). apply Rmult_le_compat_r; [left; apply Rinv_0_lt_compat; lra|].
  apply Rabs_le. apply abs_between in H1, H2. lra.
Qed.
Lemma first_small eps n : Rabs (table f a b n (S n) - table f a b (S n) (S n)) < eps ->
  exists k, (1 <= k <= S n)%nat /\ Rabs (table f a b (k - 1) k - table f a b k k) < eps /\ forall j, (1 <= j < k)%nat -> ~ Rabs (table f a b (j - 1) j - table f a b j j) < eps.
Proof.
  induction n as [n IH] using lt_wf_ind. intros H.
  destruct (Exists_dec (fun j => Rabs (table f a b (j - 1) j - table f a b j j) < eps) (seq 1 n) (fun j => Rlt_dec _ _)) as [E|E].
  - apply Exists_exists in E. destruct E as (j & Hj & Sj). apply in_seq in Hj. destruct (IH (j - 1)%nat ltac:(lia)) as (k & Hk & Sk).
    { replace (S (j - 1)) with j by lia. exact Sj. } exists k. split; [lia|exact Sk].
  - exists (S n). split; [lia|]. replace (S n - 1)%nat with n by lia. split; [exact H|]. intros j Hj Sj. apply E, Exists_exists. exists j. split; [apply in_seq; lia|exact Sj].
Qed.
Lemma returns_l eps fuel : 6 * M * Rabs (b - a) < eps * (4 ^ fuel - 1) -> exists v, romberg fuel f a b eps = Some v.
Proof.
  intros H. pose proof B_pos as HB. unfold B in HB. destruct fuel as [|n]; [cbn [pow] in H; lra|].
  assert (Sm : Rabs (table f a b n (S n) - table f a b (S n) (S n)) < eps).
  { pose proof (ends_bound (S n) ltac:(lia)) as X. replace (S n - 1)%nat with n in X by lia. eapply Rle_lt_trans; [exact X|]. pose proof (four n).
    apply (Rmult_lt_reg_r (4 ^ S n - 1)); [lra|]. unfold Rdiv. rewrite Rmult_assoc, Rinv_l by lra. unfold B. lra. }
  destruct (first_small eps n Sm) as (k & Hk & Sk & L). exists (table f a b k k). apply result_l. exists k. split; [lia|]. split; [reflexivity|]. split; [exact Sk|exact L].
Qed.
Lemma halts_l eps : 0 < eps -> exists fuel v, romberg fuel f a b eps = Some v.
Proof.
  intros He. destruct (Pow_x_infinity 4 ltac:(rewrite Rabs_right; lra) (6 * M * Rabs (b - a) / eps + 2)) as (n & Hn). specialize (Hn n (le_n n)).
  rewrite Rabs_right in Hn by (apply Rle_ge, pow_le; lra). exists n. apply returns_l.
  assert (X : 6 * M * Rabs (b - a) / eps < 4 ^ n - 1) by lra. apply (Rmult_lt_compat_l eps) in X; [|exact He].
  replace (eps * (6 * M * Rabs (b - a) / eps)) with (6 * M * Rabs (b - a)) in X by (field; lra). exact X.
Qed.
End Bounded.

(** Quintics *)
Lemma table_13 f a b : let x k := f (a + k * ((b - a) / 8)) in
  table f a b 1 3 = (b - a) / 24 * (x 0 + 4 * x 1 + 2 * x 2 + 4 * x 3 + 2 * x 4 + 4 * x 5 + 2 * x 6 + 4 * x 7 + x 8).
Proof.
  intros x. cbn [table Nat.sub Nat.pow Nat.mul Nat.add]. unfold trapezoids. cbn [Nat.sub seq]. unfold Sum. cbn [fold_right].
  replace ((b - a) / INR 4) with ((b - a) / 4) by (cbn [INR]; field). replace ((b - a) / INR 8) with ((b - a) / 8) by (cbn [INR]; field).
  assert (E : forall k, f (a + INR k * ((b - a) / 4)) = x (2 * INR k)) by (intros k; unfold x; f_equal; field). rewrite !E.
  assert (E' : forall k, f (a + INR k * ((b - a) / 8)) = x (INR k)) by (intros k; unfold x; f_equal; field). rewrite !E'.
  replace (f a) with (x 0) by (unfold x; f_equal; field). replace (f b) with (x 8) by (unfold x; f_equal; field). clear E E'. clearbody x.
  replace (INR 1) with 1 by (cbn [INR]; ring). replace (INR 2) with 2 by (cbn [INR]; ring). replace (INR 3) with 3 by (cbn [INR]; ring).
  replace (INR 4) with 4 by (cbn [INR]; ring). replace (INR 5) with 5 by (cbn [INR]; ring). replace (INR 6) with 6 by (cbn [INR]; ring). replace (INR 7) with 7 by (cbn [INR]; ring).
  replace (2 * 1) with 2 by ring. replace (2 * 2) with 4 by ring. replace (2 * 3) with 6 by ring. field.
Qed.
Lemma quintic_l f c0 c1 c2 c3 c4 c5 a b eps fuel : (forall t, f t = c0 + c1 * t + c2 * t ^ 2 + c3 * t ^ 3 + c4 * t ^ 4 + c5 * t ^ 5) -> 0 < eps -> (3 <= fuel)%nat ->
  let F t := c0 * t + c1 * t ^ 2 / 2 + c2 * t ^ 3 / 3 + c3 * t ^ 4 / 4 + c4 * t ^ 5 / 5 + c5 * t ^ 6 / 6 in
  ~ Rabs (table f a b 0 1 - table f a b 1 1) < eps -> romberg fuel f a b eps = Some (F b - F a).
Proof.
  intros Hf He Hn F S1. assert (E22 : table f a b 2 2 = F b - F a).
  { change (table f a b 2 2) with (table f a b 1 2 + (table f a b 1 2 - table f a b 1 1) / (4 ^ 2 - 1)). rewrite table_11, table_12, !Hf. unfold F. field. }
  assert (E23 : table f a b 2 3 = F b - F a).
  { change (table f a b 2 3) with (table f a b 1 3 + (table f a b 1 3 - table f a b 1 2) / (4 ^ 2 - 1)). rewrite table_13, table_12. cbv beta zeta. rewrite !Hf. unfold F. field. }
  assert (E33 : table f a b 3 3 = F b - F a).
  { change (table f a b 3 3) with (table f a b 2 3 + (table f a b 2 3 - table f a b 2 2) / (4 ^ 3 - 1)). rewrite E22, E23. field. }
  apply result_l. destruct (Rlt_dec (Rabs (table f a b 1 2 - table f a b 2 2)) eps) as [Sm|Sm].
  - exists 2%nat. split; [lia|]. split; [symmetry; exact E22|]. split; [exact Sm|]. intros k Hk. replace k with 1%nat by lia. exact S1.
  - exists 3%nat. split; [lia|]. split; [symmetry; exact E33|]. split; [change (3 - 1)%nat with 2%nat; rewrite E23, E33, Rminus_diag_eq, Rabs_R0 by reflexivity; exact He|].
    intros k Hk. destruct (Nat.eq_dec k 1) as [->|N]; [exact S1|]. replace k with 2%nat by lia. exact Sm.
Qed.
