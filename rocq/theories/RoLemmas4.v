(** Late rows of romberg are near the integral. *)

From Coq Require Import List Bool Arith Reals Lra Lia.
From Verif Require Import Instances RgSpec RgLemmas RoModel RoSpec RoLemmas RoLemmas2.
Import ListNotations.
Open Scope R_scope.

Lemma finite_bound (g : nat -> R) K : exists M, 0 <= M /\ forall k, (k < K)%nat -> Rabs (g k) <= M.
Proof.
  induction K as [|K (M & HM & IH)]; [exists 0; split; [lra|intros k Hk; lia]|]. exists (M + Rabs (g K)). pose proof (Rabs_pos (g K)). split; [lra|].
  intros k Hk. destruct (Nat.eq_dec k K) as [->|N]; [lra|]. specialize (IH k ltac:(lia)). lra.
Qed.
Lemma pow_small r M d : 0 < r < 1 -> 0 < d -> exists N, forall n, (N <= n)%nat -> M * r ^ n < d.
Proof.
  intros Hr Hd. destruct (pow_lt_1_zero r ltac:(rewrite Rabs_right; lra) (d / (Rabs M + 1))) as (N & HN).
  { apply Rdiv_lt_0_compat; [exact Hd|]. pose proof (Rabs_pos M). lra. }
  exists N. intros n Hn. specialize (HN n Hn). assert (P : 0 < r ^ n) by (apply pow_lt; lra). rewrite Rabs_right in HN by lra. pose proof (Rabs_pos M) as PM. pose proof (Rle_abs M).
  apply (Rmult_lt_compat_r (Rabs M + 1)) in HN; [|lra]. replace (d / (Rabs M + 1) * (Rabs M + 1)) with d in HN by (field; lra). nra.
Qed.

Section Errors.
Variable f : R -> R.
Variables a b I d C : R.
Hypothesis Hd : 0 <= d.
Hypothesis HC : 0 <= C.
Hypothesis H0 : forall n, Rabs (table f a b 0 n - I) <= d + C * (2 / 3) ^ n.
Lemma error_bound m n : Rabs (table f a b m n - I) <= (6 - 5 / 4 ^ m) * (d + C * (2 / 3) ^ n).
Proof.
  revert n. induction m as [|m IH]; intros n; [cbn [pow]; replace (6 - 5 / 1) with 1 by field; rewrite Rmult_1_l; apply H0|].
  change (table f a b (S m) n) with (table f a b m n + (table f a b m n - table f a b m (n - 1)) / (4 ^ S m - 1)).
  pose proof (IH n) as H1. pose proof (IH (n - 1)%nat) as H2. pose proof (four m) as H4.
  set (q := 4 ^ S m) in *. assert (Eq : 4 ^ m = q / 4) by (unfold q; cbn [pow]; field). rewrite Eq in H1, H2.
  set (e := d + C * (2 / 3) ^ n). assert (He : 0 <= e) by (unfold e; pose proof (pow_lt (2 / 3) n ltac:(lra)); nra).
  assert (Hp : d + C * (2 / 3) ^ (n - 1) <= 3 / 2 * e).
  { unfold e. assert (X : (2 / 3) ^ (n - 1) <= 3 / 2 * (2 / 3) ^ n) by (destruct n as [|n]; cbn [pow Nat.sub]; [lra|]; rewrite Nat.sub_0_r; lra). apply (Rmult_le_compat_l C) in X; [lra|exact HC]. }
  fold e in H1. set (u := table f a b m n) in *. set (w := table f a b m (n - 1)) in *. set (c := 6 - 5 / (q / 4)) in *.
  assert (Ec : c = 6 - 20 / q) by (unfold c; field; lra).
  assert (Hc : 0 < c). { rewrite Ec. assert (20 / q <= 5); [|lra]. apply (Rmult_le_reg_r q); [lra|]. unfold Rdiv. rewrite Rmult_assoc, Rinv_l; lra. }
  assert (H3 : Rabs (w - I) <= 3 / 2 * (c * e)) by (eapply Rle_trans; [exact H2|]; apply (Rmult_le_compat_l c) in Hp; lra).
  assert (P : 0 < / (q - 1)) by (apply Rinv_0_lt_compat; lra).
  replace (u + (u - w) / (q - 1) - I) with ((q * (u - I) - (w - I)) * / (q - 1)) by (field; lra). rewrite Rabs_mult, (Rabs_right (/ (q - 1))) by lra.
  apply (Rle_trans _ ((q + 3 / 2) * (c * e) * / (q - 1))).
  - apply Rmult_le_compat_r; [lra|]. apply Rabs_le. apply abs_between in H1, H3. split; nra.
  - rewrite Ec. replace ((q + 3 / 2) * ((6 - 20 / q) * e) * / (q - 1)) with (((6 - 20 / q) * (q + 3 / 2) / (q - 1)) * e) by (field; lra). apply Rmult_le_compat_r; [exact He|].
    apply (Rmult_le_reg_r (q * (q - 1))); [nra|]. replace ((6 - 20 / q) * (q + 3 / 2) / (q - 1) * (q * (q - 1))) with ((6 * q - 20) * (q + 3 / 2)) by (field; lra).
    replace ((6 - 5 / q) * (q * (q - 1))) with ((6 * q - 5) * (q - 1)) by (field; lra). nra.
Qed.
Lemma last_bound n : Rabs (table f a b n n - I) <= 6 * (d + C * (2 / 3) ^ n).
Proof.
  eapply Rle_trans; [apply error_bound|]. apply Rmult_le_compat_r; [pose proof (pow_lt (2 / 3) n ltac:(lra)); nra|].
  assert (0 < 5 / 4 ^ n) by (apply Rdiv_lt_0_compat; [lra|apply pow_lt; lra]). lra.
Qed.
End Errors.

Section Limit.
Variables f F : R -> R.
Variables a b : R.
Hypothesis Hab : a < b.
Hypothesis HF : forall t, a <= t <= b -> derivable_pt_lim F t (f t).
Section Steps.
Variables d s : R.
Hypothesis Hs : forall x y, a <= x <= b -> a <= y <= b -> Rabs (x - y) < s -> Rabs (f x - f y) < d.
Lemma piece u w : a <= u -> u < w -> w <= b -> w - u < s -> Rabs ((w - u) * ((f u + f w) / 2) - (F w - F u)) <= (w - u) * d.
Proof.
  intros Hu Huw Hw Hh. destruct (MVT_cor2 F f u w Huw ltac:(intros c Hc; apply HF; lra)) as (c & -> & Hc).
  pose proof (Hs u c ltac:(lra) ltac:(lra) ltac:(rewrite Rabs_left; lra)) as X. pose proof (Hs w c ltac:(lra) ltac:(lra) ltac:(rewrite Rabs_right; lra)) as Y.
  replace ((w - u) * ((f u + f w) / 2) - f c * (w - u)) with ((w - u) * (((f u - f c) + (f w - f c)) / 2)) by field.
  rewrite Rabs_mult, (Rabs_right (w - u)) by lra. apply Rmult_le_compat_l; [lra|]. apply Rabs_le. apply Rlt_le, abs_between in X. apply Rlt_le, abs_between in Y. lra.
Qed.
Lemma trapezoids_near n : (n <> 0)%nat -> (b - a) / INR n < s -> Rabs (trapezoids f a b n - (F b - F a)) <= (b - a) * d.
Proof.
  intros Hn Hh. set (h := (b - a) / INR n) in *. assert (P : 0 < INR n) by (apply lt_0_INR; lia). assert (Hp : 0 < h) by (apply Rdiv_lt_0_compat; lra).
  assert (Eh : INR n * h = b - a) by (unfold h; field; lra). set (x := fun k => a + INR k * h).
  assert (X : forall k, (k <= n)%nat -> a <= x k <= b).
  { intros k Hk. apply le_INR in Hk. pose proof (pos_INR k). unfold x. split; nra. }
  assert (D : forall k, x (S k) - x k = h) by (intros k; unfold x; rewrite S_INR; ring).
  assert (L : forall i, (S i <= n)%nat -> Rabs (h * ((f a + f (x (S i))) / 2 + Sum (fun k => f (x k)) (seq 1 i)) - (F (x (S i)) - F a)) <= INR (S i) * h * d).
  { assert (Q : forall i, (S i <= n)%nat -> Rabs (h * ((f (x i) + f (x (S i))) / 2) - (F (x (S i)) - F (x i))) <= h * d).
    { intros i Hi. rewrite <- (D i). apply piece; [apply X; lia|pose proof (D i); lra|apply X; lia|rewrite D; exact Hh]. }
    induction i as [|i IH]; intros Hi.
    - specialize (Q 0%nat Hi). assert (E : x 0%nat = a) by (unfold x; cbn [INR]; ring). rewrite E in Q. unfold Sum. cbn [seq fold_right]. rewrite Rplus_0_r. change (INR 1) with 1. rewrite Rmult_1_l. exact Q.
    - specialize (IH ltac:(lia)). specialize (Q (S i) Hi). rewrite Sum_S. rewrite (S_INR (S i)). cbv beta. set (Y := Sum _ _) in *.
      replace (h * ((f a + f (x (S (S i)))) / 2 + (Y + f (x (S i)))) - (F (x (S (S i))) - F a))
        with ((h * ((f a + f (x (S i))) / 2 + Y) - (F (x (S i)) - F a)) + (h * ((f (x (S i)) + f (x (S (S i)))) / 2) - (F (x (S (S i))) - F (x (S i))))) by field.
      eapply Rle_trans; [apply Rabs_triang|]. lra. }
  destruct n as [|n]; [destruct Hn; reflexivity|]. specialize (L n (le_n _)). unfold trapezoids. fold h. replace (S n - 1)%nat with n by lia.
  assert (E : x (S n) = b) by (unfold x; rewrite Eh; ring). rewrite E, Eh in L. exact L.
Qed.
End Steps.
Hypothesis Hf : forall t, a <= t <= b -> continuity_pt f t.
Lemma table_limit e : 0 < e -> exists N, forall n, (N <= n)%nat -> Rabs (table f a b n n - (F b - F a)) < e.
Proof.
  intros He. set (d := e / (24 * (b - a))). assert (Hd : 0 < d) by (apply Rdiv_lt_0_compat; lra).
  destruct (@Heine_cor2 f a b Hf (mkposreal d Hd)) as (s & Hs). cbn [pos] in Hs.
  destruct (pow_small (1 / 2) (b - a) s ltac:(lra) (cond_pos s)) as (K & HK).
  assert (N0 : forall n, (K <= n)%nat -> Rabs (table f a b 0 n - (F b - F a)) <= (b - a) * d).
  { intros n Hn. apply (trapezoids_near d s Hs (2 ^ n)); [apply pow2_nz|]. specialize (HK n Hn). rewrite pow_INR. change (INR 2) with 2.
    replace ((b - a) / 2 ^ n) with ((b - a) * (1 / 2) ^ n); [exact HK|]. unfold Rdiv. rewrite Rmult_1_l, pow_inv. reflexivity. }
  destruct (finite_bound (fun n => table f a b 0 n - (F b - F a)) K) as (M & HM & NM). set (C := M * (3 / 2) ^ K).
  assert (HC : 0 <= C) by (apply Rmult_le_pos; [exact HM|apply pow_le; lra]).
  assert (Ed : (b - a) * d = e / 24) by (unfold d; field; lra). rewrite Ed in N0.
  assert (A : forall n, Rabs (table f a b 0 n - (F b - F a)) <= e / 24 + C * (2 / 3) ^ n).
  { intros n. pose proof (pow_lt (2 / 3) n ltac:(lra)) as Pn. destruct (le_lt_dec K n) as [Hn|Hn]; [specialize (N0 n Hn); nra|]. specialize (NM n Hn). cbv beta in NM.
    assert (Y : 1 <= (3 / 2) ^ K * (2 / 3) ^ n).
    { replace K with ((K - n) + n)%nat by lia. rewrite pow_add, Rmult_assoc, <- Rpow_mult_distr. replace (3 / 2 * (2 / 3)) with 1 by field. rewrite pow1, Rmult_1_r. apply pow_R1_Rle. lra. }
    unfold C. rewrite Rmult_assoc. apply (Rmult_le_compat_l M) in Y; [lra|exact HM]. }
  destruct (pow_small (2 / 3) C (e / 24) ltac:(lra) ltac:(lra)) as (N & HN). exists N. intros n Hn.
  pose proof (last_bound f a b (F b - F a) (e / 24) C ltac:(lra) HC A n). specialize (HN n Hn). lra.
Qed.
Lemma limit_l e : 0 < e -> exists N, forall eps fuel v, romberg N f a b eps = None -> romberg fuel f a b eps = Some v -> Rabs (v - (F b - F a)) < e.
Proof.
  intros He. destruct (table_limit e He) as (N & HN). exists N. intros eps fuel v H H'. apply result_l in H'. destruct H' as (n & Hn & -> & Sm & L).
  apply HN. destruct (le_lt_dec n N) as [X|X]; [|lia]. assert (Y : romberg N f a b eps = Some (table f a b n n)); [|rewrite Y in H; discriminate].
  apply result_l. exists n. split; [lia|]. split; [reflexivity|]. split; [exact Sm|exact L].
Qed.
End Limit.
