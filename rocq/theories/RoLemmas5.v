(** Proofs about rombint. *)

From Coq Require Import List Bool Arith Reals Lra Lia.
From Coquelicot Require Import Coquelicot.
From Verif Require Import Instances RgSpec RgLemmas RoModel RoModel2 RoSpec RoLemmas RoLemmas2 RoLemmas4.
Import ListNotations.
Open Scope R_scope.

Lemma rom_row_ok l k x : rom_row (S k) x l = extrapolate (S k) x l.
Proof.
  revert k x. induction l as [|p l IH]; intros k x; [reflexivity|]. cbn [rom_row extrapolate]. pose proof (four k).
  replace ((4 ^ S k * x - p) / (4 ^ S k - 1)) with (x + (x - p) / (4 ^ S k - 1)) by (field; lra). cbv zeta. rewrite IH. reflexivity.
Qed.
Lemma fold_map (g : nat -> R) l s : fold_left Rplus (map g l) s = s + Sum g l.
Proof. revert s. induction l as [|x l IH]; intros s; cbn [map fold_left]; unfold Sum in *; cbn [fold_right]; [ring|]. rewrite IH. ring. Qed.
Lemma Sum_shift (g : nat -> R) n : Sum g (seq 1 n) = Sum (fun j => g (S j)) (seq 0 n).
Proof. rewrite <- seq_shift. unfold Sum. generalize (seq 0 n). intros l. induction l as [|x l IH]; cbn [map fold_right]; [reflexivity|]. rewrite IH. reflexivity. Qed.

Section Rombint.
Variable f : R -> R.
Variables a b : R.
Variable d : nat.
Let romall := map (fun k => f (a + INR k * ((b - a) / 2 ^ d))) (seq 0 (2 ^ d + 1)).
Lemma romall_nth k : (k <= 2 ^ d)%nat -> nth k romall 0 = f (a + INR k * ((b - a) / 2 ^ d)).
Proof.
  intros H. unfold romall. set (g := fun k => f (a + INR k * ((b - a) / 2 ^ d))). rewrite (nth_indep _ 0 (g 0%nat)) by (rewrite map_length, seq_length; lia).
  rewrite map_nth, seq_nth by lia. reflexivity.
Qed.
(** iteration n + 1 sums the odd points of row n *)
Lemma every_ok n : (1 <= n <= d)%nat -> let st := (2 ^ (S d - S n + 1))%nat in
  fold_left Rplus (every romall (st / 2 + 1) st (2 ^ (S d - 1))) 0 = Sum (fun k => f (a + (2 * INR k - 1) * ((b - a) / 2 ^ n))) (seq 1 (2 ^ (n - 1))).
Proof.
  intros Hn st. set (s := (2 ^ (d - n))%nat). assert (Hs : (s <> 0)%nat) by (apply Nat.pow_nonzero; lia).
  assert (Est : st = (2 * s)%nat) by (unfold st, s; replace (S d - S n + 1)%nat with (S (d - n)) by lia; reflexivity).
  assert (E2 : (st / 2 = s)%nat) by (rewrite Est, Nat.mul_comm; apply Nat.div_mul; lia). rewrite E2.
  assert (ED : (2 ^ d = 2 * s * 2 ^ (n - 1))%nat) by (unfold s; replace d with (S (d - n) + (n - 1))%nat at 1 by lia; rewrite Nat.pow_add_r; reflexivity).
  replace (S d - 1)%nat with d by lia. set (c := (2 ^ (n - 1))%nat) in *. assert (Hc : (c <> 0)%nat) by (apply Nat.pow_nonzero; lia).
  unfold every. destruct (Nat.ltb_spec (2 ^ d) (s + 1)) as [X|X]; [nia|].
  assert (EQ : ((2 ^ d - (s + 1)) / st + 1 = c)%nat).
  { assert (Y : (2 ^ d - (s + 1) = st * (c - 1) + (s - 1))%nat) by (rewrite ED, Est; destruct c as [|c']; [lia|]; replace (S c' - 1)%nat with c' by lia; nia).
    rewrite Y. rewrite (Nat.mul_comm st), Nat.div_add_l by lia. rewrite (Nat.div_small (s - 1) st) by lia. lia. }
  rewrite EQ, fold_map, Rplus_0_l, Sum_shift. apply Sum_ext. intros j Hj. apply in_seq in Hj.
  replace (s + 1 + j * st - 1)%nat with (s * (2 * j + 1))%nat by (rewrite Est; nia). rewrite romall_nth by (rewrite ED; nia).
  f_equal. f_equal. rewrite mult_INR, plus_INR, mult_INR, (S_INR j). change (INR 2) with 2. change (INR 1) with 1. unfold s. rewrite pow_INR. change (INR 2) with 2.
  replace (2 ^ d) with (2 ^ (d - n) * 2 ^ n) by (rewrite <- pow_add; f_equal; lia).
  pose proof (pow_lt 2 (d - n) ltac:(lra)). pose proof (pow_lt 2 n ltac:(lra)). field. lra.
Qed.
Lemma rombint_loop_ok k n : (n + k = d)%nat -> rombint_loop k (S d) romall (S (S n)) ((b - a) / 2 ^ n) (row_of f a b n) = row_of f a b d.
Proof.
  revert n. induction k as [|k IH]; intros n H; [replace n with d by lia; reflexivity|]. cbn [rombint_loop].
  rewrite (every_ok (S n)) by lia. rewrite rom_row_ok. replace (S n - 1)%nat with n by lia.
  set (first := (nth 0 (row_of f a b n) 0 + _) / 2).
  assert (E : first :: extrapolate 1 first (row_of f a b n) = row_of f a b (S n)).
  { rewrite <- next_ok. unfold next_row. replace (S n - 1)%nat with n by lia. rewrite (fold_Sum (fun k => f (a + (2 * INR k - 1) * ((b - a) / 2 ^ S n)))), Rplus_0_l.
    set (X := Sum _ _) in *. assert (Ef : first = 1 / 2 * nth 0 (row_of f a b n) 0 + (b - a) / 2 ^ S n * X).
    { unfold first. cbn [pow]. pose proof (pow_lt 2 n ltac:(lra)). field. lra. }
    cbv zeta. rewrite <- Ef. reflexivity. }
  rewrite E. replace ((b - a) / 2 ^ n / 2) with ((b - a) / 2 ^ S n) by (cbn [pow]; pose proof (pow_lt 2 n ltac:(lra)); field; lra). apply IH. lia.
Qed.
Lemma rombint_l : a <> b -> rombint f a b (S d) = Some (table f a b d d).
Proof.
  intros Hab. unfold rombint. destruct (Reqb a b) eqn:E; [apply Reqb_spec in E; destruct (Hab E)|]. cbv zeta. fold romall.
  assert (L : last romall 0 = f b).
  { unfold romall. rewrite seq_app, map_app. cbn [seq map]. rewrite last_last. cbn [Nat.add]. f_equal. rewrite pow_INR. change (INR 2) with 2. pose proof (pow_lt 2 d ltac:(lra)). field. lra. }
  rewrite L, romall_nth by lia. assert (R0 : [(b - a) * (f (a + INR 0 * ((b - a) / 2 ^ d)) + f b) / 2] = row_of f a b 0).
  { unfold row_of. cbn [seq map table Nat.pow]. unfold trapezoids. cbn [Nat.sub seq]. unfold Sum. cbn [fold_right INR].
    replace (a + 0 * ((b - a) / 2 ^ d)) with a by ring. f_equal. field. }
  rewrite R0. replace (b - a) with ((b - a) / 2 ^ 0) at 1 by (cbn [pow]; field). rewrite (rombint_loop_ok d 0 eq_refl).
  unfold row_of. rewrite nth_error_map. rewrite (nth_error_nth' _ 0%nat) by (rewrite seq_length; lia). rewrite seq_nth by lia. reflexivity.
Qed.
End Rombint.
Lemma rombint_limit_l f F a b e : a < b -> (forall t, a <= t <= b -> derivable_pt_lim F t (f t)) -> (forall t, a <= t <= b -> continuity_pt f t) -> 0 < e ->
  exists N, forall n, (N <= n)%nat -> exists v, rombint f a b n = Some v /\ Rabs (v - (F b - F a)) < e.
Proof.
  intros Hab HF Hf He. destruct (table_limit f F a b Hab HF Hf e He) as (N & HN). exists (S N). intros n Hn. destruct n as [|n]; [lia|].
  exists (table f a b n n). split; [apply rombint_l; lra|apply HN; lia].
Qed.
Lemma rombint_romberg_l f a b eps fuel v : a <> b -> romberg fuel f a b eps = Some v -> exists n, (2 <= n <= S fuel)%nat /\ rombint f a b n = Some v.
Proof. intros Hab H. apply result_l in H. destruct H as (n & Hn & -> & _). exists (S n). split; [lia|]. apply rombint_l, Hab. Qed.
Lemma refused_l f a b n : a = b \/ n = 0%nat -> rombint f a b n = None.
Proof. intros H. unfold rombint. destruct (Reqb a b) eqn:E; [reflexivity|]. destruct H as [H| ->]; [|reflexivity]. apply Reqb_spec in H. rewrite H in E. discriminate. Qed.

(** A function that vanishes at the points of row d *)
Lemma Sum_zero {A} (g : A -> R) l : (forall k, In k l -> g k = 0) -> Sum g l = 0.
Proof. intros H. induction l as [|x l IH]; unfold Sum in *; cbn [fold_right]; [reflexivity|]. rewrite (H x (or_introl eq_refl)), IH; [ring|]. intros k Hk. exact (H k (or_intror Hk)). Qed.
Lemma table_zero f d : (forall n k, (n <= d)%nat -> f (INR k / 2 ^ n) = 0) -> forall m n, (n <= d)%nat -> table f 0 1 m n = 0.
Proof.
  intros H. assert (H0 : f 0 = 0) by (transitivity (f (INR 0 / 2 ^ 0)); [f_equal; cbn [INR pow]; field|apply H; lia]). assert (H1 : f 1 = 0) by (transitivity (f (INR 1 / 2 ^ 0)); [f_equal; cbn [INR pow]; field|apply H; lia]).
  induction m as [|m IH]; intros n Hn.
  - cbn [table]. unfold trapezoids. rewrite H0, H1, Sum_zero; [unfold Rdiv; ring|]. intros k _. transitivity (f (INR k / 2 ^ n)); [|apply H; exact Hn]. f_equal. rewrite pow_INR. change (INR 2) with 2. pose proof (pow_lt 2 n ltac:(lra)). field. lra.
  - change (table f 0 1 (S m) n) with (table f 0 1 m n + (table f 0 1 m n - table f 0 1 m (n - 1)) / (4 ^ S m - 1)). rewrite (IH n Hn), (IH (n - 1)%nat ltac:(lia)). unfold Rdiv. ring.
Qed.
Lemma sin_INR k : sin (INR k * PI) = 0.
Proof. apply sin_eq_0_1. exists (Z.of_nat k). rewrite INR_IZR_INZ. reflexivity. Qed.
Lemma rombint_error_l n : (1 <= n)%nat -> exists f F, (forall t, derivable_pt_lim F t (f t)) /\ rombint f 0 1 n = Some 0 /\ F 1 - F 0 = 1 / 2.
Proof.
  intros Hn. destruct n as [|d]; [lia|]. set (w := 2 ^ d * PI). pose proof PI_RGT_0 as HP. pose proof (pow_lt 2 d ltac:(lra)) as H2. assert (Hw : 0 < w) by (apply Rmult_lt_0_compat; lra).
  exists (fun t => (sin (w * t)) ^ 2), (fun t => t / 2 - sin (w * t) * cos (w * t) / (2 * w)). split; [|split].
  - intros t. apply is_derive_Reals. auto_derive; [exact I|]. pose proof (sin2_cos2 (w * t)) as X. unfold Rsqr in X. transitivity ((1 - (cos (w * t) * cos (w * t) - sin (w * t) * sin (w * t))) / 2); [field; lra|]. cbn [pow]. lra.
  - rewrite rombint_l by lra. f_equal. apply (table_zero _ d); [|lia]. intros m k Hm.
    replace (w * (INR k / 2 ^ m)) with (INR (2 ^ (d - m) * k) * PI); [rewrite sin_INR; ring|]. unfold w. rewrite mult_INR, pow_INR. change (INR 2) with 2.
    replace (2 ^ d) with (2 ^ (d - m) * 2 ^ m) by (rewrite <- pow_add; f_equal; lia). pose proof (pow_lt 2 m ltac:(lra)). field. lra.
  - rewrite Rmult_0_r, sin_0. replace (w * 1) with (INR (2 ^ d) * PI) by (unfold w; rewrite pow_INR; change (INR 2) with 2; ring). rewrite sin_INR. field. lra.
Qed.
