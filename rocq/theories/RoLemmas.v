(** Proofs about romberg. *)

From Coq Require Import List Bool Arith Reals Lra Lia.
From Coquelicot Require Import Coquelicot.
From Verif Require Import Instances RgSpec RgLemmas RoModel RoSpec.
Import ListNotations.
Open Scope R_scope.

Lemma Sum_app {A} (g : A -> R) l l' : Sum g (l ++ l') = Sum g l + Sum g l'.
Proof. induction l as [|a l IH]; cbn [app]; unfold Sum in *; cbn [fold_right]; [ring|]. rewrite IH. ring. Qed.
Lemma Sum_S (g : nat -> R) n : Sum g (seq 1 (S n)) = Sum g (seq 1 n) + g (S n).
Proof. rewrite seq_S, Sum_app. unfold Sum at 2. cbn [fold_right]. rewrite Rplus_0_r. easy. Qed.
Lemma fold_Sum {A} (g : A -> R) l s : fold_left (fun s k => s + g k) l s = s + Sum g l.
Proof. revert s. induction l as [|a l IH]; intros s; cbn [fold_left]; unfold Sum in *; cbn [fold_right]; [ring|]. rewrite IH. ring. Qed.
Lemma odd_even (g : nat -> R) n : Sum g (seq 1 (2 * S n - 1)) = Sum (fun k => g (2 * k)%nat) (seq 1 n) + Sum (fun k => g (2 * k - 1)%nat) (seq 1 (S n)).
Proof.
  induction n as [|n IH]; [unfold Sum; cbn; ring|]. replace (2 * S (S n) - 1)%nat with (S (S (2 * S n - 1))) by lia.
  rewrite !Sum_S, IH. rewrite !Sum_S. replace (S (2 * S n - 1)) with (2 * S n)%nat by lia. replace (S (2 * S n)) with (2 * S (S n) - 1)%nat by lia. ring.
Qed.
Lemma pow2_nz n : (2 ^ n <> 0)%nat. Proof. apply Nat.pow_nonzero. lia. Qed.
Lemma halve f a b N : (N <> 0)%nat -> let h := (b - a) / INR (2 * N) in
  trapezoids f a b (2 * N) = (1 / 2) * trapezoids f a b N + h * Sum (fun k => f (a + (2 * INR k - 1) * h)) (seq 1 N).
Proof.
  intros HN h. destruct N as [|N]; [easy|]. assert (P : 0 < INR (S N)) by (apply lt_0_INR; lia).
  assert (D : INR (2 * S N) = 2 * INR (S N)) by (rewrite mult_INR; easy). unfold trapezoids. rewrite odd_even. replace (S N - 1)%nat with N by lia. fold h.
  rewrite (Sum_ext (fun k => f (a + INR (2 * k) * h)) (fun k => f (a + INR k * ((b - a) / INR (S N))))).
  2: { intros k _. f_equal. unfold h. rewrite D, mult_INR. change (INR 2) with 2. field. lra. }
  rewrite (Sum_ext (fun k => f (a + INR (2 * k - 1) * h)) (fun k => f (a + (2 * INR k - 1) * h))).
  2: { intros k Hk. apply in_seq in Hk. do 3 f_equal. rewrite minus_INR by lia. rewrite mult_INR. change (INR 2) with 2. change (INR 1) with 1. ring. }
  unfold h at 1. rewrite D. unfold h. rewrite D. field. lra.
Qed.

Section Rows.
Variable f : R -> R.
Variables a b : R.
Let T m n := table f a b m n.
Definition row_of (n : nat) : list R := map (fun m => T m n) (seq 0 (S n)).
Lemma extrapolate_ok n k m : (m <> 0)%nat -> (n <> 0)%nat ->
  extrapolate m (T (m - 1) n) (map (fun j => T j (n - 1)) (seq (m - 1) k)) = map (fun j => T j n) (seq m k).
Proof.
  revert m. induction k as [|k IH]; intros m Hm Hn; [easy|]. destruct m as [|m]; [easy|]. replace (S m - 1)%nat with m by lia. cbn [seq map extrapolate].
  change (T m n + (T m n - T m (n - 1)) / (4 ^ S m - 1)) with (T (S m) n). f_equal. specialize (IH (S (S m)) ltac:(lia) Hn). replace (S (S m) - 1)%nat with (S m) in IH by lia. exact IH.
Qed.
Lemma next_ok n : next_row f a b (S n) (row_of n) = row_of (S n).
Proof.
  unfold next_row. replace (S n - 1)%nat with n by lia. set (h := (b - a) / 2 ^ S n).
  assert (E : (1 / 2) * nth 0 (row_of n) 0 + h * fold_left (fun s k => s + f (a + (2 * INR k - 1) * h)) (seq 1 (2 ^ n)) 0 = T 0 (S n)).
  { unfold row_of. cbn [seq map nth]. rewrite fold_Sum, Rplus_0_l. unfold T. cbn [table].
    assert (Hh : h = (b - a) / INR (2 * 2 ^ n)) by (unfold h; f_equal; rewrite mult_INR, pow_INR; easy).
    change (2 ^ S n)%nat with (2 * 2 ^ n)%nat. rewrite (halve f a b (2 ^ n) (pow2_nz n)). cbv zeta. rewrite <- Hh. easy. }
  rewrite E. unfold row_of at 2. cbn [seq map]. f_equal. pose proof (extrapolate_ok (S n) (S n) 1 ltac:(lia) ltac:(lia)) as X. cbn [Nat.sub] in X. rewrite Nat.sub_0_r in X. exact X.
Qed.
Lemma nth_row m n : (m <= n)%nat -> nth m (row_of n) 0 = T m n.
Proof. intros H. unfold row_of. rewrite (nth_indep _ 0 (T 0 n)) by (rewrite map_length, seq_length; lia). rewrite (map_nth (fun m => T m n) _ 0%nat). rewrite seq_nth by lia. easy. Qed.
Variable eps : R.
Let small k := Rabs (T (k - 1) k - T k k) < eps.
Lemma loop_ok fuel n v : romberg_loop fuel f a b eps (S n) (row_of n) = Some v <->
  exists k, (S n <= k < S n + fuel)%nat /\ v = T k k /\ small k /\ forall j, (S n <= j < k)%nat -> ~ small j.
Proof.
  revert n. induction fuel as [|fuel IH]; intros n; cbn [romberg_loop].
  - split; [discriminate|]. intros (k & H & _). lia.
  - rewrite next_ok, !nth_row by lia. fold (small (S n)). destruct (Rltb _ eps) eqn:E.
    + apply Rltb_spec in E. split.
      * intros [= <-]. exists (S n). split; [lia|]. split; [easy|]. split; [exact E|]. intros j Hj. lia.
      * intros (k & H & -> & Sk & Hj). destruct (Nat.eq_dec k (S n)) as [->|N]; [easy|]. destruct (Hj (S n)); [lia|exact E].
    + assert (NS : ~ small (S n)) by (intros X; apply Rltb_spec in X; rewrite X in E; discriminate). rewrite IH. split.
      * intros (k & H & Hv & Sk & Hj). exists k. split; [lia|]. split; [easy|]. split; [easy|]. intros j Hj'. destruct (Nat.eq_dec j (S n)) as [->|N]; [easy|]. apply Hj. lia.
      * intros (k & H & Hv & Sk & Hj). exists k. split; [|split; [easy|split; [easy|intros j Hj'; apply Hj; lia]]]. destruct (Nat.eq_dec k (S n)) as [->|N]; [easy|lia].
Qed.
Lemma result_l fuel v : romberg fuel f a b eps = Some v <->
  exists n, (1 <= n <= fuel)%nat /\ v = T n n /\ small n /\ forall k, (1 <= k < n)%nat -> ~ small k.
Proof.
  unfold romberg. assert (E : [(1 / 2) * (b - a) * (f a + f b)] = row_of 0).
  { unfold row_of, T. cbn [seq map table Nat.pow]. unfold trapezoids. cbn [Nat.sub seq]. unfold Sum. cbn [fold_right INR]. f_equal. field. }
  rewrite E, loop_ok. split; intros (k & H & R); exists k; (split; [lia|exact R]).
Qed.
End Rows.

(** Cubics *)
Lemma table_11 f a b : table f a b 1 1 = (b - a) / 6 * (f a + 4 * f ((a + b) / 2) + f b).
Proof.
  cbn [table Nat.sub Nat.pow Nat.mul Nat.add]. unfold trapezoids. cbn [Nat.sub seq]. unfold Sum. cbn [fold_right INR]. replace (a + 1 * ((b - a) / (1 + 1))) with ((a + b) / 2) by field. field.
Qed.
Lemma table_12 f a b : table f a b 1 2 = (b - a) / 12 * (f a + 4 * f (a + (b - a) / 4) + 2 * f ((a + b) / 2) + 4 * f (a + 3 * (b - a) / 4) + f b).
Proof.
  cbn [table Nat.sub Nat.pow Nat.mul Nat.add]. unfold trapezoids. cbn [Nat.sub seq]. unfold Sum. cbn [fold_right INR].
  replace (a + 1 * ((b - a) / (1 + 1))) with ((a + b) / 2) by field. replace (a + 1 * ((b - a) / (1 + 1 + 1 + 1))) with (a + (b - a) / 4) by field.
  replace (a + (1 + 1) * ((b - a) / (1 + 1 + 1 + 1))) with ((a + b) / 2) by field. replace (a + (1 + 1 + 1) * ((b - a) / (1 + 1 + 1 + 1))) with (a + 3 * (b - a) / 4) by field. field.
Qed.
Lemma cubic_l f c0 c1 c2 c3 a b eps fuel : (forall t, f t = c0 + c1 * t + c2 * t ^ 2 + c3 * t ^ 3) -> 0 < eps -> (2 <= fuel)%nat ->
  let F t := c0 * t + c1 * t ^ 2 / 2 + c2 * t ^ 3 / 3 + c3 * t ^ 4 / 4 in romberg fuel f a b eps = Some (F b - F a).
Proof.
  intros Hf He Hn F. assert (E11 : table f a b 1 1 = F b - F a) by (rewrite table_11, !Hf; unfold F; field). assert (E12 : table f a b 1 2 = F b - F a) by (rewrite table_12, !Hf; unfold F; field).
  assert (E22 : table f a b 2 2 = F b - F a). { change (table f a b 2 2) with (table f a b 1 2 + (table f a b 1 2 - table f a b 1 1) / (4 ^ 2 - 1)). rewrite E11, E12. field. }
  apply result_l. destruct (Rlt_dec (Rabs (table f a b 0 1 - table f a b 1 1)) eps) as [Sm|Sm].
  - exists 1%nat. split; [lia|]. split; [now rewrite E11|]. split; [exact Sm|]. intros k Hk. lia.
  - exists 2%nat. split; [lia|]. split; [now rewrite E22|]. split; [cbn [Nat.sub]; rewrite E12, E22, Rminus_diag_eq, Rabs_R0 by easy; exact He|].
    intros k Hk. replace k with 1%nat by lia. exact Sm.
Qed.
Lemma never_l f a b eps fuel : eps <= 0 -> romberg fuel f a b eps = None.
Proof.
  intros He. destruct (romberg fuel f a b eps) as [v|] eqn:E; [|easy]. apply result_l in E. destruct E as (n & _ & _ & S & _).
  match type of S with Rabs ?x < _ => pose proof (Rabs_pos x) end. lra.
Qed.
Lemma accuracy_l : exists f F a b eps v, (forall t, derivable_pt_lim F t (f t)) /\ 0 < eps /\ romberg 1 f a b eps = Some v /\ eps < Rabs (v - (F b - F a)).
Proof.
  exists (fun t => (t * (1 - t) * (1 - 2 * t)) ^ 2), (fun t => t ^ 3 / 3 - 3 * t ^ 4 / 2 + 13 * t ^ 5 / 5 - 2 * t ^ 6 + 4 * t ^ 7 / 7), 0, 1, (1 / 1000), 0.
  split; [|split; [lra|split]].
  - intros t. apply is_derive_Reals. auto_derive; [easy|]. field.
  - apply result_l. exists 1%nat. split; [lia|]. set (f := fun t => (t * (1 - t) * (1 - 2 * t)) ^ 2).
    assert (E : table f 0 1 1 1 = 0) by (rewrite table_11; unfold f; field).
    assert (E0 : table f 0 1 0 1 = 0). { cbn [table Nat.pow Nat.mul Nat.add]. unfold trapezoids. cbn [Nat.sub seq]. unfold Sum. cbn [fold_right INR]. unfold f. field. }
    rewrite E. split; [easy|]. split; [cbn [Nat.sub]; rewrite E0, Rminus_0_r, Rabs_R0; lra|]. intros k Hk. lia.
  - match goal with |- _ < Rabs ?e => replace e with (- (1 / 210)) by field end. rewrite Rabs_Ropp, Rabs_right; lra.
Qed.

(** Limits exchanged *)
Lemma Sum_back (g : nat -> R) n : Sum (fun k => g (S n - k)%nat) (seq 1 n) = Sum g (seq 1 n).
Proof.
  induction n as [|n IH]; [easy|]. rewrite (Sum_S g n). cbn [seq]. rewrite <- seq_shift.
  change (Sum (fun k => g (S (S n) - k)%nat) (1%nat :: map S (seq 1 n))) with (g (S (S n) - 1)%nat + Sum (fun k => g (S (S n) - k)%nat) (map S (seq 1 n))). rewrite Sum_map. rewrite (Sum_ext _ (fun k => g (S n - k)%nat)) by (intros; f_equal; lia). rewrite IH. replace (S (S n) - 1)%nat with (S n) by lia. ring.
Qed.
Lemma trapezoids_back f a b n : (n <> 0)%nat -> trapezoids f b a n = - trapezoids f a b n.
Proof.
  intros H. destruct n as [|n]; [easy|]. unfold trapezoids. replace (S n - 1)%nat with n by lia. assert (P : 0 < INR (S n)) by (apply lt_0_INR; lia).
  rewrite <- (Sum_back (fun k => f (b + INR k * ((a - b) / INR (S n)))) n).
  rewrite (Sum_ext _ (fun k => f (a + INR k * ((b - a) / INR (S n))))).
  - field. lra.
  - intros k Hk. apply in_seq in Hk. f_equal. rewrite minus_INR by lia. field. lra.
Qed.
Lemma table_back f a b m n : table f b a m n = - table f a b m n.
Proof.
  revert n. induction m as [|m IH]; intros n; [apply trapezoids_back, pow2_nz|].
  change (table f b a m n + (table f b a m n - table f b a m (n - 1)) / (4 ^ S m - 1) = - (table f a b m n + (table f a b m n - table f a b m (n - 1)) / (4 ^ S m - 1))).
  rewrite !IH. unfold Rdiv. ring.
Qed.
Lemma back_some f a b eps fuel v : romberg fuel f a b eps = Some v -> romberg fuel f b a eps = Some (- v).
Proof.
  rewrite !result_l. intros (n & H & -> & Sm & L). assert (E : forall k, Rabs (table f b a (k - 1) k - table f b a k k) = Rabs (table f a b (k - 1) k - table f a b k k)).
  { intros k. rewrite (table_back f a b (k - 1) k), (table_back f a b k k). rewrite <- Rabs_Ropp. f_equal. ring. }
  exists n. split; [exact H|]. split; [rewrite (table_back f a b n n); reflexivity|]. split; [rewrite E; exact Sm|]. intros k Hk. rewrite E. apply L; exact Hk.
Qed.
Lemma back_l f a b eps fuel : romberg fuel f b a eps = option_map Ropp (romberg fuel f a b eps).
Proof.
  destruct (romberg fuel f a b eps) as [v|] eqn:E; cbn [option_map]; [now apply back_some|].
  destruct (romberg fuel f b a eps) as [w|] eqn:E'; [|easy]. apply back_some in E'. rewrite E in E'. discriminate.
Qed.
