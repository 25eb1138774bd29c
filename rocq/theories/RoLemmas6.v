(** Proofs about Rombergs_Integration_Method. *)

From Coq Require Import List Bool Arith ZArith Reals Lra Lia.
From Verif Require Import Instances RgSpec RgLemmas RoModel3 RoSpec RoSpec2 RoLemmas.
Import ListNotations.
Open Scope R_scope.

Definition factor (m : nat) : R := nth (m - 1) richardson 0.
Lemma factors_l m : (1 <= m <= 26)%nat -> Rabs (factor m * (4 ^ m - 1) - 1) <= 3 / 10 ^ 19.
Proof.
  intros H. assert (E : exists k, (k < 26)%nat /\ m = S k) by (exists (m - 1)%nat; lia). destruct E as (k & Hk & ->). clear H.
  do 26 (destruct k as [|k]; [unfold factor, richardson; cbn [Nat.sub nth pow]; apply Rabs_le; lra|]). lia.
Qed.

Section Method.
Variable f : R -> R.
Variables a h0 tol : R.
Hypothesis Hh : 0 < h0.
Let T m n := table_with factor f a (a + h0) m n.
Lemma sum_below_ok hh N j fuel s : 0 < hh -> (j <= N)%nat -> (N - j < fuel)%nat ->
  sum_below fuel f (a + (2 * INR j + 1) * hh) (2 * hh) (a + 2 * INR N * hh) s = Some (s + Sum (fun k => f (a + (2 * INR k - 1) * hh)) (seq (S j) (N - j))).
Proof.
  intros Hp. revert j s. induction fuel as [|fuel IH]; intros j s Hj Hf; [lia|]. cbn [sum_below].
  destruct (Rltb _ _) eqn:E.
  - apply Rltb_spec in E. assert (X : INR j < INR N) by (destruct (le_lt_dec N j) as [Y|Y]; [apply le_INR in Y; nra|apply lt_INR; exact Y]). apply INR_lt in X.
    replace (a + (2 * INR j + 1) * hh + 2 * hh) with (a + (2 * INR (S j) + 1) * hh) by (rewrite S_INR; ring). rewrite IH by lia.
    replace (N - j)%nat with (S (N - S j)) by lia. cbn [seq]. unfold Sum at 2. cbn [fold_right]. fold (Sum (fun k => f (a + (2 * INR k - 1) * hh)) (seq (S (S j)) (N - S j))).
    f_equal. replace (a + (2 * INR (S j) - 1) * hh) with (a + (2 * INR j + 1) * hh) by (rewrite S_INR; ring). ring.
  - assert (X : N = j). { destruct (Nat.eq_dec N j) as [Y|Y]; [exact Y|]. assert (Z : (S j <= N)%nat) by lia. apply le_INR in Z. rewrite S_INR in Z.
      assert (W : Rltb (a + (2 * INR j + 1) * hh) (a + 2 * INR N * hh) = true) by (apply Rltb_spec; nra). rewrite W in E. discriminate. }
    subst N. rewrite Nat.sub_diag. cbn [seq]. unfold Sum. cbn [fold_right]. f_equal. ring.
Qed.
Lemma richardson_ok n m k d0 : (m + k <= 26)%nat -> (1 <= n)%nat ->
  richardson_loop (skipn m richardson) (map (fun j => T j (n - 1)) (seq m k)) (T m n) d0 =
  (map (fun j => T j n) (seq m k), T (m + k) n, match k with O => d0 | S k' => T (m + k') n - T (m + k') (n - 1) end).
Proof.
  revert m d0. induction k as [|k IH]; intros m d0 H Hn.
  - cbn [seq map]. rewrite Nat.add_0_r. destruct (skipn m richardson); reflexivity.
  - assert (E : skipn m richardson = factor (S m) :: skipn (S m) richardson).
    { unfold factor. replace (S m - 1)%nat with m by lia. assert (L : (m < length richardson)%nat) by (change (length richardson) with 26%nat; lia).
      clear -L. revert m L. generalize richardson. intros l. induction l as [|x l IHl]; intros m L; [cbn [length] in L; lia|]. destruct m as [|m]; [reflexivity|]. cbn [length] in L. cbn [skipn nth]. rewrite IHl by lia. reflexivity. }
    rewrite E. cbn [seq map richardson_loop]. change (T m n + factor (S m) * (T m n - T m (n - 1))) with (T (S m) n). rewrite IH by lia.
    replace (S m + k)%nat with (m + S k)%nat by lia. f_equal. destruct k as [|k]; [rewrite Nat.add_0_r; reflexivity|]. replace (S m + k)%nat with (m + S k)%nat by lia. reflexivity.
Qed.
Let small k := Rabs (T (k - 1) k - T (k - 1) (k - 1)) < tol.
Lemma columns_ok n k x : (1 <= k)%nat -> (k + n <= 27)%nat ->
  exists v e, columns n k f a (a + h0) (h0 / 2 ^ (k - 1)) tol (map (fun j => T j (k - 1)) (seq 0 k)) x = Some (v, e) /\
  ((e = 0%Z /\ exists i, (k <= i < k + n)%nat /\ v = T i i /\ small i /\ forall j, (k <= j < i)%nat -> ~ small j) \/
   (e = (-1)%Z /\ (forall j, (k <= j < k + n)%nat -> ~ small j) /\ v = match n with O => x | S n' => T (k + n') (k + n') end)).
Proof.
  revert k x. induction n as [|n IH]; intros k x Hk H.
  - exists x, (-1)%Z. split; [reflexivity|]. right. split; [reflexivity|]. split; [intros j Hj; lia|reflexivity].
  - cbn [columns]. set (hh := h0 / 2 ^ (k - 1) * (1 / 2)). pose proof (pow_lt 2 (k - 1) ltac:(lra)) as P. assert (Hp : 0 < hh) by (unfold hh; apply Rmult_lt_0_compat; [apply Rdiv_lt_0_compat; lra|lra]).
    assert (EN : INR (2 ^ (k - 1)) = 2 ^ (k - 1)) by (rewrite pow_INR; reflexivity).
    assert (EU : a + h0 = a + 2 * INR (2 ^ (k - 1)) * hh) by (rewrite EN; unfold hh; field; lra).
    assert (ES : sum_below (S (2 ^ k)) f (a + hh) (h0 / 2 ^ (k - 1)) (a + h0) 0 = Some (Sum (fun k => f (a + (2 * INR k - 1) * hh)) (seq 1 (2 ^ (k - 1))))).
    { replace (a + hh) with (a + (2 * INR 0 + 1) * hh) by (cbn [INR]; ring). replace (h0 / 2 ^ (k - 1)) with (2 * hh) by (unfold hh; field; lra). rewrite EU at 1.
      rewrite sum_below_ok; [rewrite Nat.sub_0_r; f_equal; ring|exact Hp|lia|]. rewrite Nat.sub_0_r. assert (2 ^ (k - 1) <= 2 ^ k)%nat by (apply Nat.pow_le_mono_r; lia). lia. }
    rewrite ES. set (S0 := Sum _ _).
    assert (ET : hh * S0 + 1 / 2 * nth 0 (map (fun j => T j (k - 1)) (seq 0 k)) 0 = T 0 k).
    { unfold S0. clear S0 ES. assert (Eh : hh = h0 / 2 ^ (k - 1) * (1 / 2)) by reflexivity. clearbody hh. destruct k as [|k]; [lia|]. cbn [seq map nth]. unfold T. cbn [table_with]. replace (S k - 1)%nat with k in * by lia. change (2 ^ S k)%nat with (2 * 2 ^ k)%nat.
      rewrite (halve f a (a + h0) (2 ^ k) (pow2_nz k)). cbv zeta. replace ((a + h0 - a) / INR (2 * 2 ^ k)) with hh; [ring|].
      rewrite mult_INR, EN. change (INR 2) with 2. rewrite Eh. field. lra. }
    rewrite ET. pose proof (richardson_ok k 0 k 0 ltac:(lia) Hk) as R. change (skipn 0 richardson) with richardson in R. rewrite R. cbn [Nat.add].
    assert (ED : match k with O => 0 | S k' => T k' k - T k' (k - 1) end = T (k - 1) k - T (k - 1) (k - 1)) by (destruct k as [|k]; [lia|]; replace (S k - 1)%nat with k by lia; reflexivity). rewrite ED.
    destruct (Rltb (Rabs _) tol) eqn:E.
    + apply Rltb_spec in E. exists (T k k), 0%Z. split; [reflexivity|]. left. split; [reflexivity|]. exists k. split; [lia|]. split; [reflexivity|]. split; [exact E|]. intros j Hj. lia.
    + assert (NS : ~ small k) by (intros Z; apply Rltb_spec in Z; rewrite Z in E; discriminate).
      destruct (IH (S k) (T k k) ltac:(lia) ltac:(lia)) as (v & e & C & D). replace (S k - 1)%nat with k in C by lia. rewrite seq_S, map_app in C. cbn [map Nat.add] in C.
      replace (h0 / 2 ^ k) with hh in C by (unfold hh; replace k with (S (k - 1)) at 2 by lia; cbn [pow]; field; lra).
      exists v, e. split; [exact C|]. destruct D as [(-> & i & Hi & Hv & Si & L)|(-> & L & Hv)].
      * left. split; [reflexivity|]. exists i. split; [lia|]. split; [exact Hv|]. split; [exact Si|]. intros j Hj. destruct (Nat.eq_dec j k) as [->|N]; [exact NS|apply L; lia].
      * right. split; [reflexivity|]. split; [intros j Hj; destruct (Nat.eq_dec j k) as [->|N]; [exact NS|apply L; lia]|]. rewrite Hv. destruct n as [|n]; [rewrite Nat.add_0_r; reflexivity|]. replace (S k + n)%nat with (k + S n)%nat by lia. reflexivity.
Qed.
Lemma method_l mc : let cols := Z.to_nat (Z.min mc 27) in (2 <= cols)%nat ->
  exists v e, Rombergs_Integration_Method a h0 tol mc f = Some (v, e) /\
  ((e = 0%Z /\ exists i, (1 <= i < cols)%nat /\ v = T i i /\ small i /\ forall j, (1 <= j < i)%nat -> ~ small j) \/
   (e = (-1)%Z /\ (forall j, (1 <= j < cols)%nat -> ~ small j) /\ v = T (cols - 1) (cols - 1))).
Proof.
  intros cols Hc. unfold Rombergs_Integration_Method. change MAX_COLUMNS with 27%Z. replace (Z.to_nat (Z.min (Z.max mc 0) 27)) with cols by (unfold cols in *; lia). assert (Hm : (cols <= 27)%nat) by (unfold cols; lia).
  clearbody cols. destruct (columns_ok (cols - 1) 1 (1 / 2 * (f a + f (a + h0))) ltac:(lia) ltac:(lia)) as (v & e & C & D).
  assert (ED : [1 / 2 * h0 * (f a + f (a + h0))] = map (fun j => T j (1 - 1)) (seq 0 1)).
  { cbn [seq map Nat.sub]. unfold T. cbn [table_with Nat.pow]. unfold trapezoids. cbn [Nat.sub seq]. unfold Sum. cbn [fold_right INR]. f_equal. field. }
  rewrite ED. cbn [Nat.sub pow] in C. replace (h0 / 1) with h0 in C by field. cbn [Nat.sub]. rewrite C. exists v, e. split; [reflexivity|].
  destruct D as [(-> & i & Hi & R)|(-> & L & Hv)].
  - left. split; [reflexivity|]. exists i. split; [lia|exact R].
  - right. split; [reflexivity|]. split; [intros j Hj; apply L; lia|]. rewrite Hv. destruct (cols - 1)%nat as [|q] eqn:Q; [lia|]. reflexivity.
Qed.
End Method.
Lemma one_column_l a h tol mc f : (mc <= 1)%Z -> Rombergs_Integration_Method a h tol mc f = Some ((f a + f (a + h)) / 2, (-1)%Z).
Proof.
  intros H. unfold Rombergs_Integration_Method. change MAX_COLUMNS with 27%Z. replace (Z.to_nat (Z.min (Z.max mc 0) 27) - 1)%nat with 0%nat by lia. cbn [columns]. do 2 f_equal. field.
Qed.
