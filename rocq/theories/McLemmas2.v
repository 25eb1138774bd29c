(** Lemmas on the integers and doubles of randomkit.c. *)

From Coq Require Import ZArith List Bool Arith Reals Lia Lra.
From Verif Require Import Exn Instances CountSpec McModel McSpec McLemmas.
Import ListNotations.
Open Scope Z_scope.

Lemma ones_is : forall n, Z.ones n = 2 ^ n - 1.
Proof. intros n. rewrite Z.ones_equiv. lia. Qed.
Definition smeared (max w m : Z) : Prop :=
  forall i, 0 <= i -> Z.testbit m i = true <-> exists j, i <= j < i + w /\ Z.testbit max j = true.
Lemma smear_start : forall max, smeared max 1 max.
Proof. intros max i I. split; [intros H; exists i; split; [lia|exact H]|]. intros [j [J H]]. now replace i with j by lia. Qed.
Lemma smear_step : forall max w m, 0 <= w -> smeared max w m -> smeared max (2 * w) (Z.lor m (Z.shiftr m w)).
Proof.
  intros max w m W S i I. rewrite Z.lor_spec, Z.shiftr_spec, orb_true_iff by exact I.
  rewrite (S i I), (S (i + w)) by lia. split.
  - intros [[j [J H]]|[j [J H]]]; exists j; (split; [lia|exact H]).
  - intros [j [J H]]. destruct (Z.ltb_spec j (i + w)); [left|right]; exists j; (split; [lia|exact H]).
Qed.
Lemma smeared_mask : forall max w m, 0 < max < 2 ^ w -> 0 <= w -> smeared max w m -> m = 2 ^ (Z.log2 max + 1) - 1.
Proof.
  intros max w m M W S. rewrite <- ones_is. apply Z.bits_inj'. intros i I.
  pose proof (Z.log2_nonneg max). assert (B : Z.log2 max < w) by (apply Z.log2_lt_pow2; lia).
  destruct (Z.ltb_spec i (Z.log2 max + 1)).
  - rewrite Z.ones_spec_low by lia. apply S; [exact I|]. exists (Z.log2 max). split; [lia|]. apply Z.bit_log2; lia.
  - rewrite Z.ones_spec_high by lia. apply not_true_iff_false. intros H2. apply S in H2; [|exact I]. destruct H2 as [j [J H2]].
    rewrite Z.bits_above_log2 in H2 by lia. discriminate.
Qed.
Lemma mask_is : forall (wide : bool) max, 0 < max < 2 ^ (if wide then 64 else 32) -> rk_mask wide max = 2 ^ (Z.log2 max + 1) - 1.
Proof.
  intros wide max M. apply (smeared_mask max (if wide then 64 else 32)); [exact M|destruct wide; lia|].
  unfold rk_mask. pose proof (smear_start max) as S0.
  pose proof (smear_step max 1 _ ltac:(lia) S0) as S1. change (2 * 1) with 2 in S1.
  pose proof (smear_step max 2 _ ltac:(lia) S1) as S2. change (2 * 2) with 4 in S2.
  pose proof (smear_step max 4 _ ltac:(lia) S2) as S3. change (2 * 4) with 8 in S3.
  pose proof (smear_step max 8 _ ltac:(lia) S3) as S4. change (2 * 8) with 16 in S4.
  pose proof (smear_step max 16 _ ltac:(lia) S4) as S5. change (2 * 16) with 32 in S5.
  destruct wide; [|exact S5]. exact (smear_step max 32 _ ltac:(lia) S5).
Qed.

Lemma lor_add : forall a b, word b -> Z.lor (Z.shiftl a 32) b = 2 ^ 32 * a + b.
Proof.
  intros a b B. rewrite <- (Z.mod_small b (2 ^ 32)) by exact B.
  replace (2 ^ 32 * a) with (Z.shiftl a 32) by (rewrite Z.shiftl_mul_pow2; lia).
  assert (N : Z.land (Z.shiftl a 32) (b mod 2 ^ 32) = 0).
  { apply Z.bits_inj'; intros n N; rewrite Z.land_spec, Z.shiftl_spec, Z.bits_0 by exact N; destruct (Z.ltb_spec n 32).
    + rewrite Z.testbit_neg_r by lia. reflexivity.
    + rewrite Z.mod_pow2_bits_high by lia. apply andb_false_r. }
  rewrite <- Z.lxor_lor by exact N. symmetry. now apply Z.add_nocarry_lxor.
Qed.
Lemma ulong_good : forall (wide : bool) g, good g -> exists g' ys l, rk_ulong wide g = (g', Ok l) /\ good g' /\ outputs g ys g' /\ longs wide ys [l] /\
  0 <= l < 2 ^ (if wide then 64 else 32).
Proof.
  intros wide g G. unfold rk_ulong. destruct (random_good g G) as [g1 [a [E1 [G1 A]]]]. destruct wide.
  - destruct (random_good g1 G1) as [g2 [b [E2 [G2 B]]]]. unfold bind. rewrite E1, E2. unfold ret. rewrite lor_add by exact B.
    exists g2, [a; b]. eexists. split; [reflexivity|]. split; [exact G2|]. split; [|split].
    + econstructor; [exact E1|]. econstructor; [exact E2|constructor].
    + apply longs_two; [reflexivity|constructor].
    + change (2 ^ 64) with (2 ^ 32 * 2 ^ 32). nia.
  - exists g1, [a], a. split; [exact E1|]. split; [exact G1|]. split; [now apply outputs_one|]. split; [|exact A]. apply longs_one; [reflexivity|constructor].
Qed.
Lemma longs_app : forall w ys ls ys' ls', longs w ys ls -> longs w ys' ls' -> longs w (ys ++ ys') (ls ++ ls').
Proof. intros w ys ls ys' ls' L. revert ys' ls'. induction L; intros ys' ls' M; [exact M| |]; cbn [app]; constructor; auto. Qed.

Lemma interval_loop_good : forall (wide : bool) max fuel g g' r, good g -> 0 < max < 2 ^ (if wide then 64 else 32) ->
  interval_loop wide (rk_mask wide max) max fuel g = (g', r) ->
  good g' /\ (r = Err OutOfFuel \/
  exists ys rejected l, r = Ok (l mod 2 ^ (Z.log2 max + 1)) /\ outputs g ys g' /\ longs wide ys (rejected ++ [l]) /\
    l mod 2 ^ (Z.log2 max + 1) <= max /\ List.Forall (fun u => max < u mod 2 ^ (Z.log2 max + 1)) rejected).
Proof.
  intros wide max fuel. induction fuel as [|fuel IH]; intros g g' r G M H.
  - injection H as <- <-. auto.
  - cbn [interval_loop] in H. unfold bind in H. destruct (ulong_good wide g G) as [g1 [ys [l [E [G1 [O [L B]]]]]]]. rewrite E in H.
    rewrite mask_is in H by exact M. rewrite <- ones_is in H. pose proof (Z.log2_nonneg max).
    cbv zeta in H. rewrite Z.land_ones in H by lia.
    destruct (Z.ltb_spec max (l mod 2 ^ (Z.log2 max + 1))) as [T|T].
    + rewrite ones_is, <- (mask_is wide max M) in H.
      destruct (IH g1 g' r G1 M H) as [G' [D|[ys' [rej [l' [D [O' [L' [B' F']]]]]]]]]; (split; [exact G'|]); [now left|right].
      exists (ys ++ ys'), (l :: rej), l'. split; [exact D|]. split; [eapply outputs_app; eassumption|].
      split; [exact (longs_app _ _ _ _ _ L L')|]. split; [exact B'|]. constructor; assumption.
    + injection H as <- <-. split; [exact G1|]. right. exists ys, [], l. split; [reflexivity|]. split; [exact O|]. split; [exact L|]. split; [exact T|constructor].
Qed.
Theorem interval_is : forall (wide : bool) max fuel g g' r, good g -> 0 < max < 2 ^ (if wide then 64 else 32) ->
  rk_interval wide max fuel g = (g', r) -> r <> Err OutOfFuel ->
  exists k ys rejected l, 2 ^ (k - 1) <= max < 2 ^ k /\ 0 < k /\
    outputs g ys g' /\ longs wide ys (rejected ++ [l]) /\ List.Forall (fun u => max < u mod 2 ^ k) rejected /\
    r = Ok (l mod 2 ^ k) /\ 0 <= l mod 2 ^ k <= max /\ good g'.
Proof.
  intros wide max fuel g g' r G M H N. unfold rk_interval in H. destruct (Z.eqb_spec max 0); [lia|].
  destruct (interval_loop_good wide max fuel g g' r G M H) as [G' [D|[ys [rej [l [D [O [L [B F]]]]]]]]]; [contradiction|].
  pose proof (Z.log2_nonneg max). exists (Z.log2 max + 1), ys, rej, l. replace (Z.log2 max + 1 - 1) with (Z.log2 max) by lia.
  split; [apply Z.log2_spec; lia|]. split; [lia|]. split; [exact O|]. split; [exact L|]. split; [exact F|]. split; [exact D|].
  split; [|exact G']. split; [|exact B]. apply Z.mod_pos_bound. apply Z.pow_pos_nonneg; lia.
Qed.

Theorem double_is : forall g, good g -> exists g' a b u, outputs g [a; b] g' /\ good g' /\ rk_double g = (g', Ok u) /\
  (u = IZR (2 ^ 26 * (a / 2 ^ 5) + b / 2 ^ 6) / 2 ^ 53)%R /\ (0 <= u < 1)%R.
Proof.
  intros g G. destruct (random_good g G) as [g1 [a [E1 [G1 A]]]]. destruct (random_good g1 G1) as [g2 [b [E2 [G2 B]]]].
  unfold rk_double, bind. rewrite E1, E2. unfold ret. exists g2, a, b. eexists.
  split; [econstructor; [exact E1|]; econstructor; [exact E2|constructor]|]. split; [exact G2|]. split; [reflexivity|].
  rewrite !Z.shiftr_div_pow2 by lia.
  assert (0 <= a / 2 ^ 5 < 2 ^ 27) by (split; [apply Z.div_pos; lia|apply Z.div_lt_upper_bound; lia]).
  assert (0 <= b / 2 ^ 6 < 2 ^ 26) by (split; [apply Z.div_pos; lia|apply Z.div_lt_upper_bound; lia]).
  assert (E : (IZR (a / 2 ^ 5) * 67108864 + IZR (b / 2 ^ 6) = IZR (2 ^ 26 * (a / 2 ^ 5) + b / 2 ^ 6))%R).
  { rewrite plus_IZR, mult_IZR. change (2 ^ 26) with 67108864. ring. }
  rewrite E. change (IZR 9007199254740992) with (IZR (2 ^ 53)). replace (2 ^ 53)%R with (IZR (2 ^ 53)) by (change (2 ^ 53) with 9007199254740992; cbn; lra).
  split; [reflexivity|]. set (m := 2 ^ 26 * (a / 2 ^ 5) + b / 2 ^ 6) in *.
  assert (P : (0 < IZR (2 ^ 53))%R) by (apply IZR_lt; reflexivity).
  assert (Q : 0 <= m < 2 ^ 53) by (unfold m; change (2 ^ 53) with (2 ^ 26 * 2 ^ 27); nia).
  split.
  - apply Rmult_le_pos; [apply IZR_le; lia|left; now apply Rinv_0_lt_compat].
  - apply Rmult_lt_reg_r with (IZR (2 ^ 53)); [exact P|]. unfold Rdiv. rewrite Rmult_assoc, Rinv_l, Rmult_1_l, Rmult_1_r by lra. apply IZR_lt. lia.
Qed.
