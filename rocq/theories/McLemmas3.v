(** Lemmas on the tables of compact5table.c. *)

From Coq Require Import ZArith List Bool Arith Reals Lia Lra.
From Verif Require Import Exn Instances CountSpec McModel McSpec McLemmas.
Import ListNotations.
Open Scope Z_scope.

(** ** Digits *)

Lemma dg_is : forall m k, 1 <= k <= 5 -> dg m k = (m / 2 ^ (30 - 6 * k)) mod 64.
Proof. intros m k K. unfold dg. rewrite Z.shiftr_div_pow2 by lia. change 63 with (Z.ones 6). now rewrite Z.land_ones by lia. Qed.
Lemma dg_range : forall m k, 1 <= k <= 5 -> 0 <= dg m k < 64.
Proof. intros m k K. rewrite dg_is by exact K. apply Z.mod_pos_bound. lia. Qed.
Lemma digits : forall m, 0 <= m < 2 ^ 30 ->
  m = 2 ^ 24 * dg m 1 + 2 ^ 18 * dg m 2 + 2 ^ 12 * dg m 3 + 2 ^ 6 * dg m 4 + dg m 5.
Proof.
  intros m M. rewrite !dg_is by lia.
  change (30 - 6 * 1) with 24. change (30 - 6 * 2) with 18. change (30 - 6 * 3) with 12. change (30 - 6 * 4) with 6. change (30 - 6 * 5) with 0.
  change (2 ^ 0) with 1. rewrite Z.div_1_r.
  change (2 ^ 6) with 64. change (2 ^ 12) with (64 * 64). change (2 ^ 18) with (64 * 64 * 64). change (2 ^ 24) with (64 * 64 * 64 * 64).
  change (2 ^ 30) with (64 * 64 * 64 * 64 * 64) in M. rewrite <- !Z.div_div by lia.
  assert (T : m / 64 / 64 / 64 / 64 / 64 = 0) by (rewrite !Z.div_div by lia; apply Z.div_small; exact M).
  pose proof (Z.div_mod m 64 ltac:(lia)). pose proof (Z.div_mod (m / 64) 64 ltac:(lia)). pose proof (Z.div_mod (m / 64 / 64) 64 ltac:(lia)).
  pose proof (Z.div_mod (m / 64 / 64 / 64) 64 ltac:(lia)). pose proof (Z.div_mod (m / 64 / 64 / 64 / 64) 64 ltac:(lia)). lia.
Qed.
Lemma top_digits : forall k, 1 <= k <= 5 -> dg (2 ^ 30) k = 0 /\ dg 0 k = 0.
Proof. intros k K. assert (k = 1 \/ k = 2 \/ k = 3 \/ k = 4 \/ k = 5) as [-> | [-> | [-> | [-> | ->]]]] by lia; split; reflexivity. Qed.

(** ** Sums and tables *)

Fixpoint zsum (l : list Z) : Z := match l with [] => 0 | x :: l' => x + zsum l' end.
Lemma fold_zsum : forall f (l : list Z) a, fold_left (fun s m => s + f m) l a = a + zsum (map f l).
Proof. intros f l. induction l as [|x l IH]; intros a; cbn [fold_left map zsum]; [lia|]. rewrite IH. lia. Qed.
Lemma size_is : forall P k, size P k = zsum (map (fun m => dg m k) P).
Proof. intros P k. unfold size. rewrite (fold_zsum (fun m => dg m k)). lia. Qed.
Lemma size_nonneg : forall P k, 1 <= k <= 5 -> 0 <= size P k.
Proof.
  intros P k K. rewrite size_is. induction P as [|m P IH]; cbn [map zsum]; [lia|]. pose proof (dg_range m k K). lia.
Qed.
Lemma fill_length : forall P k i, 1 <= k <= 5 -> Z.of_nat (length (fill P k i)) = size P k.
Proof.
  intros P k i K. rewrite size_is. revert i. induction P as [|m P IH]; intros i; cbn [fill map zsum length]; [reflexivity|].
  rewrite app_length, repeat_length, Nat2Z.inj_add, IH. pose proof (dg_range m k K). lia.
Qed.
Lemma count_repeat : forall i j n, count_occ Nat.eq_dec (repeat i n) j = if Nat.eqb i j then n else 0%nat.
Proof.
  intros i j n. induction n as [|n IH]; cbn [repeat count_occ]; [now destruct (Nat.eqb i j)|].
  destruct (Nat.eq_dec i j) as [E|E]; rewrite IH; destruct (Nat.eqb_spec i j); congruence.
Qed.
Lemma fill_low : forall P k i j, (j < i)%nat -> count_occ Nat.eq_dec (fill P k i) j = 0%nat.
Proof.
  induction P as [|m P IH]; intros k i j H; [reflexivity|]. cbn [fill]. rewrite count_occ_app, count_repeat, IH by lia.
  destruct (Nat.eqb_spec i j); lia.
Qed.
Lemma fill_count : forall P k i j, 1 <= k <= 5 -> Z.of_nat (count_occ Nat.eq_dec (fill P k i) (i + j)%nat) = dg (nth j P 0) k.
Proof.
  intros P k i j K. revert i j. induction P as [|m P IH]; intros i j; cbn [fill].
  - destruct j; cbn [nth count_occ]; rewrite (proj2 (top_digits k K)); reflexivity.
  - rewrite count_occ_app, count_repeat. destruct j as [|j]; cbn [nth].
    + rewrite Nat.add_0_r, Nat.eqb_refl, fill_low by lia. pose proof (dg_range m k K). lia.
    + destruct (Nat.eqb_spec i (i + S j)); [lia|]. rewrite Nat.add_succ_r, <- Nat.add_succ_l. apply IH.
Qed.
Lemma fill_in : forall P k i j, In j (fill P k i) -> (i <= j < i + length P)%nat.
Proof.
  induction P as [|m P IH]; intros k i j H; [contradiction|]. cbn [fill length] in *. apply in_app_or in H. destruct H as [H|H].
  - apply repeat_spec in H. lia.
  - apply IH in H. lia.
Qed.
Lemma zsum_nonneg : forall l, List.Forall (fun m => 0 <= m) l -> 0 <= zsum l.
Proof. induction 1; cbn [zsum]; lia. Qed.
Lemma zsum_ge : forall l m, List.Forall (fun m => 0 <= m) l -> In m l -> m <= zsum l.
Proof.
  induction l as [|a l IH]; intros m F I; [contradiction|]. inversion F; subst. cbn [zsum]. pose proof (zsum_nonneg l H2).
  destruct I as [->|I]; [lia|]. specialize (IH m H2 I). lia.
Qed.
Lemma sizes_digits : forall P, List.Forall (fun m => 0 <= m < 2 ^ 30) P ->
  zsum P = 2 ^ 24 * size P 1 + 2 ^ 18 * size P 2 + 2 ^ 12 * size P 3 + 2 ^ 6 * size P 4 + size P 5.
Proof.
  intros P F. rewrite !size_is. induction F as [|m P M F IH]; [reflexivity|]. cbn [map zsum]. rewrite IH. pose proof (digits m M). lia.
Qed.

(** ** Counting *)

Definition span (a : Z) (n : nat) : list Z := map (fun k => a + Z.of_nat k) (seq 0 n).
Lemma span_in : forall a n j, In j (span a n) <-> a <= j < a + Z.of_nat n.
Proof.
  intros a n j. unfold span. rewrite in_map_iff. split.
  - intros [k [<- K]]. apply in_seq in K. lia.
  - intros H. exists (Z.to_nat (j - a)). split; [lia|]. apply in_seq. lia.
Qed.
Lemma span_nodup : forall a n, NoDup (span a n).
Proof.
  intros a n. unfold span. apply FinFun.Injective_map_NoDup; [|apply seq_NoDup]. intros x y H. lia.
Qed.
Lemma span_shift : forall a n m s, map (fun k => a + Z.of_nat k) (seq (n + s) m) = map (fun k => a + Z.of_nat n + Z.of_nat k) (seq s m).
Proof. intros a n m. induction m as [|m IH]; intros s; [reflexivity|]. cbn [seq map]. rewrite <- Nat.add_succ_r, IH. f_equal. lia. Qed.
Lemma span_app : forall a n m, span a (n + m) = span a n ++ span (a + Z.of_nat n) m.
Proof.
  intros a n m. unfold span. rewrite seq_app, map_app. f_equal. rewrite <- span_shift. now rewrite Nat.add_0_r.
Qed.
Definition count (f : Z -> bool) (a : Z) (n : nat) : nat := length (filter f (span a n)).
Lemma count_app : forall f a n m, count f a (n + m) = (count f a n + count f (a + Z.of_nat n) m)%nat.
Proof. intros f a n m. unfold count. now rewrite span_app, filter_app, app_length. Qed.
Lemma filter_const : forall A (f : A -> bool) l b, (forall x, In x l -> f x = b) -> length (filter f l) = if b then length l else 0%nat.
Proof.
  intros A f l b. induction l as [|x l IH]; intros H; [now destruct b|]. cbn [filter]. rewrite (H x) by now left.
  destruct b; cbn [length]; rewrite IH; trivial; intros y Y; apply H; now right.
Qed.
Lemma count_const : forall f a n b, (forall j, a <= j < a + Z.of_nat n -> f j = b) -> count f a n = if b then n else 0%nat.
Proof.
  intros f a n b H. unfold count. rewrite (filter_const _ f (span a n) b).
  - unfold span. now rewrite map_length, seq_length.
  - intros x X. apply H. now apply span_in.
Qed.
Lemma count_ext : forall f h a n, (forall j, a <= j < a + Z.of_nat n -> f j = h j) -> count f a n = count h a n.
Proof.
  intros f h a n H. unfold count. f_equal. apply filter_ext_in. intros x X. apply H. now apply span_in.
Qed.
Lemma count_table : forall f tb L a i, (forall j, a <= j < a + Z.of_nat (L * length tb) -> f j = Nat.eqb (nth (Z.to_nat ((j - a) / Z.of_nat L)) tb 0%nat) i) ->
  count f a (L * length tb) = (L * count_occ Nat.eq_dec tb i)%nat.
Proof.
  intros f tb L. induction tb as [|x tb IH]; intros a i H; [cbn [length count_occ]; now rewrite Nat.mul_0_r|].
  cbn [length] in *. rewrite Nat.mul_succ_r, Nat.add_comm, count_app.
  rewrite (count_const f a L (Nat.eqb x i)).
  - rewrite (IH (a + Z.of_nat L) i).
    + cbn [count_occ]. destruct (Nat.eq_dec x i) as [E|E]; destruct (Nat.eqb_spec x i); lia.
    + intros j J. rewrite H by lia. assert (L <> 0)%nat by (intros ->; lia).
      replace (j - a) with ((j - (a + Z.of_nat L)) + 1 * Z.of_nat L) by lia. rewrite Z.div_add by lia.
      assert (0 <= (j - (a + Z.of_nat L)) / Z.of_nat L) by (apply Z.div_pos; lia).
      rewrite Z2Nat.inj_add, Nat.add_comm by lia. reflexivity.
  - intros j J. rewrite H by nia. rewrite Z.div_small by lia. reflexivity.
Qed.

(** ** The look-up *)

Definition is_item (d : drawn) (i : nat) : bool := match d with Item k => Nat.eqb k i | _ => false end.
Definition all30 : nat := Z.to_nat (2 ^ 30).
Lemma all30_Z : Z.of_nat all30 = 2 ^ 30. Proof. unfold all30. apply Z2Nat.id. lia. Qed.
Global Opaque all30.

Section Tables.
Variable P : list Z.
Hypothesis PR : List.Forall (fun m => 0 <= m < 2 ^ 30) P.
Hypothesis PS : zsum P <= 2 ^ 30.
Let u1 := Z.shiftl (size P 1) 24.
Let u2 := u1 + Z.shiftl (size P 2) 18.
Let u3 := u2 + Z.shiftl (size P 3) 12.
Let u4 := u3 + Z.shiftl (size P 4) 6.
Let t := Tables (fill P 1 0) (fill P 2 0) (fill P 3 0) (fill P 4 0) (fill P 5 0) (size P 5) u1 u2 u3 u4.

Lemma ends : u1 = 2 ^ 24 * size P 1 /\ u2 = u1 + 2 ^ 18 * size P 2 /\ u3 = u2 + 2 ^ 12 * size P 3 /\ u4 = u3 + 2 ^ 6 * size P 4 /\
  zsum P = u4 + size P 5 /\ 0 <= size P 1 /\ 0 <= size P 2 /\ 0 <= size P 3 /\ 0 <= size P 4 /\ 0 <= size P 5.
Proof.
  pose proof (sizes_digits P PR). pose proof (size_nonneg P 1 ltac:(lia)). pose proof (size_nonneg P 2 ltac:(lia)). pose proof (size_nonneg P 3 ltac:(lia)).
  pose proof (size_nonneg P 4 ltac:(lia)). pose proof (size_nonneg P 5 ltac:(lia)).
  unfold u4, u3, u2, u1. rewrite !Z.shiftl_mul_pow2 by lia. lia.
Qed.
Lemma at_fill : forall k sh j, 1 <= k <= 5 -> 0 <= sh -> 0 <= j < 2 ^ sh * size P k ->
  at_table (fill P k 0) (Z.shiftr j sh) = Item (nth (Z.to_nat (j / 2 ^ sh)) (fill P k 0) 0%nat) /\ In (nth (Z.to_nat (j / 2 ^ sh)) (fill P k 0) 0%nat) (fill P k 0).
Proof.
  intros k sh j K S J. unfold at_table. rewrite Z.shiftr_div_pow2 by exact S. assert (0 < 2 ^ sh) by (apply Z.pow_pos_nonneg; lia).
  assert (B : 0 <= j / 2 ^ sh < size P k) by (split; [apply Z.div_pos; lia|apply Z.div_lt_upper_bound; lia]).
  destruct (Z.ltb_spec (j / 2 ^ sh) 0); [lia|]. pose proof (fill_length P k 0 K).
  rewrite (nth_error_nth' _ 0%nat) by lia. split; [reflexivity|]. apply nth_In. lia.
Qed.
Lemma look_up_cases : forall j, 0 <= j < 2 ^ 30 ->
  (zsum P <= j /\ look_up t j = Again) \/
  (exists k sh b i, 1 <= k <= 5 /\ sh = 30 - 6 * k /\ b <= j < b + 2 ^ sh * size P k /\ In i (fill P k 0) /\ look_up t j = Item i).
Proof.
  intros j J. destruct ends as [E1 [E2 [E3 [E4 [E5 N]]]]]. unfold look_up. cbn [t t1 t2 t3 t4 tA tB tC tD tE sizeE].
  destruct (Z.ltb_spec j u1).
  { right. exists 1, 24, 0. destruct (at_fill 1 24 j ltac:(lia) ltac:(lia) ltac:(lia)) as [A I]. eexists. split; [lia|]. split; [lia|]. split; [lia|]. split; [exact I|exact A]. }
  destruct (Z.ltb_spec j u2).
  { right. exists 2, 18, u1. destruct (at_fill 2 18 (j - u1) ltac:(lia) ltac:(lia) ltac:(lia)) as [A I]. eexists. split; [lia|]. split; [lia|]. split; [lia|]. split; [exact I|exact A]. }
  destruct (Z.ltb_spec j u3).
  { right. exists 3, 12, u2. destruct (at_fill 3 12 (j - u2) ltac:(lia) ltac:(lia) ltac:(lia)) as [A I]. eexists. split; [lia|]. split; [lia|]. split; [lia|]. split; [exact I|exact A]. }
  destruct (Z.ltb_spec j u4).
  { right. exists 4, 6, u3. destruct (at_fill 4 6 (j - u3) ltac:(lia) ltac:(lia) ltac:(lia)) as [A I]. eexists. split; [lia|]. split; [lia|]. split; [lia|]. split; [exact I|exact A]. }
  destruct (Z.leb_spec (size P 5) (j - u4)); [left; split; [lia|reflexivity]|].
  right. exists 5, 0, u4. destruct (at_fill 5 0 (j - u4) ltac:(lia) ltac:(lia) ltac:(lia)) as [A I]. rewrite Z.shiftr_0_r in A. eexists. split; [lia|]. split; [lia|]. split; [lia|]. split; [exact I|exact A].
Qed.
Lemma count_part : forall k sh b i f, 1 <= k <= 5 -> 0 <= sh ->
  (forall j, b <= j < b + 2 ^ sh * size P k -> f j = is_item (at_table (fill P k 0) (Z.shiftr (j - b) sh)) i) ->
  Z.of_nat (count f b (Z.to_nat (2 ^ sh * size P k))) = 2 ^ sh * dg (nth i P 0) k.
Proof.
  intros k sh b i f K S H. pose proof (fill_length P k 0 K) as FL. assert (0 < 2 ^ sh) by (apply Z.pow_pos_nonneg; lia).
  replace (Z.to_nat (2 ^ sh * size P k)) with (Z.to_nat (2 ^ sh) * length (fill P k 0))%nat by (rewrite <- FL, Z2Nat.inj_mul, Nat2Z.id by lia; reflexivity).
  rewrite (count_table f (fill P k 0) (Z.to_nat (2 ^ sh)) b i).
  - rewrite Nat2Z.inj_mul, Z2Nat.id by lia. f_equal. apply (fill_count P k 0 i K).
  - intros j J. rewrite Nat2Z.inj_mul, Z2Nat.id, FL in J by lia. rewrite H by exact J. rewrite Z2Nat.id by lia.
    destruct (at_fill k sh (j - b) K S ltac:(lia)) as [A _]. rewrite A. reflexivity.
Qed.
Lemma look_up_count : forall i, Z.of_nat (count (fun j => is_item (look_up t j) i) 0 all30) = nth i P 0.
Proof.
  intros i. destruct ends as [E1 [E2 [E3 [E4 [E5 [N1 [N2 [N3 [N4 N5]]]]]]]]].
  assert (SP : all30 = (Z.to_nat (2 ^ 24 * size P 1) + (Z.to_nat (2 ^ 18 * size P 2) + (Z.to_nat (2 ^ 12 * size P 3) + (Z.to_nat (2 ^ 6 * size P 4) + (Z.to_nat (2 ^ 0 * size P 5) + Z.to_nat (2 ^ 30 - zsum P))))))%nat).
  { pose proof all30_Z. lia. }
  rewrite SP, !count_app, !Nat2Z.inj_add. rewrite !Z2Nat.id by lia.
  replace (0 + 2 ^ 24 * size P 1) with u1 by lia. rewrite <- E2, <- E3, <- E4.
  rewrite (count_part 1 24 0 i), (count_part 2 18 u1 i), (count_part 3 12 u2 i), (count_part 4 6 u3 i), (count_part 5 0 u4 i); try lia.
  - rewrite (count_const _ _ _ false).
    + assert (M : 0 <= nth i P 0 < 2 ^ 30). { destruct (nth_in_or_default i P 0) as [I| ->]; [|lia]. rewrite Forall_forall in PR. now apply PR. }
      pose proof (digits (nth i P 0) M). change (2 ^ 0) with 1. lia.
    + intros j J. unfold look_up. cbn [t t1 t2 t3 t4 tA tB tC tD tE sizeE].
      rewrite (proj2 (Z.ltb_ge j u1)), (proj2 (Z.ltb_ge j u2)), (proj2 (Z.ltb_ge j u3)), (proj2 (Z.ltb_ge j u4)), (proj2 (Z.leb_le (size P 5) (j - u4))) by lia. reflexivity.
  - intros j J. unfold look_up. cbn [t t1 t2 t3 t4 tA tB tC tD tE sizeE].
    rewrite (proj2 (Z.ltb_ge j u1)), (proj2 (Z.ltb_ge j u2)), (proj2 (Z.ltb_ge j u3)), (proj2 (Z.ltb_ge j u4)), (proj2 (Z.leb_gt (size P 5) (j - u4))) by lia.
    rewrite Z.shiftr_0_r. reflexivity.
  - intros j J. unfold look_up. cbn [t t1 t2 t3 t4 tA tB tC tD tE sizeE].
    rewrite (proj2 (Z.ltb_ge j u1)), (proj2 (Z.ltb_ge j u2)), (proj2 (Z.ltb_ge j u3)), (proj2 (Z.ltb_lt j u4)) by lia. reflexivity.
  - intros j J. unfold look_up. cbn [t t1 t2 t3 t4 tA tB tC tD tE sizeE].
    rewrite (proj2 (Z.ltb_ge j u1)), (proj2 (Z.ltb_ge j u2)), (proj2 (Z.ltb_lt j u3)) by lia. reflexivity.
  - intros j J. unfold look_up. cbn [t t1 t2 t3 t4 tA tB tC tD tE sizeE].
    rewrite (proj2 (Z.ltb_ge j u1)), (proj2 (Z.ltb_lt j u2)) by lia. reflexivity.
  - intros j J. unfold look_up. cbn [t t1 t2 t3 t4 tA tB tC tD tE sizeE].
    rewrite (proj2 (Z.ltb_lt j u1)) by lia. rewrite Z.sub_0_r. reflexivity.
Qed.
End Tables.

(** ** Building *)

Lemma sure_found : forall P i0, List.Forall (fun m => 0 <= m <= 2 ^ 30) P -> In (2 ^ 30) P ->
  exists i, sure_event P i0 = Some (i0 + i)%nat /\ nth i P 0 = 2 ^ 30 /\ (i < length P)%nat.
Proof.
  induction P as [|m P IH]; intros i0 F I; [contradiction|]. inversion F as [|m' P' M F']; subst. cbn [sure_event].
  rewrite Z.shiftr_div_pow2 by lia. change 63 with (Z.ones 6). rewrite Z.land_ones by lia.
  destruct (Z.eq_dec m (2 ^ 30)) as [->|D].
  - change ((2 ^ 30 / 2 ^ 30) mod 2 ^ 6 =? 1) with true. exists 0%nat. rewrite Nat.add_0_r. cbn [length nth]. split; [reflexivity|]. split; [reflexivity|lia].
  - rewrite Z.div_small by lia. cbn [Z.modulo Z.eqb]. change (0 mod 2 ^ 6 =? 1) with false. cbv iota.
    destruct I as [I|I]; [congruence|]. destruct (IH (S i0) F' I) as [i [E [N L]]]. exists (S i). cbn [nth length]. rewrite E. split; [f_equal; lia|]. split; [exact N|lia].
Qed.
Lemma zero_digits : forall m, 0 <= m < 2 ^ 30 -> dg m 1 + dg m 2 + dg m 3 + dg m 4 + dg m 5 = 0 -> m = 0.
Proof.
  intros m M H. pose proof (digits m M). pose proof (dg_range m 1 ltac:(lia)). pose proof (dg_range m 2 ltac:(lia)). pose proof (dg_range m 3 ltac:(lia)).
  pose proof (dg_range m 4 ltac:(lia)). pose proof (dg_range m 5 ltac:(lia)). lia.
Qed.
Definition tsize (P : list Z) : Z := size P 1 + size P 2 + size P 3 + size P 4 + size P 5.
Lemma tsize_cons : forall m P, tsize (m :: P) = (dg m 1 + dg m 2 + dg m 3 + dg m 4 + dg m 5) + tsize P.
Proof. intros m P. unfold tsize. rewrite !size_is. cbn [map zsum]. lia. Qed.
Lemma tsize_nonneg : forall P, 0 <= tsize P.
Proof.
  intros P. unfold tsize. pose proof (size_nonneg P 1 ltac:(lia)). pose proof (size_nonneg P 2 ltac:(lia)). pose proof (size_nonneg P 3 ltac:(lia)).
  pose proof (size_nonneg P 4 ltac:(lia)). pose proof (size_nonneg P 5 ltac:(lia)). lia.
Qed.
Lemma digits_nonneg : forall m, 0 <= dg m 1 + dg m 2 + dg m 3 + dg m 4 + dg m 5.
Proof.
  intros m. pose proof (dg_range m 1 ltac:(lia)). pose proof (dg_range m 2 ltac:(lia)). pose proof (dg_range m 3 ltac:(lia)).
  pose proof (dg_range m 4 ltac:(lia)). pose proof (dg_range m 5 ltac:(lia)). lia.
Qed.
Lemma no_tables : forall P, List.Forall (fun m => 0 <= m <= 2 ^ 30) P -> tsize P <= 0 -> List.Forall (fun m => m = 0 \/ m = 2 ^ 30) P.
Proof.
  induction 1 as [|m P M F IH]; intros H; [constructor|]. rewrite tsize_cons in H. pose proof (tsize_nonneg P). pose proof (digits_nonneg m).
  constructor; [|apply IH; lia]. destruct (Z.eq_dec m (2 ^ 30)); [now right|left]. apply zero_digits; lia.
Qed.
Lemma all_zero_tsize : forall P, List.Forall (fun m => m = 0 \/ m = 2 ^ 30) P -> tsize P = 0.
Proof.
  induction 1 as [|m P M F IH]; [reflexivity|]. rewrite tsize_cons, IH.
  assert (Z : forall k, 1 <= k <= 5 -> dg m k = 0) by (intros k K; destruct M as [-> | ->]; apply (top_digits k K)). rewrite !Z by lia. reflexivity.
Qed.
Lemma top_alone : forall P i, List.Forall (fun m => 0 <= m <= 2 ^ 30) P -> zsum P <= 2 ^ 30 -> nth i P 0 = 2 ^ 30 -> forall k, k <> i -> nth k P 0 = 0.
Proof.
  intros P i F. revert i. induction F as [|m P M F IH]; intros i S E k D; [now destruct k|].
  assert (NN : List.Forall (fun m => 0 <= m) P) by (eapply Forall_impl; [|exact F]; cbv beta; intros; lia).
  pose proof (zsum_nonneg P NN) as Z0. cbn [zsum] in S. destruct i as [|i]; destruct k as [|k]; cbn [nth] in *; [congruence| | |].
  - assert (zsum P = 0) by lia. destruct (nth_in_or_default k P 0) as [I|]; [|assumption]. pose proof (zsum_ge P _ NN I).
    rewrite Forall_forall in NN. specialize (NN _ I). lia.
  - destruct (nth_in_or_default i P 0) as [I|I]; [|lia]. pose proof (zsum_ge P _ NN I). lia.
  - apply (IH i); [lia|exact E|congruence].
Qed.

Definition item_words (t : tables) (i : nat) : list Z := filter (fun j => is_item (look_up t j) i) (span 0 all30).
Lemma item_words_in : forall t i j, In j (item_words t i) <-> 0 <= j < 2 ^ 30 /\ look_up t j = Item i.
Proof.
  intros t i j. unfold item_words. rewrite filter_In, span_in, all30_Z. apply and_iff_compat_l. unfold is_item.
  destruct (look_up t j) as [k| |]; [|split; discriminate|split; discriminate]. rewrite Nat.eqb_eq. split; [now intros ->|]. now intros [= ->].
Qed.

(** What is made from 30-bit integers that sum to at most 2^30, not all zero. *)
Lemma build_cases : forall P, List.Forall (fun m => 0 <= m <= 2 ^ 30) P -> 0 < zsum P <= 2 ^ 30 ->
  (exists i, (i < length P)%nat /\ build_tables P = Sure i /\ nth i P 0 = 2 ^ 30 /\ forall k, k <> i -> nth k P 0 = 0) \/
  (exists t, build_tables P = Tabled t /\
     (forall i, Z.of_nat (length (item_words t i)) = nth i P 0) /\
     (forall j, 0 <= j < 2 ^ 30 -> (exists i, (i < length P)%nat /\ look_up t j = Item i) \/ look_up t j = Again)).
Proof.
  intros P F S. unfold build_tables. fold (tsize P). destruct (Z.leb_spec (tsize P) 0) as [T|T].
  - left. pose proof (no_tables P F T) as D.
    assert (I : In (2 ^ 30) P).
    { destruct (in_dec Z.eq_dec (2 ^ 30) P) as [I|N]; [exact I|]. exfalso.
      assert (zsum P = 0); [|lia]. clear - D N. induction D as [|m P M D IH]; [reflexivity|]. cbn [zsum]. rewrite IH by (intros X; apply N; now right).
      destruct M as [-> | ->]; [reflexivity|]. exfalso. apply N. now left. }
    destruct (sure_found P 0 F I) as [i [E [N L]]]. exists i. rewrite E. cbn [Nat.add]. split; [exact L|]. split; [reflexivity|]. split; [exact N|].
    intros k K. apply (top_alone P i F); [lia|exact N|exact K].
  - right. eexists. split; [reflexivity|].
    assert (B : List.Forall (fun m => 0 <= m < 2 ^ 30) P).
    { apply Forall_forall. intros m I. pose proof (proj1 (Forall_forall _ _) F m I) as M. cbv beta in M. split; [lia|].
      destruct (Z.eq_dec m (2 ^ 30)) as [->|]; [|lia]. exfalso. destruct (In_nth _ _ 0 I) as [i [L E]].
      pose proof (top_alone P i F ltac:(lia) E) as A. assert (tsize P = 0); [|lia]. apply all_zero_tsize. apply Forall_forall. intros x X.
      destruct (In_nth _ _ 0 X) as [k [_ <-]]. destruct (Nat.eq_dec k i) as [->|K]; [right; exact E|left; now apply A]. }
    split.
    + intros i. apply (look_up_count P B ltac:(lia) i).
    + intros j J. destruct (look_up_cases P B j J) as [[_ A]|[k [sh [b [i [K [_ [_ [I A]]]]]]]]]; [right; exact A|left].
      exists i. split; [|exact A]. apply fill_in in I. lia.
Qed.
