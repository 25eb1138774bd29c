(** The moments of the tables, computed with integers. *)

From Coq Require Import List Bool Arith ZArith Reals Lra Lia String.
From Verif Require Import Exn Instances CountSpec CountLemmas BaModel BaLemmas CubTables CubModel CubSpec CubLemmas CubLemmas2.
Import ListNotations.
Open Scope R_scope.

Definition U : Z := 10 ^ 33.
Definition znode := ((Z * Z) * Z)%type.
Fixpoint zsum (l : list znode) (i j : Z) : Z :=
  match l with [] => 0 | ((u, v), w) :: l' => w * u ^ i * v ^ j + zsum l' i j end%Z.
Definition fnode (n : znode) : node := ((fx (fst (fst n)), fx (snd (fst n))), fx (snd n)).

Lemma U_pos : 0 < IZR U. Proof. apply IZR_lt. reflexivity. Qed.
Lemma fx_U : forall z, fx z = IZR z / IZR U. Proof. reflexivity. Qed.
Opaque U.
Lemma fx_one : fx U = 1. Proof. rewrite fx_U. apply Rinv_r. assert (P := U_pos). lra. Qed.
Lemma fx_zero : fx 0 = 0. Proof. unfold fx, Rdiv. ring. Qed.
Lemma fx_opp : forall z, fx (- z) = - fx z. Proof. intros z. rewrite !fx_U, opp_IZR. unfold Rdiv. ring. Qed.
Lemma fx_pow : forall z n, fx z ^ n = IZR (z ^ Z.of_nat n) / IZR U ^ n.
Proof. intros z n. rewrite fx_U. unfold Rdiv. rewrite Rpow_mult_distr, pow_inv, pow_IZR. reflexivity. Qed.

Lemma moment_z : forall l i j, rule_sum (map fnode l) (fun u v => u ^ i * v ^ j) = IZR (zsum l (Z.of_nat i) (Z.of_nat j)) / IZR U ^ S (i + j).
Proof.
  assert (P := U_pos). induction l as [|[[u v] w] l IH]; intros i j; [cbn; unfold Rdiv; ring|].
  cbn [map fnode fst snd rule_sum zsum]. rewrite IH, !fx_pow, fx_U, plus_IZR, !mult_IZR. cbn [pow]. rewrite pow_add. field. repeat split; try lra; apply pow_nonzero; lra.
Qed.

(** Squares *)
Definition odd_part (i : nat) : Z := if Nat.even i then 2 else 0.
Lemma um_z : forall i, um i = IZR (odd_part i) / INR (S i).
Proof.
  intros i. unfold um, odd_part. f_equal. destruct (Nat.even i) eqn:E.
  - apply Nat.even_spec in E. destruct E as [k ->]. rewrite pow_1_odd. lra.
  - assert (O : Nat.odd i = true) by (unfold Nat.odd; now rewrite E). apply Nat.odd_spec in O. destruct O as [k ->]. replace (S (2 * k + 1)) with (2 * (k + 1))%nat by lia. rewrite pow_1_even. lra.
Qed.
(** All sums up to a total degree, computed with one product per node and pair *)
Definition heads (l : list (Z * Z)) : Z := fold_right (fun p s => snd p + s)%Z 0%Z l.
Fixpoint check_row (ok : nat -> nat -> Z -> bool) (n i j : nat) (l : list (Z * Z)) : bool :=
  match n with
  | O => true
  | S n' => ok i j (heads l) && check_row ok n' i (S j) (map (fun p => (fst p, fst p * snd p)%Z) l)
  end.
Fixpoint check_rows (ok : nat -> nat -> Z -> bool) (n i : nat) (l : list (Z * (Z * Z))) : bool :=
  match n with
  | O => true
  | S n' => check_row ok n i 0 (map snd l) && check_rows ok n' (S i) (map (fun p => (fst p, (fst (snd p), fst p * snd (snd p)))%Z) l)
  end.
Definition check_all (ok : nat -> nat -> Z -> bool) (d : nat) (l : list znode) : bool :=
  check_rows ok (S d) 0 (map (fun n => (fst (fst n), (snd (fst n), snd n))) l).
Definition at_row (l : list znode) (i j : nat) : list (Z * Z) := map (fun n => (snd (fst n), snd n * fst (fst n) ^ Z.of_nat i * snd (fst n) ^ Z.of_nat j)%Z) l.
Definition at_rows (l : list znode) (i : nat) : list (Z * (Z * Z)) := map (fun n => (fst (fst n), (snd (fst n), snd n * fst (fst n) ^ Z.of_nat i)))%Z l.
Lemma heads_row : forall l i j, heads (at_row l i j) = zsum l (Z.of_nat i) (Z.of_nat j).
Proof. induction l as [|[[u v] w] l IH]; intros i j; [reflexivity|]. cbn [at_row map heads fold_right zsum fst snd]. unfold heads, at_row in IH. now rewrite IH. Qed.
Lemma row_ok : forall ok l i n j, check_row ok n i j (at_row l i j) = true -> forall k, (k < n)%nat -> ok i (j + k)%nat (zsum l (Z.of_nat i) (Z.of_nat (j + k))) = true.
Proof.
  intros ok l i. induction n as [|n IH]; intros j H k Hk; [lia|]. cbn [check_row] in H. apply andb_true_iff in H. destruct H as [H1 H2]. rewrite heads_row in H1.
  destruct k as [|k]; [now rewrite Nat.add_0_r|]. rewrite Nat.add_succ_r, <- Nat.add_succ_l. apply IH; [|lia]. rewrite <- H2. f_equal. unfold at_row. rewrite map_map. apply map_ext. intros [[u v] w]. cbn [fst snd].
  rewrite (Nat2Z.inj_succ j), Z.pow_succ_r by lia. f_equal. ring.
Qed.
Lemma rows_ok : forall ok l n i, check_rows ok n i (at_rows l i) = true -> forall a k, (a + k < n)%nat -> ok (i + a)%nat k (zsum l (Z.of_nat (i + a)) (Z.of_nat k)) = true.
Proof.
  intros ok l. induction n as [|n IH]; intros i H a k Hk; [lia|]. cbn [check_rows] in H. apply andb_true_iff in H. destruct H as [H1 H2].
  destruct a as [|a].
  - rewrite Nat.add_0_r. apply (row_ok ok l i (S n) 0); [|lia]. rewrite <- H1. f_equal. unfold at_row, at_rows. rewrite map_map. apply map_ext. intros [[u v] w]. cbn [fst snd]. f_equal. change (Z.of_nat 0) with 0%Z. ring.
  - rewrite Nat.add_succ_r, <- Nat.add_succ_l. apply IH; [|lia]. rewrite <- H2. f_equal. unfold at_rows. rewrite map_map. apply map_ext. intros [[u v] w]. cbn [fst snd].
    rewrite (Nat2Z.inj_succ i), Z.pow_succ_r by lia. do 2 f_equal. ring.
Qed.
Lemma all_ok : forall ok d l, check_all ok d l = true -> forall i j, (i + j <= d)%nat -> ok i j (zsum l (Z.of_nat i) (Z.of_nat j)) = true.
Proof.
  intros ok d l H i j Hij. apply (rows_ok ok l (S d) 0); [|lia]. rewrite <- H. unfold check_all, at_rows. f_equal. apply map_ext. intros [[u v] w]. cbn [fst snd]. do 2 f_equal. change (Z.of_nat 0) with 0%Z. ring.
Qed.
(** c V^0, c V^1, ... *)
Fixpoint powers (n : nat) (V c : Z) : list Z := match n with O => [] | S n' => c :: powers n' V (V * c)%Z end.
Lemma powers_nth : forall n V c k, (k < n)%nat -> nth k (powers n V c) 0%Z = (c * V ^ Z.of_nat k)%Z.
Proof.
  induction n as [|n IH]; intros V c k H; [lia|]. destruct k as [|k]; cbn [powers nth]; [change (Z.of_nat 0) with 0%Z; ring|]. rewrite IH by lia. rewrite (Nat2Z.inj_succ k), Z.pow_succ_r by lia. ring.
Qed.
Definition check_square (l : list znode) (d : nat) (E : Z) : bool :=
  let Ds := powers (S d) U U in
  check_all (fun i j s => let q := (Z.of_nat (S i) * Z.of_nat (S j))%Z in let D := nth (i + j) Ds 0%Z in
    (Z.abs (q * s - odd_part i * odd_part j * D) * E <=? q * D)%Z) d l.

Lemma ratio_bound : forall a b D q E : Z, (0 < D)%Z -> (0 < q)%Z -> (0 < E)%Z -> (Z.abs (a * q - b * D) * E <= q * D)%Z -> Rabs (IZR a / IZR D - IZR b / IZR q) <= / IZR E.
Proof.
  intros a b D q E HD Hq HE H. apply IZR_lt in HD, Hq, HE. apply IZR_le in H. rewrite mult_IZR, abs_IZR, minus_IZR, !mult_IZR in H.
  replace (IZR a / IZR D - IZR b / IZR q) with ((IZR a * IZR q - IZR b * IZR D) / (IZR q * IZR D)) by (field; lra).
  unfold Rdiv. rewrite Rabs_mult, (Rabs_pos_eq (/ _)) by (apply Rlt_le, Rinv_0_lt_compat; nra).
  apply Rmult_le_reg_r with (IZR E); [lra|]. rewrite Rinv_l by lra. apply Rmult_le_reg_r with (IZR q * IZR D); [nra|].
  replace (Rabs (IZR a * IZR q - IZR b * IZR D) * / (IZR q * IZR D) * IZR E * (IZR q * IZR D)) with (Rabs (IZR a * IZR q - IZR b * IZR D) * IZR E) by (field; lra). lra.
Qed.
Lemma square_moments : forall l d E, check_square l d E = true -> (0 < E)%Z ->
  forall i j, (i + j <= d)%nat -> Rabs (rule_sum (map fnode l) (fun u v => u ^ i * v ^ j) - um i * um j) <= / IZR E.
Proof.
  intros l d E H HE i j Hij. unfold check_square in H. assert (HP := all_ok _ _ _ H i j Hij). cbv beta zeta in HP. rewrite powers_nth in HP by lia. apply Z.leb_le in HP. clear H. rename HP into H. rewrite (Z.mul_comm _ (zsum _ _ _)) in H. replace (U * U ^ Z.of_nat (i + j))%Z with (U ^ Z.of_nat (S (i + j)))%Z in H by (rewrite (Nat2Z.inj_succ (i + j)), Z.pow_succ_r by lia; reflexivity).
  rewrite moment_z, !um_z, !INR_IZR_INZ. assert (P := U_pos).
  replace (IZR (odd_part i) / IZR (Z.of_nat (S i)) * (IZR (odd_part j) / IZR (Z.of_nat (S j)))) with (IZR (odd_part i * odd_part j) / IZR (Z.of_nat (S i) * Z.of_nat (S j))).
  2:{ rewrite !mult_IZR. field. split; apply not_0_IZR; lia. }
  rewrite pow_IZR. apply ratio_bound; [apply Z.pow_pos_nonneg; [apply lt_IZR, U_pos|lia]|lia|exact HE|exact H].
Qed.

(** The plane *)
Fixpoint nmz2 (i : nat) : Z * Z := match i with O => (1, 0)%Z | S j => let p := nmz2 j in (snd p, Z.of_nat (S j) * fst p)%Z end.
Definition nmz (i : nat) : Z := fst (nmz2 i).
Lemma nm_z : forall i, nm i = IZR (nmz i).
Proof.
  intros i. unfold nm, nmz. enough (H : fst (nm2 i) = IZR (fst (nmz2 i)) /\ snd (nm2 i) = IZR (snd (nmz2 i))) by apply H.
  induction i as [|i [I1 I2]]; [split; reflexivity|]. cbn [nm2 nmz2 fst snd]. split; [exact I2|]. rewrite mult_IZR, <- I1, INR_IZR_INZ. reflexivity.
Qed.
Definition zpi : Z := sci 31415926535897931 0.
Definition zrt2 : Z := sci 14142135623730951 0.
(** A node of a NormWtCub2D at location 0 and scale 1 *)
Definition nnode (n : znode) : node := ((rt2 * fx (fst (fst n)), rt2 * fx (snd (fst n))), fx (snd n) / np_pi).
Lemma plane_scale : forall l i j, rule_sum (map nnode l) (fun u v => u ^ i * v ^ j) = rt2 ^ (i + j) / np_pi * rule_sum (map fnode l) (fun u v => u ^ i * v ^ j).
Proof.
  induction l as [|[[u v] w] l IH]; intros i j; [cbn [map rule_sum]; ring|]. cbn [map nnode fnode fst snd rule_sum]. rewrite IH, !Rpow_mult_distr, pow_add. unfold Rdiv. ring.
Qed.
(** The coordinates divided by a common factor K *)
Definition shr (K : Z) (n : znode) : znode := ((fst (fst n) / K, snd (fst n) / K), snd n)%Z.
Definition shr_ok (K : Z) (n : znode) : bool := ((fst (fst n) mod K =? 0) && (snd (fst n) mod K =? 0))%Z.
Lemma shr_sum : forall K l i j, (0 < K)%Z -> forallb (shr_ok K) l = true -> (0 <= i)%Z -> (0 <= j)%Z -> zsum l i j = (K ^ (i + j) * zsum (map (shr K) l) i j)%Z.
Proof.
  intros K l i j HK H Hi Hj. induction l as [|[[u v] w] l IH]; [cbn; ring|]. cbn [forallb] in H. apply andb_true_iff in H. destruct H as [H1 H2]. unfold shr_ok in H1. cbn [fst snd] in H1.
  apply andb_true_iff in H1. destruct H1 as [Hu Hv]. apply Z.eqb_eq in Hu, Hv. cbn [map shr fst snd zsum]. rewrite (IH H2), Z.pow_add_r by lia.
  rewrite (Z.div_mod u K) at 1 by lia. rewrite (Z.div_mod v K) at 1 by lia. rewrite Hu, Hv, !Z.add_0_r, !Z.pow_mul_l. ring.
Qed.
(** |r^n s - t D| <= D / E follows from a bound with q = D / r^n. *)
Definition check_plane (K V : Z) (l : list znode) (d : nat) (E : Z) : bool :=
  let r := (zrt2 / K)%Z in
  ((0 <? K) && (0 <? V) && (K * V =? U) && (zrt2 mod K =? 0))%Z && forallb (shr_ok K) l &&
  let l' := map (shr K) l in
  let qs := map (fun p => fst p / snd p)%Z (combine (powers (S d) (V * V) zpi) (powers (S d) r 1)) in
  check_all (fun i j s => let t := (nmz i * nmz j)%Z in let q := nth (i + j) qs 0%Z in (E * (Z.abs (s - t * q) + t) <=? q)%Z) d l'.
Lemma quotient_bound : forall R D q s t E : Z, (0 < R)%Z -> (0 <= t)%Z -> (0 < E)%Z -> q = (D / R)%Z -> (E * (Z.abs (s - t * q) + t) <= q)%Z -> (Z.abs (R * s * 1 - t * D) * E <= 1 * D)%Z.
Proof.
  intros R D q s t E HR Ht HE Hq H. assert (DM := Z.div_mod D R ltac:(lia)). assert (MB := Z.mod_pos_bound D R HR). rewrite <- Hq in DM.
  set (m := (D mod R)%Z) in *. clearbody m.
  assert (B : (Z.abs (R * s * 1 - t * D) <= R * (Z.abs (s - t * q) + t))%Z).
  { rewrite DM. replace (R * s * 1 - t * (R * q + m))%Z with (R * (s - t * q) - t * m)%Z by ring.
    eapply Z.le_trans; [apply Z.abs_triangle|]. fold (Z.abs (R * (s - t * q))). rewrite Z.abs_opp, !Z.abs_mul, (Z.abs_eq R), (Z.abs_eq t), (Z.abs_eq m) by lia.
    rewrite Z.mul_add_distr_l. apply Z.add_le_mono_l. rewrite (Z.mul_comm R). apply Z.mul_le_mono_nonneg_l; lia. }
  apply Z.le_trans with (R * q)%Z; [|lia]. apply Z.le_trans with (R * (Z.abs (s - t * q) + t) * E)%Z; [apply Z.mul_le_mono_nonneg_r; lia|].
  replace (R * (Z.abs (s - t * q) + t) * E)%Z with (R * (E * (Z.abs (s - t * q) + t)))%Z by ring. apply Z.mul_le_mono_nonneg_l; lia.
Qed.
Lemma nmz_nonneg : forall i, (0 <= nmz i)%Z.
Proof.
  intros i. unfold nmz. enough (H : (0 <= fst (nmz2 i))%Z /\ (0 <= snd (nmz2 i))%Z) by apply H. induction i as [|i [I1 I2]]; [split; cbn; lia|]. cbn [nmz2 fst snd]. split; [exact I2|]. apply Z.mul_nonneg_nonneg; lia.
Qed.
Lemma plane_z : forall K V l i j, (0 < K)%Z -> (0 < V)%Z -> (K * V = U)%Z -> (zrt2 mod K = 0)%Z -> forallb (shr_ok K) l = true ->
  rule_sum (map nnode l) (fun u v => u ^ i * v ^ j)
  = IZR ((zrt2 / K) ^ Z.of_nat (i + j) * zsum (map (shr K) l) (Z.of_nat i) (Z.of_nat j)) / IZR (zpi * V ^ Z.of_nat (2 * (i + j))).
Proof.
  intros K V l i j HK HV HU HR HS. rewrite plane_scale, moment_z, (shr_sum K l _ _ HK HS) by lia. change rt2 with (fx zrt2). change np_pi with (fx zpi).
  assert (ER : zrt2 = (K * (zrt2 / K))%Z) by (rewrite (Z.div_mod zrt2 K) at 1 by lia; lia).
  rewrite fx_pow, fx_U. rewrite ER at 1. rewrite Z.pow_mul_l, <- Nat2Z.inj_add, !mult_IZR, <- (pow_IZR V), <- (pow_IZR K). rewrite <- HU, mult_IZR.
  apply IZR_lt in HK, HV. assert (PP : 0 < IZR zpi) by (apply IZR_lt; reflexivity). set (n := (i + j)%nat).
  replace (2 * n)%nat with (n + n)%nat by lia. rewrite pow_add. cbn [pow]. rewrite Rpow_mult_distr. generalize (IZR ((zrt2 / K) ^ Z.of_nat n)). intros r. field. repeat split; try lra; apply pow_nonzero; lra.
Qed.
Lemma plane_moments : forall K V l d E, check_plane K V l d E = true -> (0 < E)%Z ->
  forall i j, (i + j <= d)%nat -> Rabs (rule_sum (map nnode l) (fun u v => u ^ i * v ^ j) - nm i * nm j) <= / IZR E.
Proof.
  intros K V l d E H HE i j Hij. unfold check_plane in H. repeat (apply andb_true_iff in H; destruct H as [H ?]).
  match goal with h : context [check_all] |- _ => rename h into HP end. assert (HQ := all_ok _ _ _ HP i j Hij). cbv beta zeta in HQ. apply Z.leb_le in HQ. clear HP.
  apply Z.ltb_lt in H. repeat match goal with h : (_ <? _)%Z = true |- _ => apply Z.ltb_lt in h | h : (_ =? _)%Z = true |- _ => apply Z.eqb_eq in h end.
  assert (KR : (0 < zrt2 / K)%Z). { assert (Z2 : (0 < zrt2)%Z) by reflexivity. assert (zrt2 = K * (zrt2 / K))%Z by (rewrite (Z.div_mod zrt2 K) at 1 by lia; lia). nia. }
  assert (NQ : nth (i + j) (map (fun p => fst p / snd p)%Z (combine (powers (S d) (V * V) zpi) (powers (S d) (zrt2 / K) 1))) 0%Z = (zpi * V ^ Z.of_nat (2 * (i + j)) / (zrt2 / K) ^ Z.of_nat (i + j))%Z).
  { assert (PL : forall n V c, List.length (powers n V c) = n) by (clear; induction n as [|n IH]; intros V c; [reflexivity|]; cbn [powers List.length]; now rewrite IH).
    change 0%Z with ((fun p : Z * Z => fst p / snd p) (0, 0))%Z at 1. rewrite map_nth, combine_nth by (now rewrite !PL). cbn [fst snd]. rewrite !powers_nth by lia. rewrite Z.mul_1_l. f_equal. f_equal.
    replace (Z.of_nat (2 * (i + j))) with (2 * Z.of_nat (i + j))%Z by lia. rewrite Z.pow_mul_r by lia. f_equal. ring. }
  rewrite NQ in HQ. apply quotient_bound with (R := ((zrt2 / K) ^ Z.of_nat (i + j))%Z) (D := (zpi * V ^ Z.of_nat (2 * (i + j)))%Z) in HQ; [|apply Z.pow_pos_nonneg; lia|apply Z.mul_nonneg_nonneg; apply nmz_nonneg|exact HE|reflexivity].
  rename HQ into HP.
  rewrite (plane_z K V) by assumption. rewrite !nm_z, <- mult_IZR. replace (IZR (nmz i * nmz j)) with (IZR (nmz i * nmz j) / IZR 1) by (unfold Rdiv; rewrite Rinv_1; ring).
  apply ratio_bound; [apply Z.mul_pos_pos; [reflexivity|apply Z.pow_pos_nonneg; [assumption|lia]]|lia|exact HE|exact HP].
Qed.

(** Tables that are symmetric about both axes: a quarter of the nodes gives all
    sums, and the odd ones vanish. *)
Definition both (z : Z) : list Z := if (z =? 0)%Z then [z] else [z; - z]%Z.
Definition expand (n : znode) : list znode := flat_map (fun x => map (fun y => ((x, y), snd n)) (both (snd (fst n)))) (both (fst (fst n))).
Definition folded (n : znode) : znode :=
  let u := fst (fst n) in let v := snd (fst n) in ((u * u, v * v), (if (u =? 0) then 1 else 2) * (if (v =? 0) then 1 else 2) * snd n)%Z.
Definition same (n m : znode) : bool := ((fst (fst n) =? fst (fst m)) && (snd (fst n) =? snd (fst m)) && (snd n =? snd m))%Z.
Fixpoint without (n : znode) (l : list znode) : option (list znode) :=
  match l with
  | [] => None
  | m :: l' => if same n m then Some l' else match without n l' with Some r => Some (m :: r) | None => None end
  end.
Fixpoint rearranged (l m : list znode) : bool :=
  match l with
  | [] => match m with [] => true | _ => false end
  | n :: l' => match without n m with Some m' => rearranged l' m' | None => false end
  end.
Definition term (n : znode) (i j : Z) : Z := (snd n * fst (fst n) ^ i * snd (fst n) ^ j)%Z.
Lemma zsum_cons : forall n l i j, zsum (n :: l) i j = (term n i j + zsum l i j)%Z.
Proof. intros [[u v] w] l i j. reflexivity. Qed.
Lemma zsum_app : forall l m i j, zsum (l ++ m) i j = (zsum l i j + zsum m i j)%Z.
Proof. induction l as [|n l IH]; intros m i j; [reflexivity|]. rewrite <- app_comm_cons, !zsum_cons, IH. ring. Qed.
Lemma without_sum : forall n l r i j, without n l = Some r -> zsum l i j = (term n i j + zsum r i j)%Z.
Proof.
  intros n. induction l as [|m l IH]; intros r i j H; cbn [without] in H; [discriminate|]. destruct (same n m) eqn:E.
  - injection H as ->. unfold same in E. repeat (apply andb_true_iff in E; destruct E as [E ?]). repeat match goal with h : (_ =? _)%Z = true |- _ => apply Z.eqb_eq in h end.
    rewrite zsum_cons. unfold term. congruence.
  - destruct (without n l) as [r'|]; [|discriminate]. injection H as <-. rewrite !zsum_cons, (IH r' i j eq_refl). ring.
Qed.
Lemma rearranged_sum : forall l m i j, rearranged l m = true -> zsum l i j = zsum m i j.
Proof.
  induction l as [|n l IH]; intros m i j H; cbn [rearranged] in H; [destruct m; [reflexivity|discriminate]|].
  destruct (without n m) as [m'|] eqn:E; [|discriminate]. rewrite zsum_cons, (IH m' i j H), (without_sum n m m' i j E). reflexivity.
Qed.
Lemma pow_neg_even : forall z i, ((- z) ^ Z.of_nat (2 * i) = z ^ Z.of_nat (2 * i))%Z.
Proof. intros z i. apply Z.pow_opp_even. exists (Z.of_nat i). lia. Qed.
Lemma pow_neg_odd : forall z i, ((- z) ^ Z.of_nat (2 * i + 1) = - z ^ Z.of_nat (2 * i + 1))%Z.
Proof. intros z i. apply Z.pow_opp_odd. exists (Z.of_nat i). lia. Qed.
Lemma pow_square : forall z i, (z ^ Z.of_nat (2 * i) = (z * z) ^ Z.of_nat i)%Z.
Proof. intros z i. rewrite Nat2Z.inj_mul. change (Z.of_nat 2) with 2%Z. rewrite Z.pow_mul_r by lia. f_equal. ring. Qed.
Lemma expand_even : forall q i j, zsum (flat_map expand q) (Z.of_nat (2 * i)) (Z.of_nat (2 * j)) = zsum (map folded q) (Z.of_nat i) (Z.of_nat j).
Proof.
  induction q as [|[[u v] w] q IH]; intros i j; [reflexivity|]. cbn [flat_map map]. rewrite zsum_app, zsum_cons, IH. f_equal. unfold expand, folded, both, term. cbn [fst snd].
  destruct (u =? 0)%Z, (v =? 0)%Z; cbn [flat_map map app zsum]; rewrite ?pow_neg_even, !pow_square; ring.
Qed.
Lemma zero_odd : forall i, (0 ^ Z.of_nat (2 * i + 1) = 0)%Z.
Proof. intros i. apply Z.pow_0_l. lia. Qed.
Lemma expand_odd_x : forall q i j, zsum (flat_map expand q) (Z.of_nat (2 * i + 1)) j = 0%Z.
Proof.
  induction q as [|[[u v] w] q IH]; intros i j; [reflexivity|]. cbn [flat_map]. rewrite zsum_app, IH. unfold expand, both. cbn [fst snd].
  destruct (Z.eqb_spec u 0) as [->|_], (v =? 0)%Z; cbn [flat_map map app zsum]; rewrite ?zero_odd, ?pow_neg_odd; ring.
Qed.
Lemma expand_odd_y : forall q i j, zsum (flat_map expand q) i (Z.of_nat (2 * j + 1)) = 0%Z.
Proof.
  induction q as [|[[u v] w] q IH]; intros i j; [reflexivity|]. cbn [flat_map]. rewrite zsum_app, IH. unfold expand, both. cbn [fst snd].
  destruct (u =? 0)%Z, (Z.eqb_spec v 0) as [->|_]; cbn [flat_map map app zsum]; rewrite ?zero_odd, ?pow_neg_odd; ring.
Qed.
Lemma nmz_odd : forall i, nmz (2 * i + 1) = 0%Z.
Proof.
  intros i. unfold nmz. induction i as [|i IH]; [reflexivity|]. replace (2 * S i + 1)%nat with (S (S (2 * i + 1))) by lia. cbn [nmz2 fst snd]. rewrite IH. ring.
Qed.
Definition quarter (l : list znode) : list znode := filter (fun n => (0 <=? fst (fst n)) && (0 <=? snd (fst n)))%Z l.
Definition check_sym (K V : Z) (l : list znode) (d : nat) (E : Z) : bool :=
  let r := (zrt2 / K)%Z in
  ((0 <? K) && (0 <? V) && (K * V =? U) && (zrt2 mod K =? 0))%Z && forallb (shr_ok K) l &&
  let l' := map (shr K) l in
  let h := Nat.div2 d in
  let qs := map (fun p => fst p / snd p)%Z (combine (powers (S h) (V * V * (V * V)) zpi) (powers (S h) (r * r) 1)) in
  rearranged l' (flat_map expand (quarter l')) &&
  check_all (fun i j s => let t := (nmz (2 * i) * nmz (2 * j))%Z in let q := nth (i + j) qs 0%Z in (E * (Z.abs (s - t * q) + t) <=? q)%Z) h (map folded (quarter l')).
Lemma sym_moments : forall K V l d E, check_sym K V l d E = true -> (0 < E)%Z ->
  forall i j, (i + j <= d)%nat -> Rabs (rule_sum (map nnode l) (fun u v => u ^ i * v ^ j) - nm i * nm j) <= / IZR E.
Proof.
  intros K V l d E H HE i j Hij. unfold check_sym in H. apply andb_true_iff in H. destruct H as [H HP]. cbv zeta in HP. apply andb_true_iff in HP. destruct HP as [HR HP].
  repeat (apply andb_true_iff in H; destruct H as [H ?]).
  apply Z.ltb_lt in H. repeat match goal with h : (_ <? _)%Z = true |- _ => apply Z.ltb_lt in h | h : (_ =? _)%Z = true |- _ => apply Z.eqb_eq in h end.
  assert (KR : (0 < zrt2 / K)%Z). { assert (Z2 : (0 < zrt2)%Z) by reflexivity. assert (zrt2 = K * (zrt2 / K))%Z by (rewrite (Z.div_mod zrt2 K) at 1 by lia; lia). nia. }
  rewrite (plane_z K V) by assumption. rewrite !nm_z, <- mult_IZR. rewrite (rearranged_sum _ _ _ _ HR).
  assert (OD : Rabs (0 / IZR (zpi * V ^ Z.of_nat (2 * (i + j))) - 0) <= / IZR E).
  { unfold Rdiv. rewrite Rmult_0_l, Rminus_0_r, Rabs_R0. apply Rlt_le, Rinv_0_lt_compat, IZR_lt, HE. }
  destruct (Nat.Even_or_Odd i) as [[a Ha]|[a Ha]]; [destruct (Nat.Even_or_Odd j) as [[b Hb]|[b Hb]]|].
  2:{ rewrite Hb at 2 4. rewrite expand_odd_y, nmz_odd, !Z.mul_0_r. exact OD. }
  2:{ rewrite Ha at 2 4. rewrite expand_odd_x, nmz_odd, Z.mul_0_l, !Z.mul_0_r. exact OD. }
  assert (Hab : (a + b <= Nat.div2 d)%nat). { assert (D2 := Nat.div2_odd d). destruct (Nat.odd d); cbn [Nat.b2n] in D2; lia. }
  assert (HQ := all_ok _ _ _ HP a b Hab). cbv beta zeta in HQ. apply Z.leb_le in HQ. clear HP.
  rewrite <- expand_even, <- Ha, <- Hb in HQ.
  assert (NQ : nth (a + b) (map (fun p => fst p / snd p)%Z (combine (powers (S (Nat.div2 d)) (V * V * (V * V)) zpi) (powers (S (Nat.div2 d)) (zrt2 / K * (zrt2 / K)) 1))) 0%Z = (zpi * V ^ Z.of_nat (2 * (i + j)) / (zrt2 / K) ^ Z.of_nat (i + j))%Z).
  { assert (PL : forall n V c, List.length (powers n V c) = n) by (clear; induction n as [|n IH]; intros V c; [reflexivity|]; cbn [powers List.length]; now rewrite IH).
    change 0%Z with ((fun p : Z * Z => fst p / snd p) (0, 0))%Z at 1. rewrite map_nth, combine_nth by (now rewrite !PL). cbn [fst snd]. rewrite !powers_nth by lia. rewrite Z.mul_1_l. rewrite Ha, Hb, <- Nat.mul_add_distr_l, !pow_square.
    reflexivity. }
  rewrite NQ in HQ. apply quotient_bound with (R := ((zrt2 / K) ^ Z.of_nat (i + j))%Z) (D := (zpi * V ^ Z.of_nat (2 * (i + j)))%Z) in HQ; [|apply Z.pow_pos_nonneg; lia|apply Z.mul_nonneg_nonneg; apply nmz_nonneg|exact HE|reflexivity].
  replace (IZR (nmz i * nmz j)) with (IZR (nmz i * nmz j) / IZR 1) by (unfold Rdiv; rewrite Rinv_1; ring).
  apply ratio_bound; [apply Z.mul_pos_pos; [reflexivity|apply Z.pow_pos_nonneg; [assumption|lia]]|lia|exact HE|exact HQ].
Qed.

(** ** The tables *)
Transparent U.
Definition sq3 : list znode := let g := gen_3d4pt in [((g, 0), U); ((- g, 0), U); ((0, g), U); ((0, - g), U)]%Z.
Definition axes (g w : Z) : list znode := [((g, 0), w); ((- g, 0), w); ((0, g), w); ((0, - g), w)]%Z.
Definition diagonals (g w : Z) : list znode := [((g, g), w); ((g, - g), w); ((- g, g), w); ((- g, - g), w)]%Z.
Definition sq7 : list znode :=
  axes 925820099772551461566566776583999 241975308641975308641975308641975 ++
  diagonals 380554433208315656379106359086394 520592916667394457139919432046731 ++
  diagonals 805979782918598743707856181350744 237431774690630234218105259311293.
Lemma sq3_ok : check_square sq3 3 (10 ^ 32) = true. Proof. vm_compute. reflexivity. Qed.
Lemma sq7_ok : check_square sq7 7 (10 ^ 32) = true. Proof. vm_compute. reflexivity. Qed.
Definition table (name : string) : list znode :=
  match find (fun t => String.eqb name (fst t)) tables with Some t => combine (fst (snd t)) (snd (snd t)) | None => [] end.
