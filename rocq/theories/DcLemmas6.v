(** The rule of degree 9 *)

From Coq Require Import List Bool Arith ZArith Reals Lra Lia.
From Verif Require Import Exn Instances McModel CountSpec McLemmas5 SySpec SyModel SyLemmas7 SyLemmas10 DcModel DcLemmas DcLemmas2 DcLemmas3 DcLemmas4 DcLemmas5 DcNodes.
Import ListNotations.
Open Scope R_scope.

Lemma ratio9_is : ratio9 = -2273714222698337 / 301151855629738575.
Proof. unfold ratio9. rewrite ratio_is, lam0_is, lam2_is. field; nums. Qed.
Lemma lam3_is : lam3 = 19132345520513752395133564811676 / 23871232930217442631064721328195.
Proof. unfold lam3. rewrite ratio9_is, lam0_is, lam1_is, lam2_is. field; nums. Qed.

Section Nine.
Variable n : nat.
Hypothesis n2 : (2 <= n)%nat.
Definition big (i : nat) : bool := Nat.eqb i (len9 n).
Definition gsp9 (i : nat) : R * R * nat * nat :=
  if big i then (sqrt lam0, sqrt lam0 + 1, n, 0%nat)
  else match i with
  | 4%nat => (sqrt lam3, sqrt lam3 + 1, 1%nat, 0%nat)
  | 5%nat => (sqrt lamp9, sqrt lamp9 + 1, 1%nat, 0%nat)
  | 6%nat => (sqrt lam1, sqrt lam1 + 1, 2%nat, 0%nat)
  | 7%nat => (sqrt lam2, sqrt lam1, 1%nat, 1%nat)
  | _ => (sqrt lam1, sqrt lam1 + 1, 3%nat, 0%nat)
  end.
Let t := d09hre n.
Lemma sqrts9 : 0 < sqrt lamp9 /\ 0 < sqrt lam1 /\ 0 < sqrt lam0 /\ 0 < sqrt lam2 /\ 0 < sqrt lam3 /\ sqrt lam2 < sqrt lam1.
Proof. repeat split; try apply sqrt_lt_R0; try apply sqrt_lt_1; unfold lamp9; rewrite ?lam0_is, ?lam1_is, ?lam2_is, ?lam3_is; lra. Qed.
Lemma len_cases : (n = 2%nat /\ len9 n = 8%nat) \/ ((3 <= n)%nat /\ len9 n = 9%nat).
Proof. unfold len9. destruct (Nat.eqb_spec n 2); [left; now split|right; split; [lia|reflexivity]]. Qed.
Lemma gens_pair : forall x1 x2, gens n [x2; x1] = map (gphi x1 x2) (ones n 1 1).
Proof. intros x1 x2. unfold gens, ones. cbn [length repeat app map]. rewrite map_rep. cbn [gphi]. do 3 f_equal. lia. Qed.
Lemma gok9 : forall i, In i (seq 4 (t_len t - 3)) -> g_ok n gsp9 i /\ t_g t i = map (g_phi gsp9 i) (g_ones n gsp9 i).
Proof.
  intros i Hi. destruct sqrts9 as (S1 & S2 & S3 & S4 & S5 & S6). unfold g_ok, g_phi, g_ones, gsp9. cbn [t_g t d09hre]. unfold g9. fold (big i). destruct (big i) eqn:B.
  - split; [split; [lra|lia]|]. rewrite <- (gens_ones n (sqrt lam0) (sqrt lam0 + 1) n) by lia. unfold gens. rewrite repeat_length, Nat.sub_diag. cbn [repeat]. now rewrite app_nil_r.
  - unfold big in B. apply Nat.eqb_neq in B. cbn [t_len t d09hre] in Hi. apply in_seq in Hi. destruct len_cases as [[N L]|[N L]]; rewrite L in *; destruct i as [|[|[|[|[|[|[|[|[|i]]]]]]]]]; try lia; (split; [split; [lra|lia]|]);
      first [apply (gens_ones n _ (sqrt lam3 + 1) 1); lia|apply (gens_ones n _ (sqrt lamp9 + 1) 1); lia|apply (gens_ones n _ (sqrt lam1 + 1) 2); lia|apply gens_pair|apply (gens_ones n _ (sqrt lam1 + 1) 3); lia].
Qed.
Definition L9 (j : nat) : (list R -> R) -> R := LL n t gsp9 (sqrt lam1) (sqrt lam2) (t_w t j).

(** The sums for the exponents that are not 0, all of them even; column 8 only
    if n > 2 *)
Definition M9 (w : nat -> R) (l : list nat) : R :=
  let m := (list_sum l / 2)%nat in
  let w8 := if Nat.ltb 2 n then w 8%nat else 0 in
  let w9 := w (len9 n) in
  match l with
  | [] => w 1%nat + 2 * INR n * (w 2%nat + w 3%nat + w 4%nat + w 5%nat) + 2 * INR n * (INR n - 1) * w 6%nat + 4 * INR n * (INR n - 1) * w 7%nat + 4 * INR n * (INR n - 1) * (INR n - 2) / 3 * w8 + twondm n * w9
  | [_] => 2 * (w 2%nat * lam1 ^ m + w 3%nat * lam2 ^ m + w 4%nat * lam3 ^ m + w 5%nat * lamp9 ^ m) + 4 * (INR n - 1) * (w 6%nat * lam1 ^ m) + 4 * (INR n - 1) * (w 7%nat * (lam1 ^ m + lam2 ^ m))
           + 4 * (INR n - 1) * (INR n - 2) * (w8 * lam1 ^ m) + twondm n * w9 * lam0 ^ m
  | [a; b] => 4 * (w 6%nat * lam1 ^ m) + 4 * (w 7%nat * (lam1 ^ (a / 2) * lam2 ^ (b / 2) + lam2 ^ (a / 2) * lam1 ^ (b / 2))) + 8 * (INR n - 2) * (w8 * lam1 ^ m) + twondm n * w9 * lam0 ^ m
  | [_; _; _] => 8 * (w8 * lam1 ^ m) + twondm n * w9 * lam0 ^ m
  | _ => twondm n * w9 * lam0 ^ m
  end.
Lemma esum_3 : forall e x y, (3 <= n)%nat -> evens e -> length e = n -> esum e x y 3 0 = match nz e with [] => 4 * INR n * (INR n - 1) * (INR n - 2) / 3 | [k] => 4 * (INR n - 1) * (INR n - 2) * x ^ k | [k; k'] => 8 * (INR n - 2) * x ^ (k + k') | [k; k'; k''] => 8 * x ^ (k + (k' + k'')) | _ => 0 end.
Proof.
  intros e x y N H L. rewrite esum_one by exact H. unfold zs. rewrite L. destruct (nz e) as [|k [|k' [|k'' [|q l]]]]; cbn [length Nat.leb Nat.sub pp]; [| | |rewrite bb_0|]; try ring.
  - rewrite Nat.sub_0_r, bb_3. ring.
  - rewrite bb_2, minus_INR by lia. cbn [INR]. ring.
  - rewrite bb_1, minus_INR, pow_add by lia. cbn [INR]. ring.
  - rewrite !pow_add. ring.
Qed.
Lemma esum_p : forall e x y, evens e -> length e = n -> esum e x y 1 1 = match nz e with [] => 4 * INR n * (INR n - 1) | [k] => 4 * (INR n - 1) * (x ^ k + y ^ k) | [k; k'] => 4 * (x ^ k * y ^ k' + y ^ k * x ^ k') | _ => 0 end.
Proof.
  intros e x y H L. rewrite esum_two by exact H. unfold zs. rewrite L. destruct (nz e) as [|k [|k' [|q l]]]; cbn [length one_each]; [rewrite Nat.sub_0_r; reflexivity|rewrite minus_INR by lia; cbn [INR]; ring|ring|reflexivity].
Qed.
Lemma esum_1' : forall e x y, evens e -> length e = n -> esum e x y 1 0 = match nz e with [] => 2 * INR n | [k] => 2 * x ^ k | _ => 0 end.
Proof. exact (esum_1 n). Qed.
Lemma half_split : forall k q, Nat.even k = true -> Nat.even q = true -> ((k + q) / 2)%nat = (k / 2 + q / 2)%nat.
Proof. intros k q H1 H2. apply Nat.even_spec in H1, H2. destruct H1 as [a ->], H2 as [b ->]. replace (2 * a + 2 * b)%nat with ((a + b) * 2)%nat by lia. rewrite !(Nat.mul_comm 2), !Nat.div_mul by lia. reflexivity. Qed.
Lemma L9_even : forall j e, length e = n -> evens e -> L9 j (monomial e) = M9 (t_w t j) (nz e).
Proof.
  intros j e Le Ev. unfold L9. rewrite LL_mono; [|exact Le|intros i Hi; destruct (gok9 i Hi) as [G _]; unfold g_ok in G; destruct (gsp9 i) as [[[x1 x2] c1] c2]; tauto].
  assert (EN : forall k, In k (nz e) -> Nat.even k = true) by (intros k Hk; exact (Ev k (proj1 (nz_in e k Hk)))).
  assert (Q := sum_even (nz e) EN). assert (H1 : 0 <= lam1) by (rewrite lam1_is; lra). assert (H2 : 0 <= lam2) by (rewrite lam2_is; lra). assert (H3 : 0 <= lam3) by (rewrite lam3_is; lra). assert (H4 : 0 <= lamp9) by (unfold lamp9; lra). assert (H0 : 0 <= lam0) by (rewrite lam0_is; lra).
  assert (P : forall x, 0 <= x -> sqrt x ^ list_sum (nz e) = x ^ (list_sum (nz e) / 2)) by (intros x Hx; now apply (sqrt_even n n2)).
  assert (P0 := P _ H0). assert (P1 := P _ H1). assert (P2 := P _ H2). assert (P3 := P _ H3). assert (P4 := P _ H4). assert (PK : forall k x, In k (nz e) -> 0 <= x -> sqrt x ^ k = x ^ (k / 2)) by (intros k x Hk Hx; apply (sqrt_even n n2); [exact Hx|now apply EN]).
  assert (LN := nz_le e). cbn [t_len t d09hre]. unfold M9. destruct len_cases as [[N L]|[N L]]; rewrite L.
  - replace (Nat.ltb 2 n) with false by (symmetry; apply Nat.ltb_ge; lia). change (seq 4 (8 - 3)) with [4; 5; 6; 7; 8]%nat. cbn [map]. unfold gsp9, big. rewrite L. cbn [Nat.eqb]. unfold sumR. cbn [fold_right].
    rewrite esum_0', !esum_1', (esum_2 n n2), (esum_n n), esum_p by assumption. rewrite P0, tw_pow.
    destruct (nz e) as [|k [|k' [|k'' l]]]; cbn [list_sum fold_right length] in *; rewrite ?Nat.add_0_r in *; [| | |lia].
    + cbn [Nat.div Nat.divmod fst pow]. ring.
    + rewrite ?P1, ?P2, ?P3, ?P4. ring.
    + rewrite P1, !PK by (try assumption; cbn; tauto). ring.
  - replace (Nat.ltb 2 n) with true by (symmetry; apply Nat.ltb_lt; lia). change (seq 4 (9 - 3)) with [4; 5; 6; 7; 8; 9]%nat. cbn [map]. unfold gsp9, big. rewrite L. cbn [Nat.eqb]. unfold sumR. cbn [fold_right].
    rewrite esum_0', !esum_1', (esum_2 n n2), (esum_n n), esum_p, esum_3 by assumption. rewrite P0, tw_pow.
    destruct (nz e) as [|k [|k' [|k'' [|q l]]]]; cbn [list_sum fold_right length] in *; rewrite ?Nat.add_0_r in *.
    + cbn [Nat.div Nat.divmod fst pow]. ring.
    + rewrite ?P1, ?P2, ?P3, ?P4. ring.
    + rewrite P1, !PK by (try assumption; cbn; tauto). ring.
    + rewrite P1. ring.
    + ring.
Qed.
Lemma L9_odd : forall j e, length e = n -> existsb Nat.odd e = true -> L9 j (monomial e) = 0.
Proof.
  intros j e Le Od. unfold L9. rewrite LL_mono; [|exact Le|intros i Hi; destruct (gok9 i Hi) as [G _]; unfold g_ok in G; destruct (gsp9 i) as [[[x1 x2] c1] c2]; tauto].
  rewrite !esum_odd by exact Od. rewrite (sumR_ext _ _ (fun i => 0 * 0)); [rewrite (sumR_scal _ (fun _ => 0)); ring|]. intros i _. destruct (gsp9 i) as [[[x1 x2] c1] c2]. rewrite esum_odd by exact Od. ring.
Qed.

(** Moments of the weights as they are given *)
Definition R9 (j : nat) (l : list nat) : R := M9 (raw9 n j) l.
Lemma b9 : twondm n * w9_19 n = 1 / (3 * lam0) ^ 4 /\ twondm n * w9_29 n = 1 / (108 * lam0 ^ 4) /\ twondm n * w9_39 n = 5 / (324 * lam0 ^ 4) /\ twondm n * w9_49 n = 2 / (81 * lam0 ^ 4).
Proof.
  assert (T := tw_pos n). unfold w9_19, w9_29, w9_39, w9_49. assert (Z : lam0 <> 0) by (rewrite lam0_is; lra). repeat split; field; split; try assumption; lra.
Qed.
(** Column 8 *)
Definition v8 (j : nat) : R := match j with 1%nat => w9_18 n | 2%nat => w9_28 n | 3%nat => w9_38 n | 4%nat => w9_48 n | _ => 0 end.
Lemma raw_small : forall j i, (1 <= i <= 7)%nat -> raw9 n j i = match j, i with
  | 1%nat, 2%nat => w9_12 n | 1%nat, 3%nat => w9_13 n | 1%nat, 4%nat => w9_14 | 1%nat, 6%nat => w9_16 n | 1%nat, 7%nat => w9_17
  | 2%nat, 2%nat => w9_22 n | 2%nat, 3%nat => w9_23 n | 2%nat, 4%nat => w9_24 n | 2%nat, 6%nat => w9_26 n | 2%nat, 7%nat => w9_27 n
  | 3%nat, 2%nat => w9_32 n | 3%nat, 3%nat => w9_33 n | 3%nat, 5%nat => w9_35 n | 3%nat, 6%nat => w9_36 n | 3%nat, 7%nat => w9_37 n
  | 4%nat, 2%nat => w9_42 n | 4%nat, 3%nat => w9_43 n | 4%nat, 4%nat => w9_44 n | 4%nat, 6%nat => w9_46 n | 4%nat, 7%nat => w9_47 n
  | 5%nat, 2%nat => w9_52
  | _, _ => 0 end.
Proof.
  intros j i Hi. unfold raw9. replace (Nat.eqb i (len9 n)) with false; [|symmetry; apply Nat.eqb_neq; destruct len_cases as [[_ L]|[_ L]]; lia].
  destruct j as [|[|[|[|[|[|j]]]]]]; try reflexivity; destruct i as [|[|[|[|[|[|[|[|i]]]]]]]]; try reflexivity; lia.
Qed.
Lemma raw_len : forall j, raw9 n j (len9 n) = match j with 1%nat => w9_19 n | 2%nat => w9_29 n | 3%nat => w9_39 n | 4%nat => w9_49 n | _ => 0 end.
Proof. intros j. unfold raw9. now rewrite Nat.eqb_refl. Qed.
Lemma raw_8 : forall j, (2 < n)%nat -> raw9 n j 8 = v8 j.
Proof. intros j H. unfold raw9. destruct len_cases as [[N L]|[N L]]; [lia|]. rewrite L. cbn [Nat.eqb]. destruct j as [|[|[|[|[|j]]]]]; try reflexivity. cbn. destruct j; reflexivity. Qed.
(** With the factor n - 2 *)
Lemma raw_8' : forall j, (INR n - 2) * (if Nat.ltb 2 n then raw9 n j 8 else 0) = (INR n - 2) * v8 j.
Proof.
  intros j. destruct (Nat.ltb_spec 2 n) as [H|H]; [now rewrite raw_8|]. replace n with 2%nat by lia. cbn [INR]. ring.
Qed.
Lemma R9_eq : forall j l, (length l <= 2)%nat -> l <> [] -> R9 j l =
  let m := (list_sum l / 2)%nat in let w := raw9 n j in
  match l with
  | [_] => 2 * (w 2%nat * lam1 ^ m + w 3%nat * lam2 ^ m + w 4%nat * lam3 ^ m + w 5%nat * lamp9 ^ m) + 4 * (INR n - 1) * (w 6%nat * lam1 ^ m) + 4 * (INR n - 1) * (w 7%nat * (lam1 ^ m + lam2 ^ m))
           + 4 * (INR n - 1) * lam1 ^ m * ((INR n - 2) * v8 j) + twondm n * w (len9 n) * lam0 ^ m
  | [a; b] => 4 * (w 6%nat * lam1 ^ m) + 4 * (w 7%nat * (lam1 ^ (a / 2) * lam2 ^ (b / 2) + lam2 ^ (a / 2) * lam1 ^ (b / 2))) + 8 * lam1 ^ m * ((INR n - 2) * v8 j) + twondm n * w (len9 n) * lam0 ^ m
  | _ => 0
  end.
Proof.
  intros j l H N. unfold R9, M9. cbv zeta. rewrite <- raw_8'. destruct l as [|a [|b [|c l]]]; [congruence|ring|ring|cbn [length] in H; lia].
Qed.
(** The generators are distinct *)
Lemma lam_dist : lam0 <> 0 /\ lam1 <> 0 /\ lam2 <> 0 /\ lam3 <> 0 /\ lamp9 <> 0 /\ lam0 <> lam1 /\ lam0 <> lam2 /\ lam0 <> lam3 /\ lam1 <> lam2 /\ lam1 <> lam3 /\ lam2 <> lam3 /\ lam1 <> lamp9 /\ lam2 <> lamp9.
Proof. unfold lamp9. rewrite lam0_is, lam1_is, lam2_is, lam3_is. repeat split; lra. Qed.
(** What the choice of the generators achieves *)
Lemma key1 : 1 / (3 * lam0) ^ 4 = P3 lam1 lam2 lam3 / (9 * lam0 * (lam0 - lam1) * (lam0 - lam2) * (lam0 - lam3)).
Proof. unfold P3. rewrite lam0_is, lam1_is, lam2_is, lam3_is. field; nums. Qed.
Lemma key2 : 1 / (3 * lam0) ^ 4 * lam0 ^ 2 = (1 - 7 * (lam1 + lam2) / 5 + 7 * lam1 * lam2 / 3) / (21 * (lam0 - lam1) * (lam0 - lam2)).
Proof. rewrite lam0_is, lam1_is, lam2_is. field; nums. Qed.
Lemma key3 : w9_17 * (lam1 * lam2 * (lam1 - lam2) ^ 2) = / 525.
Proof. unfold w9_17. rewrite lam0_is, lam1_is, lam2_is. field; nums. Qed.
Ltac open9 := rewrite R9_eq by (cbn; lia || discriminate); cbv zeta; cbn [list_sum fold_right Nat.div Nat.divmod fst Nat.add];
  rewrite !raw_small by lia; rewrite raw_len; cbn [v8].
Lemma r9_sym : forall j a b, R9 j [a; b] = R9 j [b; a].
Proof.
  intros j a b. rewrite !R9_eq by (cbn; lia || discriminate). cbv zeta. cbn [list_sum fold_right]. replace (b + (a + 0))%nat with (a + (b + 0))%nat by lia. ring.
Qed.
Lemma r9_1 : R9 1 [2%nat] = / 3 /\ R9 1 [4%nat] = / 5 /\ R9 1 [6%nat] = / 7 /\ R9 1 [8%nat] = / 9 /\ R9 1 [2; 2]%nat = / 9 /\ R9 1 [4; 2]%nat = / 15 /\ R9 1 [2; 4]%nat = / 15 /\ R9 1 [4; 4]%nat = / 25 /\ R9 1 [6; 2]%nat = / 21 /\ R9 1 [2; 6]%nat = / 21.
Proof.
  destruct b9 as (B & _). destruct lam_dist as (X0 & Y0 & Z0 & U0 & _ & XY & XZ & XU & YZ & YU & ZU & _).
  assert (S1 : forall m M, (m = 1%nat /\ M = / 3) \/ (m = 2%nat /\ M = / 5) \/ (m = 3%nat /\ M = / 7) \/ (m = 4%nat /\ M = / 9) -> forall V,
    2 * (w9_12 n * lam1 ^ m + w9_13 n * lam2 ^ m + w9_14 * lam3 ^ m + 0 * V) + 4 * (INR n - 1) * (w9_16 n * lam1 ^ m) + 4 * (INR n - 1) * (w9_17 * (lam1 ^ m + lam2 ^ m)) + 4 * (INR n - 1) * lam1 ^ m * ((INR n - 2) * w9_18 n) + twondm n * w9_19 n * lam0 ^ m = M).
  { intros m M Hm V. rewrite <- (lag4 lam0 lam1 lam2 lam3 X0 Y0 Z0 U0 XY XZ XU YZ YU ZU m M Hm). rewrite B, key1. unfold w9_12, w9_13, w9_14, nd. rewrite single_eq. fold (P3 lam0 lam2 lam3) (P3 lam0 lam1 lam3) (P3 lam0 lam1 lam2). ring. }
  destruct (double9 (INR n) (w9_18 n) lam0 lam1 lam2 (1 / (3 * lam0) ^ 4) w9_17 XY XZ YZ Y0 Z0 eq_refl key2) as (D1 & D2 & D3 & D4). specialize (D4 key3).
  assert (E1 : R9 1 [4; 2]%nat = / 15) by (open9; rewrite B; exact D2). assert (E2 : R9 1 [6; 2]%nat = / 21) by (open9; rewrite B; exact D3).
  repeat split.
  - open9. apply S1. tauto.
  - open9. apply S1. tauto.
  - open9. apply S1. tauto.
  - open9. apply S1. tauto.
  - open9. rewrite B. exact D1.
  - exact E1.
  - rewrite r9_sym. exact E1.
  - open9. rewrite B. exact D4.
  - exact E2.
  - rewrite r9_sym. exact E2.
Qed.
Lemma r9_2 : R9 2 [2%nat] = / 3 /\ R9 2 [4%nat] = / 5 /\ R9 2 [6%nat] = / 7 /\ R9 2 [2; 2]%nat = / 9 /\ R9 2 [4; 2]%nat = / 15 /\ R9 2 [2; 4]%nat = / 15.
Proof.
  destruct lam_dist as (X0 & Y0 & Z0 & U0 & _ & XY & XZ & XU & YZ & YU & ZU & _).
  assert (S1 : forall m M, (m = 1%nat /\ M = / 3) \/ (m = 2%nat /\ M = / 5) \/ (m = 3%nat /\ M = 1 / 7) -> forall V,
    2 * (w9_22 n * lam1 ^ m + w9_23 n * lam2 ^ m + w9_24 n * lam3 ^ m + 0 * V) + 4 * (INR n - 1) * (w9_26 n * lam1 ^ m) + 4 * (INR n - 1) * (w9_27 n * (lam1 ^ m + lam2 ^ m)) + 4 * (INR n - 1) * lam1 ^ m * ((INR n - 2) * w9_28 n) + twondm n * w9_29 n * lam0 ^ m = M).
  { intros m M Hm V. rewrite <- (lag3 1 lam0 (twondm n * w9_29 n) lam1 lam2 lam3 Y0 Z0 U0 YZ YU ZU m M Hm). unfold w9_22, w9_23, w9_24, nd. rewrite single_eq. unfold P2. ring. }
  destruct (double7 (INR n) (w9_28 n) (w9_27 n) (twondm n * w9_29 n) lam0 lam1 lam2 Y0) as (D1 & D2). specialize (D2 Z0 (not_eq_sym YZ)).
  assert (E1 : R9 2 [4; 2]%nat = / 15) by (open9; apply D2; unfold w9_27; f_equal; ring).
  repeat split.
  - open9. apply S1. tauto.
  - open9. apply S1. tauto.
  - open9. apply S1. right; right; split; [reflexivity|lra].
  - open9. exact D1.
  - exact E1.
  - rewrite r9_sym. exact E1.
Qed.
Lemma r9_3 : R9 3 [2%nat] = / 3 /\ R9 3 [4%nat] = / 5 /\ R9 3 [6%nat] = / 7 /\ R9 3 [2; 2]%nat = / 9 /\ R9 3 [4; 2]%nat = / 15 /\ R9 3 [2; 4]%nat = / 15.
Proof.
  destruct lam_dist as (X0 & Y0 & Z0 & _ & U0 & XY & XZ & XU & YZ & _ & _ & YU & ZU).
  assert (S1 : forall m M, (m = 1%nat /\ M = / 3) \/ (m = 2%nat /\ M = / 5) \/ (m = 3%nat /\ M = 1 / 7) -> forall V,
    2 * (w9_32 n * lam1 ^ m + w9_33 n * lam2 ^ m + 0 * V + w9_35 n * lamp9 ^ m) + 4 * (INR n - 1) * (w9_36 n * lam1 ^ m) + 4 * (INR n - 1) * (w9_37 n * (lam1 ^ m + lam2 ^ m)) + 4 * (INR n - 1) * lam1 ^ m * ((INR n - 2) * w9_38 n) + twondm n * w9_39 n * lam0 ^ m = M).
  { intros m M Hm V. rewrite <- (lag3 1 lam0 (twondm n * w9_39 n) lam1 lam2 lamp9 Y0 Z0 U0 YZ YU ZU m M Hm). unfold w9_32, w9_33, w9_35, nd. rewrite single_eq. unfold P2. ring. }
  destruct (double7 (INR n) (w9_38 n) (w9_37 n) (twondm n * w9_39 n) lam0 lam1 lam2 Y0) as (D1 & D2). specialize (D2 Z0 (not_eq_sym YZ)).
  assert (E1 : R9 3 [4; 2]%nat = / 15) by (open9; apply D2; unfold w9_37; f_equal; ring).
  repeat split.
  - open9. apply S1. tauto.
  - open9. apply S1. tauto.
  - open9. apply S1. right; right; split; [reflexivity|lra].
  - open9. exact D1.
  - exact E1.
  - rewrite r9_sym. exact E1.
Qed.
Lemma r9_4 : R9 4 [2%nat] = / 3 /\ R9 4 [4%nat] = / 5 /\ R9 4 [2; 2]%nat = / 9.
Proof.
  destruct lam_dist as (X0 & Y0 & Z0 & U0 & _ & XY & XZ & XU & YZ & YU & ZU & _).
  assert (S1 : forall m M, (m = 1%nat /\ M = / 3) \/ (m = 2%nat /\ M = / 5) \/ (m = 3%nat /\ M = 2 / 7) -> forall V,
    2 * (w9_42 n * lam1 ^ m + w9_43 n * lam2 ^ m + w9_44 n * lam3 ^ m + 0 * V) + 4 * (INR n - 1) * (w9_46 n * lam1 ^ m) + 4 * (INR n - 1) * (w9_47 n * (lam1 ^ m + lam2 ^ m)) + 4 * (INR n - 1) * lam1 ^ m * ((INR n - 2) * w9_48 n) + twondm n * w9_49 n * lam0 ^ m = M).
  { intros m M Hm V. rewrite <- (lag3 2 lam0 (twondm n * w9_49 n) lam1 lam2 lam3 Y0 Z0 U0 YZ YU ZU m M Hm). unfold w9_42, w9_43, w9_44, nd. rewrite single_eq. unfold P2. ring. }
  destruct (double7 (INR n) (w9_48 n) (w9_47 n) (twondm n * w9_49 n) lam0 lam1 lam2 Y0) as (D1 & _).
  repeat split.
  - open9. apply S1. tauto.
  - open9. apply S1. tauto.
  - open9. exact D1.
Qed.
Lemma r9_5 : R9 5 [2%nat] = / 3.
Proof. destruct lam_dist as (X0 & Y0 & _). open9. unfold w9_52. field. exact Y0. Qed.
Ltac row93 N B := unfold R9, M9; rewrite (proj2 (Nat.ltb_lt 2 n) N); cbn [list_sum fold_right Nat.div Nat.divmod fst Nat.add]; rewrite raw_8 by lia; rewrite raw_len; cbn [v8]; unfold w9_18, w9_28, w9_38; rewrite (proj2 (Nat.ltb_lt 2 n) N);
  rewrite ?(Rmult_assoc 27 (twondm n)), ?B; rewrite lam1_is, lam0_is; field; nums.
Lemma r9_three : (2 < n)%nat -> R9 1 [2; 2; 2]%nat = / 27 /\ R9 1 [4; 2; 2]%nat = / 45 /\ R9 1 [2; 4; 2]%nat = / 45 /\ R9 1 [2; 2; 4]%nat = / 45 /\ R9 2 [2; 2; 2]%nat = / 27 /\ R9 3 [2; 2; 2]%nat = / 27.
Proof. intros N. destruct b9 as (B1 & B2 & B3 & _). repeat split; [row93 N B1|row93 N B1|row93 N B1|row93 N B1|row93 N B2|row93 N B3]. Qed.
Lemma r9_four : R9 1 [2; 2; 2; 2]%nat = / 81.
Proof. destruct b9 as (B & _). unfold R9, M9. rewrite raw_len, B. cbn [list_sum fold_right Nat.div Nat.divmod fst Nat.add]. rewrite lam0_is. field; nums. Qed.

(** The weights of the table *)
Lemma w9_top : forall i, (2 <= i)%nat -> t_w t 1 i = twondm n * raw9 n 1 i.
Proof. intros [|[|i]] H; [lia|lia|reflexivity]. Qed.
Lemma w9_row : forall j i, (2 <= j)%nat -> (2 <= i)%nat -> t_w t j i = raw9 n j i - raw9 n 1 i.
Proof. intros [|[|j]] [|[|i]] H1 H2; try lia; reflexivity. Qed.
Lemma len9_big : (2 <= len9 n)%nat.
Proof. destruct len_cases as [[_ ->]|[_ ->]]; lia. Qed.
Lemma M9_1 : forall l, l <> [] -> M9 (t_w t 1) l = twondm n * R9 1 l.
Proof.
  intros l H. unfold R9, M9. destruct l as [|k [|k' [|k'' [|q l]]]]; [congruence| | | |]; rewrite !w9_top by (lia || apply len9_big); destruct (Nat.ltb 2 n); ring.
Qed.
Lemma M9_j : forall j l, (2 <= j)%nat -> l <> [] -> M9 (t_w t j) l = R9 j l - R9 1 l.
Proof.
  intros j l Hj H. unfold R9, M9. destruct l as [|k [|k' [|k'' [|q l]]]]; [congruence| | | |]; rewrite !w9_row by (lia || apply len9_big); destruct (Nat.ltb 2 n); ring.
Qed.
Lemma M9_0 : forall j, (1 <= j)%nat -> M9 (t_w t j) [] = if Nat.eqb j 1 then twondm n else 0.
Proof.
  intros j Hj. unfold M9. cbn [t t_w d09hre]. unfold pts9. destruct len_cases as [[N L]|[N L]]; rewrite L.
  - replace (Nat.ltb 2 n) with false by (symmetry; apply Nat.ltb_ge; lia). destruct j as [|[|j]]; [lia| |]; cbn [finish_w Nat.eqb seq Nat.sub fold_left]; unfold nd; rewrite N; cbn [INR]; ring.
  - replace (Nat.ltb 2 n) with true by (symmetry; apply Nat.ltb_lt; lia). destruct j as [|[|j]]; [lia| |]; cbn [finish_w Nat.eqb seq Nat.sub fold_left]; unfold nd; field.
Qed.
Lemma L9_exact : forall e, length e = n -> (list_sum e <= 9)%nat -> L9 1 (monomial e) = moms e.
Proof.
  intros e Le SU. destruct (odd_or_even e) as [O|E]; [rewrite L9_odd, moms_odd by assumption; reflexivity|]. rewrite L9_even, moms_even by assumption. assert (LN := nz_le e). rewrite Le in LN |- *. rewrite <- tw_pow.
  destruct (even_cases 4 (nz e)) as (l & El & D); [intros k Hk; apply nz_in in Hk; destruct Hk; split; [now apply E|assumption]|rewrite nz_sum; lia|]. rewrite El in *. rewrite map_length in LN.
  destruct r9_1 as (A1 & A2 & A3 & A4 & A5 & A6 & A7 & A8 & A9 & A10). assert (A11 := r9_four).
  destruct l as [|a [|b [|c [|d [|q l]]]]]; cbn [list_sum fold_right length] in D, LN; cbn [map].
  - rewrite M9_0 by lia. cbn. ring.
  - rewrite M9_1 by discriminate. destruct a as [|[|[|[|a]]]]; [| | | |lia]; cbn [Nat.mul Nat.add]; rewrite ?A1, ?A2, ?A3, ?A4; cbn [recip INR]; field.
  - rewrite M9_1 by discriminate. destruct a as [|[|[|a]]], b as [|[|[|b]]]; try lia; cbn [Nat.mul Nat.add]; rewrite ?A5, ?A6, ?A7, ?A8, ?A9, ?A10; cbn [recip INR]; field.
  - destruct (r9_three ltac:(lia)) as (C1 & C2 & C3 & C4 & _). rewrite M9_1 by discriminate. destruct a as [|[|a]], b as [|[|b]], c as [|[|c]]; try lia; cbn [Nat.mul Nat.add]; rewrite ?C1, ?C2, ?C3, ?C4; cbn [recip INR]; field.
  - rewrite M9_1 by discriminate. destruct a, b, c, d; try lia. cbn [Nat.mul Nat.add]. rewrite A11. cbn [recip INR]. field.
  - lia.
Qed.
Lemma L9_null : forall e k d, length e = n -> (k, d) = (1%nat, 7%nat) \/ (k, d) = (2%nat, 7%nat) \/ (k, d) = (3%nat, 5%nat) \/ (k, d) = (4%nat, 3%nat) -> (list_sum e <= d)%nat -> L9 (k + 1) (monomial e) = 0.
Proof.
  intros e k d Le K SU. destruct (odd_or_even e) as [O|E]; [now apply L9_odd|]. rewrite L9_even by assumption. assert (LN := nz_le e). rewrite Le in LN.
  assert (X : (1 <= k)%nat /\ (d <= 7)%nat) by (destruct K as [[= -> ->]|[[= -> ->]|[[= -> ->]|[= -> ->]]]]; lia).
  destruct (even_cases ((d - 1) / 2) (nz e)) as (l & El & D).
  - intros q Hq; apply nz_in in Hq; destruct Hq; split; [now apply E|assumption].
  - rewrite nz_sum. destruct K as [[= -> ->]|[[= -> ->]|[[= -> ->]|[= -> ->]]]]; cbn [Nat.div Nat.divmod Nat.sub fst]; lia.
  - rewrite El in *. rewrite map_length in LN. destruct l as [|a l]; cbn [map]; [rewrite M9_0 by lia; destruct (Nat.eqb_spec (k + 1) 1); [lia|reflexivity]|]. rewrite M9_j by (lia || discriminate).
    destruct r9_1 as (A1 & A2 & A3 & _ & A5 & A6 & A7 & _). destruct r9_2 as (B1 & B2 & B3 & B4 & B5 & B6). destruct r9_3 as (C1 & C2 & C3 & C4 & C5 & C6). destruct r9_4 as (D1 & D2 & D3). assert (E1 := r9_5).
    destruct K as [[= -> ->]|[[= -> ->]|[[= -> ->]|[= -> ->]]]]; cbn [Nat.div Nat.divmod Nat.sub fst list_sum fold_right length Nat.add] in *.
    1,2: destruct l as [|b [|c [|q l]]]; cbn [list_sum fold_right length map] in *; [destruct a as [|[|[|a]]]; [| | |lia]|destruct a as [|[|a]], b as [|[|b]]; try lia|destruct (r9_three ltac:(lia)) as (F1 & _ & _ & _ & F2 & F3); destruct a, b, c; try lia|lia]; cbn [Nat.mul Nat.add]; lra.
    + destruct l as [|b [|c l]]; cbn [list_sum fold_right length map] in *; [destruct a as [|[|a]]; [| |lia]|destruct a, b; try lia|lia]; cbn [Nat.mul Nat.add]; lra.
    + destruct l as [|b l]; cbn [list_sum fold_right length map] in *; [|lia]. destruct a; [|lia]. cbn [Nat.mul Nat.add]. lra.
Qed.
End Nine.
