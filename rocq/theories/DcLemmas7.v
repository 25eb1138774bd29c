(** DINHRE does not divide by 0; the value and the error of a region *)

From Coq Require Import List Bool Arith ZArith Reals Lra Lia.
From Verif Require Import Exn Instances McModel CountSpec McLemmas5 BaModel AdModel SySpec SyModel SyLemmas6 SyLemmas7 SyLemmas10 DcTables DcModel DcLemmas DcLemmas2 DcLemmas3 DcLemmas4 DcLemmas5 DcLemmas6 DcFixed DcFixed2 DcNear.
Import ListNotations.
Open Scope R_scope.

Lemma fold_sum_pos : forall (g : nat -> R) l a, 0 <= a -> (forall j, In j l -> 0 <= g j) -> (0 < a \/ exists j, In j l /\ 0 < g j) -> 0 < fold_left (fun s j => s + g j) l a.
Proof.
  intros g. induction l as [|x l IH]; intros a Ha Hg H; cbn [fold_left].
  - destruct H as [H|(j & [] & _)]. exact H.
  - assert (G := Hg x (or_introl eq_refl)). apply IH; [lra|intros j Hj; apply Hg; now right|]. destruct H as [H|(j & [->|Hj] & P)]; [left; lra|left; lra|right; eauto].
Qed.
Lemma normsum_pos : forall t k i j, (forall q, (1 <= q <= t_len t)%nat -> 0 < t_pts t q) -> (1 <= j <= t_len t)%nat -> t_w t (k + 2)%nat j + scales t k i * t_w t (k + 1)%nat j <> 0 -> 0 < normsum t k i.
Proof.
  intros t k i j P Hj N. unfold normsum. apply (fold_sum_pos (fun j => t_pts t j * Rabs (t_w t (k + 2)%nat j + scales t k i * t_w t (k + 1)%nat j))); [lra| |right].
  - intros q Hq. apply in_seq in Hq. apply Rmult_le_pos; [apply Rlt_le, P; lia|apply Rabs_pos].
  - exists j. split; [apply in_seq; lia|]. apply Rmult_lt_0_compat; [apply P, Hj|now apply Rabs_pos_lt].
Qed.

Lemma nd_ge : forall n, (2 <= n)%nat -> 2 <= INR n.
Proof. intros n H. apply le_INR in H. cbn in H. lra. Qed.
Lemma pts7_pos : forall n q, (2 <= n)%nat -> 0 < pts7 n q.
Proof.
  intros n q H. assert (D := nd_ge n H). assert (T := tw_pos n). unfold pts7, nd. assert (0 < 2 * INR n * (INR n - 1)) by (apply Rmult_lt_0_compat; lra).
  destruct q as [|[|[|[|[|[|[|q]]]]]]]; lra.
Qed.
Lemma pts9_pos : forall n q, (2 <= n)%nat -> (q <= len9 n)%nat -> 0 < pts9 n q.
Proof.
  intros n q H Hq. assert (D := nd_ge n H). assert (T := tw_pos n). unfold pts9, nd. assert (P : 0 < 2 * INR n * (INR n - 1)) by (apply Rmult_lt_0_compat; lra).
  destruct (Nat.eqb_spec q (len9 n)) as [E|E]; [lra|]. destruct (len_cases n H) as [[N L]|[N L]]; rewrite L in *; destruct q as [|[|[|[|[|[|[|[|[|q]]]]]]]]]; try lra; try lia.
  assert (3 <= INR n) by (apply le_INR in N; cbn in N; lra). assert (0 < 2 * INR n * (INR n - 1) * (INR n - 2)) by (apply Rmult_lt_0_compat; lra). lra.
Qed.

Lemma nz_mul : forall a b, a * b <> 0 -> b <> 0.
Proof. intros a b H E. apply H. rewrite E. ring. Qed.
Lemma norm7 : forall n k i, (2 <= n)%nat -> (1 <= k <= 3)%nat -> 0 < normsum (d07hre n) k i.
Proof.
  intros n k i Hn Hk. destruct (b7 n) as (B1 & B2 & B3 & B4). assert (T := tw_pos n).
  assert (NP := fun j => normsum_pos (d07hre n) k i j (fun q _ => pts7_pos n q Hn)). set (s := scales (d07hre n) k i) in *. clearbody s.
  assert (W34 : w7_34 n <> 0). { unfold w7_34. rewrite (Rmult_assoc 5 (twondm n)), B3. unfold lamp7. rewrite lam1_is, lam0_is. lra. }
  destruct k as [|[|[|[|k]]]]; try lia.
  - apply (NP 4%nat); [cbn; lia|]. cbn [d07hre t_w finish_w Nat.add raw7]. intros E. apply W34. lra.
  - destruct (Req_dec s 0) as [Z|Z].
    + apply (NP 6%nat); [cbn; lia|]. cbn [d07hre t_w finish_w Nat.add raw7]. apply (nz_mul (twondm n)).
      replace (twondm n * (w7_46 n - w7_16 n + s * (w7_36 n - w7_16 n))) with (twondm n * w7_46 n - twondm n * w7_16 n) by (rewrite Z; ring). rewrite B4, B1, lam0_is. lra.
    + apply (NP 4%nat); [cbn; lia|]. cbn [d07hre t_w finish_w Nat.add raw7]. replace (0 - 0 + s * (w7_34 n - 0)) with (s * w7_34 n) by ring. now apply Rmult_integral_contrapositive.
  - destruct (Req_dec s (-2)) as [Z|Z].
    + apply (NP 2%nat); [cbn; lia|]. cbn [d07hre t_w finish_w Nat.add raw7]. rewrite Z. unfold w7_42, w7_12. rewrite (Rmult_assoc 5 (twondm n)), (Rmult_assoc 10 (twondm n)), B1, B4. rewrite lam2_is, lam1_is, lam0_is. lra.
    + apply (NP 6%nat); [cbn; lia|]. cbn [d07hre t_w finish_w Nat.add raw7]. apply (nz_mul (twondm n)).
      replace (twondm n * (0 - w7_16 n + s * (w7_46 n - w7_16 n))) with (s * (twondm n * w7_46 n) - (1 + s) * (twondm n * w7_16 n)) by ring. rewrite B4, B1.
      intros E. apply Z. assert (F : (s * (1 / 54) - (1 + s) * (1 / 27)) * (1 / lam0 ^ 3) = 0) by (rewrite <- E; field; rewrite lam0_is; lra).
      apply Rmult_integral in F. destruct F as [F|F]; [lra|]. exfalso. revert F. rewrite lam0_is. lra.
Qed.
Lemma norm9 : forall n k i, (2 <= n)%nat -> (1 <= k <= 3)%nat -> 0 < normsum (d09hre n) k i.
Proof.
  intros n k i Hn Hk. destruct (b9 n) as (B1 & B2 & B3 & B4). assert (T := tw_pos n).
  assert (NP := fun j => normsum_pos (d09hre n) k i j (fun q Hq => pts9_pos n q Hn (proj2 Hq))). set (s := scales (d09hre n) k i) in *. clearbody s.
  assert (BL : (8 <= len9 n <= 9)%nat) by (destruct (len_cases n Hn) as [[_ ->]|[_ ->]]; lia).
  assert (W35 : w9_35 n <> 0). { unfold w9_35. rewrite B3. unfold lamp9. rewrite lam2_is, lam1_is, lam0_is. lra. }
  assert (RW := w9_row n). cbv zeta in RW. assert (RS := raw_small n Hn). assert (RL := raw_len n).
  destruct k as [|[|[|[|k]]]]; try lia; cbn [Nat.add] in NP.
  - apply (NP 5%nat); [cbn [t_len d09hre]; lia|]. rewrite !RW, !RS by lia. intros E. apply W35. lra.
  - destruct (Req_dec s 0) as [Z|Z].
    + apply (NP (len9 n)); [cbn [t_len d09hre]; lia|]. rewrite !RW, !RL by lia. apply (nz_mul (twondm n)).
      replace (twondm n * (w9_49 n - w9_19 n + s * (w9_39 n - w9_19 n))) with (twondm n * w9_49 n - twondm n * w9_19 n) by (rewrite Z; ring). rewrite B4, B1, lam0_is. lra.
    + apply (NP 5%nat); [cbn [t_len d09hre]; lia|]. rewrite !RW, !RS by lia. replace (0 - 0 + s * (w9_35 n - 0)) with (s * w9_35 n) by ring. now apply Rmult_integral_contrapositive.
  - destruct (Req_dec s 1) as [Z|Z].
    + apply (NP 4%nat); [cbn [t_len d09hre]; lia|]. rewrite !RW, !RS by lia. rewrite Z. unfold w9_44, w9_14. rewrite B4. rewrite lam3_is, lam2_is, lam1_is, lam0_is. lra.
    + apply (NP (len9 n)); [cbn [t_len d09hre]; lia|]. rewrite !RW, !RL by lia. apply (nz_mul (twondm n)).
      replace (twondm n * (0 - w9_19 n + s * (w9_49 n - w9_19 n))) with (s * (twondm n * w9_49 n) - (1 + s) * (twondm n * w9_19 n)) by ring. rewrite B4, B1.
      intros E. apply Z. assert (F : (s * (2 / 81) - (1 + s) * (1 / 81)) * (1 / lam0 ^ 4) = 0) by (rewrite <- E; field; rewrite lam0_is; lra).
      apply Rmult_integral in F. destruct F as [F|F]; [lra|]. exfalso. revert F. rewrite lam0_is. lra.
Qed.
(** The rules of D132RE and D113RE *)
Lemma norm_2 : forall k i, (1 <= k <= 3)%nat -> (1 <= i <= 14)%nat -> 0 < normsum d132re k i /\ (1 + Rabs (scales d132re k i)) * norms 2 d132re k i <= 47.
Proof.
  intros k i Hk Hi. assert (C := nchk2). rewrite forallb_forall in C. specialize (C k ltac:(apply in_seq; lia)). rewrite forallb_forall in C. specialize (C i ltac:(apply in_seq; lia)).
  exact (norm_ok 2 d132re ptz2 _ _ k 47 p2_is (fun j => f_equal (fun g => g j) (w2_is (k + 1) ltac:(lia) ltac:(lia))) (fun j => f_equal (fun g => g j) (w2_is (k + 2) ltac:(lia) ltac:(lia))) ltac:(reflexivity) i C).
Qed.
Lemma norm_3 : forall k i, (1 <= k <= 3)%nat -> (1 <= i <= 13)%nat -> 0 < normsum d113re k i /\ (1 + Rabs (scales d113re k i)) * norms 3 d113re k i <= 4.
Proof.
  intros k i Hk Hi. assert (C := nchk3). rewrite forallb_forall in C. specialize (C k ltac:(apply in_seq; lia)). rewrite forallb_forall in C. specialize (C i ltac:(apply in_seq; lia)).
  exact (norm_ok 3 d113re ptz3 _ _ k 4 p3_is (fun j => f_equal (fun g => g j) (w3_is (k + 1) ltac:(lia) ltac:(lia))) (fun j => f_equal (fun g => g j) (w3_is (k + 2) ltac:(lia) ltac:(lia))) ltac:(reflexivity) i C).
Qed.
Definition L2 (j : nat) : (list R -> R) -> R := LL 2 d132re (gspz cols2) (absc dim2g 1) (absc dim2g 2) (t_w d132re j).
Definition L3 (j : nat) : (list R -> R) -> R := LL 3 d113re (gspz cols3) (absc dim3g 1) (absc dim3g 2) (t_w d113re j).
Lemma L2_quad : forall j e, (1 <= j <= 5)%nat -> length e = 2%nat -> L2 j (monomial e) = quad cols2 (rows2 j) e.
Proof. intros j e Hj Le. unfold L2. rewrite w2_is by lia. exact (LL_quad 2 d132re cols2 _ _ (rows2 j) e shaped2 eq_refl Le). Qed.
Lemma L3_quad : forall j e, (1 <= j <= 5)%nat -> length e = 3%nat -> L3 j (monomial e) = quad cols3 (rows3 j) e.
Proof. intros j e Hj Le. unfold L3. rewrite w3_is by lia. exact (LL_quad 3 d113re cols3 _ _ (rows3 j) e shaped3 eq_refl Le). Qed.
Lemma L2_near : forall e, length e = 2%nat -> (list_sum e <= 13)%nat -> Rabs (L2 1 (monomial e) - moms e) <= 800000 / unit21.
Proof. intros e Le Se. rewrite L2_quad by (lia || exact Le). assert (M := moments_m cols2 (rows2 1) 1 800000 2 6 e mchk2_1 ltac:(lia) Le ltac:(lia)). now rewrite Rmult_1_l in M. Qed.
Lemma L3_near : forall e, length e = 3%nat -> (list_sum e <= 11)%nat -> Rabs (L3 1 (monomial e) - moms e) <= 400000 / unit21.
Proof. intros e Le Se. rewrite L3_quad by (lia || exact Le). assert (M := moments_m cols3 (rows3 1) 1 400000 3 5 e mchk3_1 ltac:(lia) Le ltac:(lia)). now rewrite Rmult_1_l in M. Qed.
Lemma L2_null : forall e k, (1 <= k <= 4)%nat -> length e = 2%nat -> (list_sum e <= 7)%nat -> Rabs (L2 (k + 1) (monomial e) - 0) <= 730000 / unit21.
Proof.
  intros e k Hk Le Se. rewrite L2_quad by (lia || exact Le). assert (C := mchk2_0). rewrite forallb_forall in C. assert (X : In (k + 1)%nat [2; 3; 4; 5]%nat) by (cbn; lia). specialize (C (k + 1)%nat X).
  assert (M := moments_m cols2 (rows2 (k + 1)) 0 730000 2 3 e C ltac:(lia) Le ltac:(lia)). now rewrite Rmult_0_l in M.
Qed.
Lemma L3_null : forall e k, (1 <= k <= 4)%nat -> length e = 3%nat -> (list_sum e <= 5)%nat -> Rabs (L3 (k + 1) (monomial e) - 0) <= 2100000 / unit21.
Proof.
  intros e k Hk Le Se. rewrite L3_quad by (lia || exact Le). assert (C := mchk3_0). rewrite forallb_forall in C. assert (X : In (k + 1)%nat [2; 3; 4; 5]%nat) by (cbn; lia). specialize (C (k + 1)%nat X).
  assert (M := moments_m cols3 (rows3 (k + 1)) 0 2100000 3 2 e C ltac:(lia) Le ltac:(lia)). now rewrite Rmult_0_l in M.
Qed.

Definition table_of (n : nat) (keyf : Z) : table := if (keyf =? 1)%Z then d132re else if (keyf =? 2)%Z then d113re else if (keyf =? 3)%Z then d09hre n else d07hre n.
Definition kok (n : nat) (keyf : Z) : Prop := keyf = 3%Z \/ keyf = 4%Z \/ (keyf = 1%Z /\ n = 2%nat) \/ (keyf = 2%Z /\ n = 3%nat).
Lemma dinhre_ok : forall n keyf, (2 <= n)%nat -> kok n keyf -> dinhre n keyf = Ok (table_of n keyf).
Proof.
  intros n keyf Hn K. unfold dinhre, table_of. assert (G : forall t, (forall k i, (1 <= k <= 3)%nat -> (1 <= i <= t_len t)%nat -> 0 < normsum t k i) -> existsb (fun k => existsb (fun i => Reqb (normsum t k i) 0) (seq 1 (t_len t))) (seq 1 3) = false).
  { intros t P. apply not_true_is_false. intros E. apply existsb_exists in E. destruct E as (k & Hk & E). apply existsb_exists in E. destruct E as (i & Hi & E). apply Reqb_spec in E. apply in_seq in Hk, Hi. specialize (P k i ltac:(lia) ltac:(lia)). lra. }
  destruct K as [-> |[-> |[[-> ->]|[-> ->]]]]; cbn [Z.eqb Pos.eqb].
  - rewrite G; [reflexivity|]. intros k i Hk _. now apply norm9.
  - rewrite G; [reflexivity|]. intros k i Hk _. now apply norm7.
  - rewrite G; [reflexivity|]. intros k i Hk Hi. now apply norm_2.
  - rewrite G; [reflexivity|]. intros k i Hk Hi. now apply norm_3.
Qed.

(** The rules together *)
Section Both.
Variables (n : nat) (keyf : Z).
Hypothesis n2 : (2 <= n)%nat.
Let t := table_of n keyf.
Definition LB (j : nat) : (list R -> R) -> R := if (keyf =? 1)%Z then L2 j else if (keyf =? 2)%Z then L3 j else if (keyf =? 3)%Z then L9 n j else L7 n j.
Definition deg : nat := if (keyf =? 1)%Z then 13 else if (keyf =? 2)%Z then 11 else if (keyf =? 3)%Z then 9 else 7.
Definition ndeg : nat := if (keyf =? 1)%Z then 7 else if (keyf =? 2)%Z then 5 else if (keyf =? 3)%Z then 5 else 3.
Definition vtol : R := if (keyf =? 1)%Z then 2 / 10 ^ 16 else if (keyf =? 2)%Z then 5 / 10 ^ 17 else 0.
Definition etol : R := if (keyf =? 1)%Z then 5 / 10 ^ 14 else if (keyf =? 2)%Z then 4 / 10 ^ 15 else 0.
Hypothesis K : kok n keyf.
Lemma LB_lin : forall j F G a b, LB j (fun u => a * F u + b * G u) = a * LB j F + b * LB j G.
Proof. intros. unfold LB. destruct (keyf =? 1)%Z; [unfold L2; apply LL_lin|]. destruct (keyf =? 2)%Z; [unfold L3; apply LL_lin|]. destruct (keyf =? 3)%Z; [unfold L9|unfold L7]; apply LL_lin. Qed.
Lemma LB_ext : forall j F G, (forall u, length u = n -> F u = G u) -> LB j F = LB j G.
Proof.
  intros j F G H. unfold LB. destruct K as [-> |[-> |[[-> ->]|[-> ->]]]]; cbn [Z.eqb Pos.eqb]; [unfold L9|unfold L7|unfold L2|unfold L3]; apply LL_ext; assumption.
Qed.
Lemma LB_near : forall e, length e = n -> (list_sum e <= deg)%nat -> Rabs (LB 1 (monomial e) - moms e) <= vtol * 2 ^ n.
Proof.
  intros e Le. unfold LB, deg, vtol. destruct K as [-> |[-> |[[-> ->]|[-> ->]]]]; cbn [Z.eqb Pos.eqb]; intros Se.
  - rewrite L9_exact by assumption. rewrite Rminus_diag_eq, Rabs_R0 by reflexivity. lra.
  - rewrite L7_exact by assumption. rewrite Rminus_diag_eq, Rabs_R0 by reflexivity. lra.
  - eapply Rle_trans; [now apply L2_near|]. unfold unit21. lra.
  - eapply Rle_trans; [now apply L3_near|]. unfold unit21. lra.
Qed.
Section Region.
Variables (f : list R -> vec) (numfun : nat).
Definition U (c h : list R) (j : nat) (u : list R) : R := f (aff c h u) j.
Definition V (c h : list R) (j : nat) : R := prodl h * LB 1 (U c h j).
Definition E (c h : list R) (j : nat) : R := prodl h * drl_error n t (fun k j => LB (k + 1) (U c h j)) j.
Lemma region_is : forall c h g, length c = n -> length h = n -> (forall i, g i = t_g t i) ->
  exists v e d g', drlhre f n numfun t c h g = Ok (v, e, d, g') /\ (forall i, g' i = t_g t i) /\ (1 <= d <= n)%nat /\ (forall j, v j = V c h j) /\ (forall j, e j = E c h j).
Proof.
  intros c h g Lc Lh G. unfold V, E, LB, t, table_of in *. destruct K as [-> |[-> |[[-> ->]|[-> ->]]]]; cbn [Z.eqb Pos.eqb] in *.
  - exact (drlhre_is f n numfun (d09hre n) (gsp9 n) n2 (gok9 n n2) (sqrt lam1) (sqrt lam2) c h Lc Lh g G ltac:(unfold d09hre, t_g, g9; destruct (len_cases n n2) as [[_ ->]|[_ ->]]; eexists; reflexivity) ltac:(unfold d09hre, t_g, g9; destruct (len_cases n n2) as [[_ ->]|[_ ->]]; eexists; reflexivity)).
  - exact (drlhre_is f n numfun (d07hre n) (gsp7 n) n2 (gok7 n n2) (sqrt lam2) (sqrt lam1) c h Lc Lh g G ltac:(eexists; reflexivity) ltac:(eexists; reflexivity)).
  - exact (drlhre_is f 2 numfun d132re (gspz cols2) n2 gok2 (absc dim2g 1) (absc dim2g 2) c h Lc Lh g G ltac:(eexists; reflexivity) ltac:(eexists; reflexivity)).
  - exact (drlhre_is f 3 numfun d113re (gspz cols3) n2 gok3 (absc dim3g 1) (absc dim3g 2) c h Lc Lh g G ltac:(eexists; reflexivity) ltac:(eexists; reflexivity)).
Qed.
(** Errors are not negative *)
Lemma fold_max_le : forall (g : nat -> R) l a, a <= fold_left (fun s k => Rmax s (g k)) l a.
Proof. intros g. induction l as [|k l IH]; intros a; cbn [fold_left]; [lra|]. eapply Rle_trans; [|apply IH]. apply Rmax_l. Qed.
Lemma drl_search_pos : forall null j i, 0 <= drl_search n t null j i.
Proof. intros null j i. unfold drl_search. apply (fold_max_le (fun k => Rabs (null (i + 1)%nat j + scales t i k * null i j) * norms n t i k)). Qed.
Lemma ec_ok : 0 <= t_ec t 3 /\ t_ec t 3 <= t_ec t 4 /\ t_ec t 5 = 1 / 2 /\ t_ec t 6 = 1 / 4.
Proof. unfold t, table_of. destruct K as [-> |[-> |[[-> ->]|[-> ->]]]]; cbn; repeat split; lra. Qed.
Lemma drl_error_pos : forall null j, 0 <= drl_error n t null j.
Proof.
  intros null j. unfold drl_error. assert (P1 := drl_search_pos null j 1). assert (P2 := drl_search_pos null j 2). assert (P3 := drl_search_pos null j 3). set (a := drl_search n t null j 1) in *. set (b := drl_search n t null j 2) in *. set (c := drl_search n t null j 3) in *.
  assert (Q := Rmax_l (Rmax a b) c). assert (Q' := Rmax_l a b). destruct ec_ok as (C3 & C4 & _). destruct (_ && _); apply Rmult_le_pos; lra.
Qed.
Lemma prodl_pos : forall h, (forall x, In x h -> 0 <= x) -> 0 <= prodl h.
Proof. induction h as [|x h IH]; intros H; cbn [prodl]; [lra|]. apply Rmult_le_pos; [apply H; now left|apply IH; intros y Hy; apply H; now right]. Qed.
Lemma E_pos : forall c h j, (forall x, In x h -> 0 <= x) -> 0 <= E c h j.
Proof. intros c h j H. apply Rmult_le_pos; [now apply prodl_pos|apply drl_error_pos]. Qed.
End Region.

(** Polynomials *)
Lemma V_near : forall f p c h j, (forall x, length x = n -> f x j = poly p x) -> of_degree deg n p -> length c = n -> length h = n -> (forall x, In x h -> 0 <= x) ->
  Rabs (V f c h j - sumc p (fun ks => parts1 ks c h)) <= vtol * (2 ^ n * prodl h * size p c h).
Proof.
  intros f p c h j Hf D Lc Lh Ph. unfold V. rewrite (LB_ext 1 _ (fun u => poly p (aff c h u))) by (intros u Hu; unfold U; apply Hf; now rewrite aff_len by congruence).
  assert (N := near_poly n (LB 1) deg moms (vtol * 2 ^ n) p c h (LB_lin 1) (LB_ext 1) LB_near D Lc Lh). assert (PP := prodl_pos h Ph).
  replace (sumc p (fun ks => parts1 ks c h)) with (prodl h * sumc p (fun ks => sumc (pull ks c h) moms)) by (rewrite sumc_scal; apply sumc_ext; intros a e Hin; destruct (D a e Hin); apply pull_int; congruence).
  rewrite <- Rmult_minus_distr_l, Rabs_mult, (Rabs_right (prodl h)) by lra. apply (Rmult_le_compat_l (prodl h)) in N; [|exact PP]. lra.
Qed.
Lemma fold_max_zero : forall (g : nat -> R) l, (forall k, g k = 0) -> fold_left (fun s k => Rmax s (g k)) l 0 = 0.
Proof. intros g l H. induction l as [|k l IH]; cbn [fold_left]; [reflexivity|]. rewrite H, Rmax_left by lra. exact IH. Qed.
Lemma LB_null : keyf = 3%Z \/ keyf = 4%Z -> forall e k, (1 <= k <= 3)%nat -> length e = n -> (list_sum e <= if Nat.leb k 2 then deg - 2 else deg - 4)%nat -> LB (k + 1) (monomial e) = 0.
Proof.
  intros K2 e k Hk Le S. unfold LB, deg in *. destruct K2 as [-> | ->]; cbn [Z.eqb Pos.eqb] in *.
  - apply (L9_null n n2 e k (if Nat.leb k 2 then 7 else 5)); [exact Le| |exact S]. destruct k as [|[|[|[|k]]]]; cbn [Nat.leb]; lia || tauto.
  - apply (L7_null n n2 e k (if Nat.leb k 2 then 5 else 3)); [exact Le| |exact S]. destruct k as [|[|[|[|k]]]]; cbn [Nat.leb]; lia || tauto.
Qed.
Lemma E_zero : keyf = 3%Z \/ keyf = 4%Z -> forall f p c h j, (forall x, length x = n -> f x j = poly p x) -> of_degree ndeg n p -> length c = n -> length h = n -> E f c h j = 0.
Proof.
  intros K2 f p c h j Hf D Lc Lh. unfold E. assert (DQ : ndeg = (deg - 4)%nat) by (unfold ndeg, deg; destruct K2 as [-> | ->]; reflexivity). rewrite DQ in D. assert (D' : of_degree (deg - 2) n p) by (intros a ks Hin; destruct (D a ks Hin); split; [assumption|lia]).
  assert (N : forall k, (1 <= k <= 3)%nat -> LB (k + 1) (U f c h j) = 0).
  { intros k Hk. rewrite (LB_ext _ _ (fun u => poly p (aff c h u))) by (intros u Hu; unfold U; apply Hf; now rewrite aff_len by congruence).
    apply (null_poly n (LB (k + 1)) (if Nat.leb k 2 then deg - 2 else deg - 4)%nat p c h (LB_lin _) (LB_ext _)); try assumption.
    - intros e Le Se. now apply (LB_null K2).
    - destruct (Nat.leb k 2); assumption. }
  unfold drl_error. set (null := fun k j => LB (k + 1) (U f c h j)).
  assert (S1 : drl_search n t null j 1 = 0). { apply fold_max_zero. intros k. unfold null. rewrite !(N (1 + 1)%nat), !(N 1%nat) by lia. rewrite Rmult_0_r, Rplus_0_r, Rabs_R0. ring. }
  assert (S2 : drl_search n t null j 2 = 0). { apply fold_max_zero. intros k. unfold null. rewrite !(N (2 + 1)%nat), !(N 2%nat) by lia. rewrite Rmult_0_r, Rplus_0_r, Rabs_R0. ring. }
  assert (S3 := drl_search_pos null j 3). rewrite S1, S2. replace (Rleb (t_ec t 1 * 0) 0) with true by (symmetry; apply Rleb_spec; lra). replace (Rleb (t_ec t 2 * 0) (drl_search n t null j 3)) with true by (symmetry; apply Rleb_spec; lra). cbn [andb]. ring.
Qed.
(** The error is small in any case *)
Lemma two_n : 0 < 2 ^ n.
Proof. apply pow_lt. lra. Qed.
Lemma E_near : forall f p c h j, (forall x, length x = n -> f x j = poly p x) -> of_degree ndeg n p -> length c = n -> length h = n -> (forall x, In x h -> 0 <= x) ->
  E f c h j + 3 * (vtol * (2 ^ n * prodl h * size p c h)) <= etol * (2 ^ n * prodl h * size p c h).
Proof.
  intros f p c h j Hf D Lc Lh Ph. assert (PP := prodl_pos h Ph). assert (SP := size_pos p c h).
  assert (X : keyf = 3%Z \/ keyf = 4%Z \/ ((keyf = 1%Z /\ n = 2%nat) \/ (keyf = 2%Z /\ n = 3%nat))) by (destruct K as [Q|[Q|Q]]; auto). destruct X as [X|[X|X]].
  1,2: rewrite (E_zero ltac:(auto) f p c h j Hf D Lc Lh); unfold vtol, etol; rewrite X; cbn [Z.eqb Pos.eqb]; lra.
  unfold E. assert (Q : 0 <= prodl h * size p c h) by (now apply Rmult_le_pos).
  assert (UU : 0 < unit21) by apply unit_pos.
  assert (T : exists kap tau ec, t_ec t 4 = ec /\ 0 <= tau /\ 0 <= kap /\ ec * (kap * tau) + 3 * (vtol * 2 ^ n) <= etol * 2 ^ n /\ (forall e k, (1 <= k <= 4)%nat -> length e = n -> (list_sum e <= ndeg)%nat -> Rabs (LB (k + 1) (monomial e) - 0) <= tau) /\
    (forall k i, (1 <= k <= 3)%nat -> (1 <= i <= t_len t)%nat -> 0 <= norms n t k i /\ (1 + Rabs (scales t k i)) * norms n t k i <= kap)).
  { assert (NN : forall m t k i, 0 < normsum t k i -> 0 <= norms m t k i) by (intros m t' k i H; unfold norms; apply Rmult_le_pos; [apply Rlt_le, tw_pos|now apply Rlt_le, Rinv_0_lt_compat]).
    unfold t, table_of, LB, ndeg, vtol, etol. destruct X as [[-> ->]|[-> ->]]; cbn [Z.eqb Pos.eqb].
    - exists 47, (730000 / unit21), 5. split; [reflexivity|]. split; [apply Rlt_le, Rdiv_lt_0_compat; lra|]. split; [lra|]. split; [unfold unit21; lra|]. split; [intros e k Hk Le Se; now apply L2_null|].
      intros k i Hk Hi. destruct (norm_2 k i Hk Hi) as [N1 N2]. split; [now apply NN|exact N2].
    - exists 4, (2100000 / unit21), 3. split; [reflexivity|]. split; [apply Rlt_le, Rdiv_lt_0_compat; lra|]. split; [lra|]. split; [unfold unit21; lra|]. split; [intros e k Hk Le Se; now apply L3_null|].
      intros k i Hk Hi. destruct (norm_3 k i Hk Hi) as [N1 N2]. split; [now apply NN|exact N2]. }
  destruct T as (kap & tau & ec & E4 & Ht & Hk & HB & HN & HS). destruct ec_ok as (C3 & C4 & _).
  assert (EN := error_near n t (fun k j => LB (k + 1) (U f c h j)) j (tau * size p c h) kap ltac:(now apply Rmult_le_pos) Hk).
  assert (A1 : forall k, (1 <= k <= 4)%nat -> Rabs (LB (k + 1) (U f c h j)) <= tau * size p c h).
  { intros k Hk'. rewrite (LB_ext _ _ (fun u => poly p (aff c h u))) by (intros u Hu; unfold U; apply Hf; now rewrite aff_len by congruence).
    assert (N := near_poly n (LB (k + 1)) ndeg (fun _ => 0) tau p c h (LB_lin _) (LB_ext _) (fun e Le Se => HN e k Hk' Le Se) D Lc Lh). rewrite (sumc_ext p _ (fun _ => 0)) in N by (intros; apply sumc_zero). rewrite sumc_zero, Rminus_0_r in N. exact N. }
  specialize (EN A1 HS (conj C3 C4)). apply (Rmult_le_compat_l (prodl h)) in EN; [|exact PP]. rewrite E4 in EN.
  apply (Rmult_le_compat_r (prodl h * size p c h)) in HB; [|exact Q]. lra.
Qed.
End Both.
