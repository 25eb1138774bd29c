(** The rules of D132RE and D113RE: what the proofs use *)

From Coq Require Import List Bool Arith ZArith Reals Permutation Lra Lia.
From Verif Require Import Exn Instances McModel CountSpec McLemmas5 SySpec SyModel SyLemmas6 SyLemmas7 SyLemmas10 DcTables DcModel DcLemmas DcLemmas2 DcLemmas3 DcLemmas4 DcFixed.
Import ListNotations.
Open Scope R_scope.

(** NORMS in integers: SCALES is - A / B *)
Definition scale_of (w1 w2 : list Z) (i : nat) : Z * Z :=
  let b := nth (i - 1) w1 0%Z in if (b =? 0)%Z then (-100, 1)%Z else (nth (i - 1) w2 0%Z, b).
Definition normZ (len : nat) (pts w1 w2 : list Z) (A B : Z) : Z :=
  fold_left (fun s j => s + nth (j - 1) pts 0 * Z.abs (nth (j - 1) w2 0 * B - A * nth (j - 1) w1 0))%Z (seq 1 len) 0%Z.
Definition nchk (n len : nat) (pts w1 w2 : list Z) (kap : Z) (i : nat) : bool :=
  let (A, B) := scale_of w1 w2 i in ((Z.abs B + Z.abs A) * 2 ^ Z.of_nat n * 10 ^ 21 <=? kap * normZ len pts w1 w2 A B)%Z.
Section Norms.
Variables (n : nat) (t : table) (pts w1 w2 : list Z) (k : nat) (kap : Z).
Hypothesis P : forall j, (1 <= j <= t_len t)%nat -> t_pts t j = IZR (nth (j - 1) pts 0%Z).
Hypothesis W1 : forall j, t_w t (k + 1)%nat j = wts w1 j.
Hypothesis W2 : forall j, t_w t (k + 2)%nat j = wts w2 j.
Hypothesis K : (0 < kap)%Z.
Lemma wts_zero : forall w i, wts w i = 0 <-> nth (i - 1) w 0%Z = 0%Z.
Proof.
  intros w i. unfold wts. assert (U := proj2 unit_pos). fold unit21. split; [|intros ->; unfold Rdiv; ring]. intros H. apply eq_IZR. apply (Rmult_eq_reg_r (/ unit21)); [|apply Rinv_neq_0_compat; lra]. unfold Rdiv in H. rewrite H. ring.
Qed.
Lemma scale_is : forall i, let (A, B) := scale_of w1 w2 i in (B <> 0)%Z /\ scales t k i = - IZR A / IZR B.
Proof.
  intros i. unfold scale_of, scales. rewrite W1, W2. destruct (Z.eqb_spec (nth (i - 1) w1 0%Z) 0) as [Z0|Z0].
  - split; [lia|]. replace (Reqb (wts w1 i) 0) with true by (symmetry; apply Reqb_spec; now apply wts_zero). lra.
  - split; [exact Z0|]. destruct (Reqb (wts w1 i) 0) eqn:Q; [apply Reqb_spec in Q; apply wts_zero in Q; contradiction|]. unfold wts. fold unit21. assert (U := proj2 unit_pos). assert (N : IZR (nth (i - 1) w1 0%Z) <> 0) by (now apply not_0_IZR). field. split; [exact N|lra].
Qed.
Lemma norm_is : forall i, let (A, B) := scale_of w1 w2 i in normsum t k i = IZR (normZ (t_len t) pts w1 w2 A B) / (unit21 * Rabs (IZR B)).
Proof.
  intros i. assert (S := scale_is i). destruct (scale_of w1 w2 i) as [A B]. destruct S as [B0 S]. unfold normsum, normZ. rewrite S. assert (U := proj2 unit_pos). apply not_0_IZR in B0. assert (AB := Rabs_pos_lt _ B0).
  assert (G : forall l s sz, (forall j, In j l -> (1 <= j <= t_len t)%nat) -> s = IZR sz / (unit21 * Rabs (IZR B)) ->
    fold_left (fun s j => s + t_pts t j * Rabs (t_w t (k + 2)%nat j + - IZR A / IZR B * t_w t (k + 1)%nat j)) l s = IZR (fold_left (fun s j => s + nth (j - 1) pts 0 * Z.abs (nth (j - 1) w2 0 * B - A * nth (j - 1) w1 0))%Z l sz) / (unit21 * Rabs (IZR B))).
  { induction l as [|j l IH]; intros s sz Hl E; cbn [fold_left]; [exact E|]. apply IH; [intros q Hq; apply Hl; now right|]. rewrite E, P, W1, W2 by (apply Hl; now left). rewrite plus_IZR, mult_IZR, abs_IZR, minus_IZR, !mult_IZR. unfold wts. fold unit21.
    set (p := IZR (nth (j - 1) pts 0%Z)). set (u := IZR (nth (j - 1) w2 0%Z)). set (v := IZR (nth (j - 1) w1 0%Z)). replace (u / unit21 + - IZR A / IZR B * (v / unit21)) with ((u * IZR B - IZR A * v) * / (unit21 * IZR B)) by (field; repeat split; assumption || lra).
    rewrite Rabs_mult, Rabs_inv, Rabs_mult, (Rabs_right unit21) by lra. field. split; lra. }
  apply G; [intros j Hj; apply in_seq in Hj; lia|]. unfold Rdiv. ring.
Qed.
Lemma norm_ok : forall i, nchk n (t_len t) pts w1 w2 kap i = true -> 0 < normsum t k i /\ (1 + Rabs (scales t k i)) * norms n t k i <= IZR kap.
Proof.
  intros i H. unfold nchk in H. assert (S := scale_is i). assert (N := norm_is i). destruct (scale_of w1 w2 i) as [A B]. destruct S as [B0 S]. apply Z.leb_le in H.
  assert (BP : (0 < Z.abs B)%Z) by lia. assert (Q : (0 < normZ (t_len t) pts w1 w2 A B)%Z). { assert (0 < (Z.abs B + Z.abs A) * 2 ^ Z.of_nat n * 10 ^ 21)%Z; [|nia]. apply Z.mul_pos_pos; [apply Z.mul_pos_pos; [lia|apply Z.pow_pos_nonneg; lia]|reflexivity]. }
  unfold norms. rewrite N, S. clear N S. apply IZR_le in H. rewrite !mult_IZR, plus_IZR, !abs_IZR, unit21_Z in H. fold (twondm n) in H. apply IZR_lt in Q. set (Z := IZR (normZ _ _ _ _ _ _)) in *. apply not_0_IZR in B0. assert (AB := Rabs_pos_lt _ B0). assert (U := proj2 unit_pos).
  assert (UB : 0 < unit21 * Rabs (IZR B)) by (apply Rmult_lt_0_compat; assumption).
  split; [apply Rdiv_lt_0_compat; assumption|]. unfold Rdiv at 1. rewrite Rabs_mult, Rabs_Ropp, Rabs_inv. apply (Rmult_le_reg_r Z); [exact Q|].
  replace ((1 + Rabs (IZR A) * / Rabs (IZR B)) * (twondm n / (Z / (unit21 * Rabs (IZR B)))) * Z) with ((Rabs (IZR B) + Rabs (IZR A)) * twondm n * unit21) by (field; repeat split; lra). exact H.
Qed.
End Norms.

(** D132RE *)
Definition d2 (i : nat) : Z := nth (i - 1) dim2g 0%Z.
Definition one_of (x : Z) (c : nat) : cell := (x, (x + 1)%Z, c, 0%nat).
Definition cols2 : list cell :=
  [one_of 1 0; one_of (d2 1) 1; one_of (d2 2) 1; one_of (d2 3) 1; one_of (d2 4) 1; one_of (d2 5) 1; one_of (d2 6) 2; one_of (d2 7) 2; one_of (d2 8) 2; one_of (d2 9) 2; one_of (d2 10) 2;
   (d2 12, d2 11, 1%nat, 1%nat); (d2 14, d2 13, 1%nat, 1%nat); (d2 16, d2 15, 1%nat, 1%nat)].
Definition rows2 (j : nat) : list Z := match j with 1%nat => dim2w_1 | 2%nat => dim2w_2 | 3%nat => dim2w_3 | 4%nat => dim2w_4 | 5%nat => dim2w_5 | _ => [] end.
Definition ptz2 : list Z := [1; 4; 4; 4; 4; 4; 4; 4; 4; 4; 4; 8; 8; 8]%Z.
Lemma wts_nil : forall i, wts [] i = 0.
Proof. intros i. unfold wts. destruct (i - 1)%nat; cbn [nth]; unfold Rdiv; ring. Qed.
Lemma w2_is : forall j, (j <= 5)%nat -> (1 <= j)%nat -> t_w d132re j = wts (rows2 j).
Proof. intros j H H'. do 6 (destruct j as [|j]; [lia || reflexivity|]). lia. Qed.
Lemma p2_is : forall j, (1 <= j <= 14)%nat -> t_pts d132re j = IZR (nth (j - 1) ptz2 0%Z).
Proof. intros j H. do 15 (destruct j as [|j]; [lia || reflexivity|]). lia. Qed.
Lemma shaped2 : shaped cols2 (absc dim2g 1) (absc dim2g 2).
Proof.
  split; [cbn; lia|]. split; [split; reflexivity|]. split; [split; [reflexivity|split; reflexivity]|]. split; [split; [reflexivity|split; reflexivity]|].
  intros i H. do 15 (destruct i as [|i]; [lia || (split; reflexivity)|]). cbn in H. lia.
Qed.
Lemma cells_pos : forall cols g2 g3 i, shaped cols g2 g3 -> (1 <= i <= length cols)%nat -> let '(x1, x2, c1, c2) := gspz cols i in 0 < x1 < x2.
Proof.
  intros cols g2 g3 i (_ & _ & _ & _ & S) Hi. specialize (S i Hi). unfold gspz. destruct (zc cols i) as [[[x1 x2] c1] c2]. destruct unit_pos as [P _]. destruct S as [A B]. apply IZR_lt in A, B. split; [apply Rdiv_lt_0_compat; assumption|apply Rmult_lt_compat_r; [now apply Rinv_0_lt_compat|exact B]].
Qed.
Lemma gok2 : forall i, In i (seq 4 (t_len d132re - 3)) -> g_ok 2 (gspz cols2) i /\ t_g d132re i = map (g_phi (gspz cols2) i) (g_ones 2 (gspz cols2) i).
Proof.
  intros i Hi. assert (C := cells_pos cols2 _ _ i shaped2). apply in_seq in Hi. cbn in Hi. specialize (C ltac:(cbn; lia)).
  do 4 (destruct i as [|i]; [lia|]). unfold g_ok, g_phi, g_ones in *.
  do 11 (destruct i as [|i]; [split; [split; [exact C|cbn; lia]|reflexivity]|]). lia.
Qed.
Lemma absc_01 : forall l i, forallb (fun x => (0 <=? x) && (x <=? 10 ^ 16))%Z l = true -> 0 <= absc l i <= 1.
Proof.
  intros l i F. rewrite forallb_forall in F. unfold absc. assert (Q : (0 <= nth (i - 1) l 0 <= 10 ^ 16)%Z).
  { destruct (Nat.lt_ge_cases (i - 1) (length l)) as [H|H]; [|rewrite nth_overflow by exact H; split; discriminate]. specialize (F _ (nth_In l 0%Z H)). apply andb_prop in F. destruct F as [F1 F2]. now apply Z.leb_le in F1, F2. }
  destruct Q as [Q1 Q2]. apply IZR_le in Q1, Q2. replace (IZR (10 ^ 16)) with (10 ^ 16) in Q2 by (rewrite (pow_IZR 10 16); reflexivity). destruct unit_pos as [U _]. unfold unit16 in U. split; [apply Rmult_le_pos; [exact Q1|apply Rlt_le, Rinv_0_lt_compat, U]|]. apply (Rmult_le_reg_r (10 ^ 16)); [exact U|]. unfold Rdiv. rewrite Rmult_assoc, Rinv_l by lra. lra.
Qed.
Lemma g2_01 : forall i v, In v (t_g d132re i) -> 0 <= v <= 1.
Proof.
  assert (A : forall i, 0 <= absc dim2g i <= 1) by (intros i; apply absc_01; vm_compute; reflexivity).
  intros i v H. cbn [t_g d132re] in H. unfold g132 in H. do 15 (destruct i as [|i]; [cbn [In] in H; repeat destruct H as [<-|H]; try apply A; lra || contradiction|]). cbn [In] in H. repeat destruct H as [<-|H]; lra || contradiction.
Qed.

(** D113RE *)
Definition d3 (i : nat) : Z := nth (i - 1) dim3g 0%Z.
Definition cols3 : list cell :=
  [one_of 1 0; one_of (d3 1) 1; one_of (d3 2) 1; one_of (d3 3) 1; one_of (d3 4) 1; one_of (d3 5) 1; one_of (d3 6) 2; one_of (d3 7) 2; one_of (d3 8) 3; one_of (d3 9) 3; one_of (d3 10) 3;
   (d3 11, d3 12, 2%nat, 1%nat); (d3 14, d3 13, 1%nat, 2%nat)].
Definition rows3 (j : nat) : list Z := match j with 1%nat => dim3w_1 | 2%nat => dim3w_2 | 3%nat => dim3w_3 | 4%nat => dim3w_4 | 5%nat => dim3w_5 | _ => [] end.
Definition ptz3 : list Z := [1; 6; 6; 6; 6; 6; 12; 12; 8; 8; 8; 24; 24]%Z.
Lemma w3_is : forall j, (j <= 5)%nat -> (1 <= j)%nat -> t_w d113re j = wts (rows3 j).
Proof. intros j H H'. do 6 (destruct j as [|j]; [lia || reflexivity|]). lia. Qed.
Lemma p3_is : forall j, (1 <= j <= 13)%nat -> t_pts d113re j = IZR (nth (j - 1) ptz3 0%Z).
Proof. intros j H. do 14 (destruct j as [|j]; [lia || reflexivity|]). lia. Qed.
Lemma shaped3 : shaped cols3 (absc dim3g 1) (absc dim3g 2).
Proof.
  split; [cbn; lia|]. split; [split; reflexivity|]. split; [split; [reflexivity|split; reflexivity]|]. split; [split; [reflexivity|split; reflexivity]|].
  intros i H. do 14 (destruct i as [|i]; [lia || (split; reflexivity)|]). cbn in H. lia.
Qed.
Lemma gok3 : forall i, In i (seq 4 (t_len d113re - 3)) -> g_ok 3 (gspz cols3) i /\ t_g d113re i = map (g_phi (gspz cols3) i) (g_ones 3 (gspz cols3) i).
Proof.
  intros i Hi. assert (C := cells_pos cols3 _ _ i shaped3). apply in_seq in Hi. cbn in Hi. specialize (C ltac:(cbn; lia)).
  do 4 (destruct i as [|i]; [lia|]). unfold g_ok, g_phi, g_ones in *.
  do 10 (destruct i as [|i]; [split; [split; [exact C|cbn; lia]|reflexivity]|]). lia.
Qed.
Lemma g3_01 : forall i v, In v (t_g d113re i) -> 0 <= v <= 1.
Proof.
  assert (A : forall i, 0 <= absc dim3g i <= 1) by (intros i; apply absc_01; vm_compute; reflexivity).
  intros i v H. cbn [t_g d113re] in H. unfold g113 in H. do 14 (destruct i as [|i]; [cbn [In] in H; repeat destruct H as [<-|H]; try apply A; lra || contradiction|]). cbn [In] in H. repeat destruct H as [<-|H]; lra || contradiction.
Qed.

(** The checks *)
Definition mchk (cols : list cell) (w : list Z) (one tol : Z) (n d : nat) : bool := forallb (chk cols w one tol) (comps n d d).
Lemma moments_m : forall cols w one tol n d e, mchk cols w one tol n d = true -> (0 <= tol)%Z -> length e = n -> (list_sum e <= 2 * d + 1)%nat -> Rabs (quad cols w e - IZR one * moms e) <= IZR tol / unit21.
Proof. exact moments. Qed.
Lemma mchk2_1 : mchk cols2 (rows2 1) 1 800000 2 6 = true. Proof. vm_compute. reflexivity. Qed.
Lemma mchk2_0 : forallb (fun j => mchk cols2 (rows2 j) 0 730000 2 3) [2; 3; 4; 5]%nat = true. Proof. vm_compute. reflexivity. Qed.
Lemma mchk3_1 : mchk cols3 (rows3 1) 1 400000 3 5 = true. Proof. vm_compute. reflexivity. Qed.
Lemma mchk3_0 : forallb (fun j => mchk cols3 (rows3 j) 0 2100000 3 2) [2; 3; 4; 5]%nat = true. Proof. vm_compute. reflexivity. Qed.
Lemma nchk2 : forallb (fun k => forallb (nchk 2 14 ptz2 (rows2 (k + 1)) (rows2 (k + 2)) 47) (seq 1 14)) (seq 1 3) = true. Proof. vm_compute. reflexivity. Qed.
Lemma nchk3 : forallb (fun k => forallb (nchk 3 13 ptz3 (rows3 (k + 1)) (rows3 (k + 2)) 4) (seq 1 13)) (seq 1 3) = true. Proof. vm_compute. reflexivity. Qed.
