(** The rules of D132RE and D113RE: moments in integers *)

From Coq Require Import List Bool Arith ZArith Reals Permutation Lra Lia.
From Verif Require Import Exn Instances McModel CountSpec McLemmas5 SySpec SyModel SyLemmas6 SyLemmas7 SyLemmas10 DcTables DcModel DcLemmas DcLemmas2 DcLemmas3 DcLemmas4.
Import ListNotations.
Open Scope R_scope.

(** The sum over the points of a generator, with abscissas in units of 1e-16 *)
Fixpoint esumZ (e : list nat) (x1 x2 : Z) (c1 c2 : nat) : Z :=
  match e with
  | [] => match c1, c2 with O, O => 1 | _, _ => 0 end
  | k :: e' => (match k with O => esumZ e' x1 x2 c1 c2 | _ => 0 end) + (match c1 with O => 0 | S c => 2 * x1 ^ Z.of_nat k * esumZ e' x1 x2 c c2 end) + (match c2 with O => 0 | S c => 2 * x2 ^ Z.of_nat k * esumZ e' x1 x2 c1 c end)
  end%Z.
Definition unit16 : R := 10 ^ 16.
Definition unit21 : R := 10 ^ 21.
Lemma unit_pos : 0 < unit16 /\ 0 < unit21.
Proof. split; apply pow_lt; lra. Qed.
Lemma pow_sub : forall k, (0 <= k)%nat -> unit16 ^ k <> 0.
Proof. intros k _. apply pow_nonzero. destruct unit_pos. lra. Qed.
Lemma esum_Z : forall e, evens e -> forall x1 x2 c1 c2, esum e (IZR x1 / unit16) (IZR x2 / unit16) c1 c2 = IZR (esumZ e x1 x2 c1 c2) / unit16 ^ list_sum e.
Proof.
  induction e as [|k e IH]; intros Ev x1 x2 c1 c2.
  - cbn [esum esumZ list_sum fold_right pow]. destruct c1, c2; field.
  - cbn [esum esumZ]. assert (Ev' : evens e) by (intros j Hj; apply Ev; now right). assert (Ek := Ev k (or_introl eq_refl)). change (list_sum (k :: e)) with (k + list_sum e)%nat. rewrite pow_add.
    assert (N1 := pow_sub k ltac:(lia)). assert (N2 := pow_sub (list_sum e) ltac:(lia)).
    assert (P : forall x, (IZR x / unit16) ^ k + (- (IZR x / unit16)) ^ k = IZR (2 * x ^ Z.of_nat k) / unit16 ^ k).
    { intros x. rewrite pow_opp, Ek. rewrite mult_IZR, <- pow_IZR. unfold Rdiv at 1 2. rewrite Rpow_mult_distr, pow_inv. field. exact N1. }
    rewrite !plus_IZR, !Rdiv_plus_distr. f_equal; [f_equal|].
    + rewrite IH by exact Ev'. destruct k.
      { cbn [pow]. field. exact N2. }
      cbn [pow]. unfold Rdiv. rewrite !Rmult_0_l. reflexivity.
    + destruct c1 as [|c]; [unfold Rdiv; ring|]. rewrite P, IH by exact Ev'. rewrite !mult_IZR. field. split; assumption.
    + destruct c2 as [|c]; [unfold Rdiv; ring|]. rewrite P, IH by exact Ev'. rewrite !mult_IZR. field. split; assumption.
Qed.
Lemma esum_single : forall e x1 x2 y2 c, esum e x1 x2 c 0 = esum e x1 y2 c 0.
Proof. induction e as [|k e IH]; intros x1 x2 y2 c; [reflexivity|]. cbn [esum]. rewrite (IH x1 x2 y2 c). destruct c as [|c]; [reflexivity|]. now rewrite (IH x1 x2 y2 c). Qed.
Lemma esum_none : forall e x1 x2 y1 y2, esum e x1 x2 0 0 = esum e y1 y2 0 0.
Proof. induction e as [|k e IH]; intros x1 x2 y1 y2; [reflexivity|]. cbn [esum]. now rewrite (IH x1 x2 y1 y2). Qed.
Lemma esum_perm : forall e e', Permutation e e' -> forall x1 x2 c1 c2, esum e x1 x2 c1 c2 = esum e' x1 x2 c1 c2.
Proof.
  intros e e' P. induction P as [|k e e' P IH|k k' e|e e' e'' P IH P' IH']; intros x1 x2 c1 c2.
  - reflexivity.
  - cbn [esum]. rewrite IH. destruct c1 as [|c1]; [|rewrite (IH x1 x2 c1 c2)]; (destruct c2 as [|c2]; [|rewrite (IH x1 x2 _ c2)]); reflexivity.
  - cbn [esum]. destruct c1 as [|[|c1]], c2 as [|[|c2]]; ring.
  - now rewrite IH, IH'.
Qed.
Lemma moms_perm : forall e e', Permutation e e' -> moms e = moms e'.
Proof. intros e e' P. induction P as [|k e e' P IH|k k' e|e e' e'' P IH P' IH']; cbn [moms]; [reflexivity|now rewrite IH|ring|congruence]. Qed.
Lemma sum_perm : forall e e', Permutation e e' -> list_sum e = list_sum e'.
Proof. intros e e' P. unfold list_sum. induction P as [|k e e' P IH|k k' e|e e' e'' P IH P' IH']; cbn [fold_right]; lia. Qed.

(** A table of integers *)
Definition cell : Type := Z * Z * nat * nat.
Definition zc (cols : list cell) (i : nat) : cell := nth (i - 1) cols (1%Z, 2%Z, 0%nat, 0%nat).
Definition gspz (cols : list cell) (i : nat) : R * R * nat * nat := let '(x1, x2, c1, c2) := zc cols i in (IZR x1 / unit16, IZR x2 / unit16, c1, c2).
Definition quadZ (cols : list cell) (w : list Z) (e : list nat) : Z :=
  fold_right Z.add 0%Z (map (fun i => let '(x1, x2, c1, c2) := zc cols i in (nth (i - 1) w 0 * esumZ e x1 x2 c1 c2)%Z) (seq 1 (length cols))).
Definition quad (cols : list cell) (w : list Z) (e : list nat) : R :=
  sumR (map (fun i => wts w i * (let '(x1, x2, c1, c2) := gspz cols i in esum e x1 x2 c1 c2)) (seq 1 (length cols))).
Lemma quad_Z : forall cols w e, evens e -> quad cols w e = IZR (quadZ cols w e) / (unit21 * unit16 ^ list_sum e).
Proof.
  intros cols w e Ev. unfold quad, quadZ. assert (N1 := pow_sub (list_sum e) ltac:(lia)). assert (N2 : unit21 <> 0) by (destruct unit_pos; lra).
  induction (seq 1 (length cols)) as [|i l IH]; [unfold sumR; cbn [map fold_right]; field; split; assumption|]. unfold sumR in *. cbn [map fold_right]. rewrite IH. unfold gspz. destruct (zc cols i) as [[[x1 x2] c1] c2].
  rewrite esum_Z by exact Ev. rewrite plus_IZR, mult_IZR. unfold wts. fold unit21. field. split; assumption.
Qed.
Lemma quad_perm : forall cols w e e', Permutation e e' -> quad cols w e = quad cols w e'.
Proof. intros cols w e e' P. unfold quad. apply f_equal, map_ext. intros i. destruct (gspz cols i) as [[[x1 x2] c1] c2]. now rewrite (esum_perm e e' P). Qed.
Lemma quad_odd : forall cols w e, existsb Nat.odd e = true -> quad cols w e = 0.
Proof.
  intros cols w e H. unfold quad. induction (seq 1 (length cols)) as [|i l IH]; [reflexivity|]. unfold sumR in *. cbn [map fold_right]. rewrite IH. destruct (gspz cols i) as [[[x1 x2] c1] c2]. rewrite esum_odd by exact H. ring.
Qed.

(** The rule of DRLHRE with such a table *)
Definition shaped (cols : list cell) (g2 g3 : R) : Prop :=
  (4 <= length cols)%nat /\ (let '(_, _, c1, c2) := zc cols 1 in c1 = O /\ c2 = O) /\
  (let '(x, _, c1, c2) := zc cols 2 in g2 = IZR x / unit16 /\ c1 = 1%nat /\ c2 = O) /\ (let '(x, _, c1, c2) := zc cols 3 in g3 = IZR x / unit16 /\ c1 = 1%nat /\ c2 = O) /\
  forall i, (1 <= i <= length cols)%nat -> let '(x1, x2, c1, c2) := zc cols i in (0 < x1 < x2)%Z.
Lemma LL_quad : forall n t cols g2 g3 w e, shaped cols g2 g3 -> t_len t = length cols -> length e = n -> LL n t (gspz cols) g2 g3 (wts w) (monomial e) = quad cols w e.
Proof.
  intros n t cols g2 g3 w e (S0 & S1 & S2 & S3 & S4) Lt Le.
  rewrite (LL_mono n t (gspz cols) g2 g3 (wts w) e Le).
  - unfold quad. replace (seq 1 (length cols)) with ([1; 2; 3]%nat ++ seq 4 (t_len t - 3)) by (rewrite Lt; replace (length cols) with (3 + (length cols - 3))%nat at 2 by lia; reflexivity).
    rewrite map_app, sumR_cat. apply f_equal2; [|reflexivity]. unfold sumR. cbn [map fold_right]. unfold gspz. destruct (zc cols 1) as [[[x1 x2] c1] c2]. destruct (zc cols 2) as [[[y1 y2] d1] d2]. destruct (zc cols 3) as [[[z1 z2] b1] b2].
    destruct S1 as [-> ->]. destruct S2 as (-> & -> & ->). destruct S3 as (-> & -> & ->). rewrite (esum_none e 0 0 (IZR x1 / unit16) (IZR x2 / unit16)), (esum_single e (IZR y1 / unit16) 0 (IZR y2 / unit16)), (esum_single e (IZR z1 / unit16) 0 (IZR z2 / unit16)). ring.
  - intros i Hi. apply in_seq in Hi. specialize (S4 i ltac:(lia)). unfold gspz. destruct (zc cols i) as [[[x1 x2] c1] c2]. destruct unit_pos as [P _]. destruct S4 as [A B]. apply IZR_lt in A, B. split.
    + apply Rdiv_lt_0_compat; assumption.
    + apply Rmult_lt_compat_r; [now apply Rinv_0_lt_compat|exact B].
Qed.

(** Checking moments: exponents are 2 e, in decreasing order *)
Fixpoint comps (n m s : nat) : list (list nat) :=
  match n with O => [[]] | S n' => flat_map (fun k => map (cons k) (comps n' k (s - k))) (seq 0 (S (Nat.min m s))) end.
Fixpoint dsc (m : nat) (e : list nat) : Prop := match e with [] => True | k :: e' => (k <= m)%nat /\ dsc k e' end.
Lemma comps_in : forall n m s e, length e = n -> dsc m e -> (list_sum e <= s)%nat -> In e (comps n m s).
Proof.
  induction n as [|n IH]; intros m s [|k e] L D Hs; try discriminate; [left; reflexivity|]. destruct D as [D1 D2]. change (list_sum (k :: e)) with (k + list_sum e)%nat in Hs. cbn [comps]. apply in_flat_map. exists k. split; [apply in_seq; lia|]. apply in_map. apply IH; [cbn in L; lia|exact D2|lia].
Qed.
Lemma dsc_more : forall e m m', (m <= m')%nat -> dsc m e -> dsc m' e.
Proof. intros [|k e] m m' H D; [exact I|]. destruct D as [D1 D2]. split; [lia|exact D2]. Qed.
Lemma insert : forall k e m, dsc m e -> exists e', Permutation (k :: e) e' /\ dsc (Nat.max k m) e'.
Proof.
  intros k. induction e as [|j e IH]; intros m D; [exists [k]; split; [reflexivity|split; [lia|exact I]]|]. destruct D as [D1 D2]. destruct (Nat.le_gt_cases j k) as [H|H].
  - exists (k :: j :: e). split; [reflexivity|]. split; [lia|]. split; [exact H|exact D2].
  - destruct (IH j D2) as (e' & P & D). exists (j :: e'). split; [rewrite perm_swap; now constructor|]. split; [lia|]. replace (Nat.max k j) with j in D by lia. exact D.
Qed.
Lemma sorted : forall e, exists e' m, Permutation e e' /\ dsc m e'.
Proof.
  induction e as [|k e (e' & m & P & D)]; [exists [], O; split; [reflexivity|exact I]|]. destruct (insert k e' m D) as (e'' & P' & D'). exists e'', (Nat.max k m). split; [|exact D']. etransitivity; [apply perm_skip, P|exact P'].
Qed.
Lemma dsc_sum : forall e m, dsc m e -> dsc (list_sum e) e.
Proof. intros [|k e] m D; [exact I|]. destruct D as [_ D]. split; [|exact D]. change (list_sum (k :: e)) with (k + list_sum e)%nat. lia. Qed.

Definition dens (e : list nat) : Z := fold_right (fun k s => Z.of_nat (S k) * s)%Z 1%Z e.
Lemma dens_pos : forall e, (0 < dens e)%Z.
Proof. intros e. unfold dens. induction e as [|k e IH]; cbn [fold_right]; lia. Qed.
Lemma mom_even : forall k, Nat.even k = true -> mom k = 2 / IZR (Z.of_nat (S k)).
Proof.
  intros k H. unfold mom, span. rewrite pow1. replace ((-1) ^ S k) with (- 1); [rewrite INR_IZR_INZ; f_equal; lra|]. cbn [pow]. replace (-1) with (- (1)) at 3 by ring. rewrite pow_opp, H, pow1. ring.
Qed.
Lemma mom_odd : forall k, Nat.odd k = true -> mom k = 0.
Proof.
  intros k H. unfold mom, span. rewrite pow1. replace ((-1) ^ S k) with 1; [unfold Rdiv; ring|]. cbn [pow]. replace (-1) with (- (1)) at 2 by ring. rewrite pow_opp. unfold Nat.odd in H. apply negb_true_iff in H. rewrite H, pow1. ring.
Qed.
Lemma moms_even : forall e, evens e -> moms e = 2 ^ length e / IZR (dens e).
Proof.
  induction e as [|k e IH]; intros Ev; cbn [moms length pow dens fold_right]; [cbn; field|]. rewrite IH by (intros j Hj; apply Ev; now right). rewrite mom_even by (apply Ev; now left). fold (dens e). rewrite mult_IZR. assert (D := dens_pos e). apply IZR_lt in D.
  assert (0 < IZR (Z.of_nat (S k))) by (apply IZR_lt; lia). field. split; lra.
Qed.
Lemma moms_odd : forall e, existsb Nat.odd e = true -> moms e = 0.
Proof.
  induction e as [|k e IH]; intros H; [discriminate|]. cbn [existsb moms] in *. destruct (Nat.odd k) eqn:O; [rewrite mom_odd by exact O; ring|]. cbn [orb] in H. rewrite IH by exact H. ring.
Qed.
(** one: 1 if the rule is to give the moments, 0 if zeros *)
Definition chk (cols : list cell) (w : list Z) (one tol : Z) (e' : list nat) : bool :=
  let e := map (fun k => 2 * k)%nat e' in
  let d := dens e in
  let sc := (10 ^ (16 * Z.of_nat (list_sum e)))%Z in
  (Z.abs (quadZ cols w e * d - one * 2 ^ Z.of_nat (length e) * 10 ^ 21 * sc) <=? tol * d * sc)%Z.
Lemma unit16_Z : forall k, IZR (10 ^ (16 * Z.of_nat k)) = unit16 ^ k.
Proof. intros k. rewrite Z.pow_mul_r by lia. rewrite <- pow_IZR. f_equal. unfold unit16. rewrite pow_IZR. reflexivity. Qed.
Lemma unit21_Z : IZR (10 ^ 21) = unit21.
Proof. unfold unit21. rewrite pow_IZR. reflexivity. Qed.
Lemma chk_ok : forall cols w one tol e', chk cols w one tol e' = true -> let e := map (fun k => 2 * k)%nat e' in Rabs (quad cols w e - IZR one * moms e) <= IZR tol / unit21.
Proof.
  intros cols w one tol e' H e. assert (Ev : evens e) by (intros k Hk; apply in_map_iff in Hk; destruct Hk as (j & <- & _); rewrite Nat.even_mul; reflexivity).
  unfold chk in H. fold e in H. apply Z.leb_le, IZR_le in H. rewrite abs_IZR, minus_IZR, !mult_IZR, unit16_Z, unit21_Z in H. rewrite <- (pow_IZR 2) in H.
  rewrite quad_Z, moms_even by exact Ev. assert (D := dens_pos e). apply IZR_lt in D. destruct unit_pos as [U1 U2]. assert (P := pow_lt unit16 (list_sum e) U1). set (q := IZR (quadZ cols w e)) in *. set (d := IZR (dens e)) in *. set (p := unit16 ^ list_sum e) in *. set (b := 2 ^ length e) in *. set (o := IZR one) in *. set (u := unit21) in *. clearbody q d p b o u.
  replace (q / (u * p) - o * (b / d)) with ((q * d - o * b * u * p) * / (u * p * d)) by (field; repeat split; lra). assert (0 < u * p * d) by (apply Rmult_lt_0_compat; [apply Rmult_lt_0_compat; assumption|assumption]).
  rewrite Rabs_mult, (Rabs_right (/ _)) by (apply Rle_ge, Rlt_le, Rinv_0_lt_compat; assumption). replace (IZR tol / u) with (IZR tol * d * p * / (u * p * d)) by (field; repeat split; lra). apply Rmult_le_compat_r; [apply Rlt_le, Rinv_0_lt_compat; assumption|exact H].
Qed.
Lemma even_half : forall e, evens e -> map (fun k => 2 * k)%nat (map Nat.div2 e) = e.
Proof.
  induction e as [|k e IH]; intros Ev; [reflexivity|]. cbn [map]. rewrite IH by (intros j Hj; apply Ev; now right). f_equal. assert (E := Ev k (or_introl eq_refl)). apply Nat.even_spec in E. destruct E as [j ->]. rewrite Nat.div2_double. reflexivity.
Qed.
Lemma sum_half : forall e, (2 * list_sum e = list_sum (map (fun k => 2 * k) e))%nat.
Proof. unfold list_sum. induction e as [|k e IH]; cbn [map fold_right]; [reflexivity|]. rewrite <- IH. lia. Qed.
Lemma moments : forall cols w one tol n d e, forallb (chk cols w one tol) (comps n d d) = true -> (0 <= tol)%Z -> length e = n -> (list_sum e <= 2 * d + 1)%nat -> Rabs (quad cols w e - IZR one * moms e) <= IZR tol / unit21.
Proof.
  intros cols w one tol n d e H T Le Hs. destruct (existsb Nat.odd e) eqn:O.
  - rewrite quad_odd, moms_odd by exact O. rewrite Rmult_0_r, Rminus_0_r, Rabs_R0. apply IZR_le in T. destruct unit_pos as [_ U]. apply Rmult_le_pos; [exact T|apply Rlt_le, Rinv_0_lt_compat; exact U].
  - assert (Ev : evens e). { intros k Hk. destruct (Nat.even k) eqn:E; [reflexivity|]. exfalso. assert (existsb Nat.odd e = true); [|congruence]. apply existsb_exists. exists k. split; [exact Hk|]. unfold Nat.odd. now rewrite E. }
    destruct (sorted (map Nat.div2 e)) as (e' & m & P & D). assert (P2 := Permutation_map (fun k => 2 * k)%nat P). rewrite even_half in P2 by exact Ev.
    rewrite (quad_perm _ _ _ _ P2), (moms_perm _ _ P2). apply chk_ok. rewrite forallb_forall in H. apply H.
    assert (S2 := sum_half e'). rewrite <- (sum_perm _ _ P2) in S2. assert (list_sum e' <= d)%nat by lia. apply comps_in; [|apply (dsc_more e' (list_sum e')); [lia|exact (dsc_sum e' m D)]|lia]. apply Permutation_length in P. rewrite map_length in P. congruence.
Qed.
