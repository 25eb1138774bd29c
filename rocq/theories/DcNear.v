(** Linear functionals whose values for monomials are nearly right *)

From Coq Require Import List Bool Arith ZArith Reals Permutation Lra Lia.
From Verif Require Import Exn Instances McModel CountSpec McLemmas5 AdSpec AdLemmas3 SySpec SyModel SyLemmas6 SyLemmas7 SyLemmas10 DcModel DcLemmas DcLemmas2 DcLemmas3 DcLemmas4.
Import ListNotations.
Open Scope R_scope.

Definition acoef {A : Type} (p : list (R * A)) : R := fold_right Rplus 0 (map (fun t => Rabs (fst t)) p).
Lemma acoef_app : forall A (p q : list (R * A)), acoef (p ++ q) = acoef p + acoef q.
Proof. intros A p q. unfold acoef. induction p as [|t p IH]; cbn [app map fold_right]; [ring|]. rewrite IH. ring. Qed.
Lemma acoef_map : forall A B (p : list (R * A)) c (g : R * A -> B), acoef (map (fun t => (c * fst t, g t)) p) = Rabs c * acoef p.
Proof. intros A B p c g. unfold acoef. induction p as [|t p IH]; cbn [map fold_right fst]; [ring|]. rewrite IH, Rabs_mult. ring. Qed.
Lemma acoef_bin : forall k c h, acoef (bin k c h) = (Rabs c + Rabs h) ^ k.
Proof.
  induction k as [|k IH]; intros c h; [unfold acoef; cbn; rewrite Rabs_R1; ring|]. cbn [bin pow]. rewrite acoef_app, (acoef_map _ _ (bin k c h) c (fun t => snd t)), (acoef_map _ _ (bin k c h) h (fun t => S (snd t))), IH. ring.
Qed.
Definition bigs (c h : list R) : list R := map (fun p => Rabs (fst p) + Rabs (snd p)) (combine c h).
Lemma acoef_pull : forall ks c h, length c = length ks -> length h = length ks -> acoef (pull ks c h) = monomial ks (bigs c h).
Proof.
  induction ks as [|k ks IH]; intros [|x c] [|a h] L1 L2; try discriminate; [unfold acoef; cbn; rewrite Rabs_R1; ring|]. cbn [length] in *. unfold bigs in *. cbn [pull combine map fst snd monomial]. rewrite <- IH by lia. rewrite <- acoef_bin. clear IH.
  generalize (bin k x a). intros p. induction p as [|t p IH]; [unfold acoef; cbn; ring|]. cbn [flat_map]. rewrite acoef_app, IH, (acoef_map _ _ (pull ks c h) (fst t) (fun s => snd t :: snd s)). change (acoef (t :: p)) with (Rabs (fst t) + acoef p). ring.
Qed.
Definition size (p : list (R * list nat)) (c h : list R) : R := fold_right Rplus 0 (map (fun t => Rabs (fst t) * monomial (snd t) (bigs c h)) p).
Lemma sumc_diff : forall p M N B, (forall a e, In (a, e) p -> Rabs (M e - N e) <= B e) -> Rabs (sumc p M - sumc p N) <= fold_right Rplus 0 (map (fun t => Rabs (fst t) * B (snd t)) p).
Proof.
  intros p M N B. unfold sumc. induction p as [|[a e] p IH]; intros H; cbn [map fold_right fst snd]; [rewrite Rminus_0_r, Rabs_R0; lra|].
  set (x := fold_right Rplus 0 (map _ p)) in *. set (y := fold_right Rplus 0 (map (fun t => fst t * N (snd t)) p)) in *. replace (a * M e + x - (a * N e + y)) with (a * (M e - N e) + (x - y)) by ring.
  eapply Rle_trans; [apply Rabs_triang|]. apply Rplus_le_compat; [|apply IH; intros b f Hin; apply (H b f); now right]. rewrite Rabs_mult. apply Rmult_le_compat_l; [apply Rabs_pos|]. apply (H a e). now left.
Qed.
Lemma near_poly : forall n L d M tau p c h, (forall F G a b, L (fun u => a * F u + b * G u) = a * L F + b * L G) -> (forall F G, (forall u, length u = n -> F u = G u) -> L F = L G) ->
  (forall e, length e = n -> (list_sum e <= d)%nat -> Rabs (L (monomial e) - M e) <= tau) -> of_degree d n p -> length c = n -> length h = n ->
  Rabs (L (fun u => poly p (aff c h u)) - sumc p (fun ks => sumc (pull ks c h) M)) <= tau * size p c h.
Proof.
  intros n L d M tau p c h H1 H2 H3 H4 H5 H6. rewrite (lin_poly n L H1 H2 d (fun e => L (monomial e)) (fun e _ _ => eq_refl)) by assumption.
  eapply Rle_trans; [apply (sumc_diff p _ _ (fun ks => tau * monomial ks (bigs c h)))|].
  - intros a ks Hin. destruct (H4 a ks Hin) as [Lk Dk]. eapply Rle_trans; [apply (sumc_diff _ _ _ (fun _ => tau))|].
    + intros b e He. apply pull_deg in He; [|congruence|congruence]. apply H3; [destruct He; congruence|lia].
    + rewrite <- acoef_pull by congruence. unfold acoef. generalize (pull ks c h). intros q. induction q as [|t q IH]; cbn [map fold_right]; [lra|]. rewrite Rmult_plus_distr_l. lra.
  - unfold size. clear. induction p as [|t p IH]; cbn [map fold_right]; [lra|]. rewrite Rmult_plus_distr_l. lra.
Qed.
Lemma bigs_pos : forall c h x, In x (bigs c h) -> 0 <= x.
Proof. intros c h x H. unfold bigs in H. apply in_map_iff in H. destruct H as (p & <- & _). assert (A := Rabs_pos (fst p)). assert (B := Rabs_pos (snd p)). lra. Qed.
Lemma mono_le : forall ks xs ys, List.Forall2 (fun x y => 0 <= x <= y) xs ys -> 0 <= monomial ks xs <= monomial ks ys.
Proof.
  induction ks as [|k ks IH]; intros xs ys H; [destruct H; cbn; lra|]. destruct H as [|x y xs ys Hx H]; [cbn [monomial]; lra|]. cbn [monomial]. specialize (IH xs ys H).
  assert (P : 0 <= x ^ k) by (apply pow_le; lra). assert (Q : x ^ k <= y ^ k) by (apply pow_incr; lra). split; [apply Rmult_le_pos; lra|]. apply Rmult_le_compat; lra.
Qed.
Lemma size_le : forall p c h c' h', List.Forall2 (fun x y => 0 <= x <= y) (bigs c h) (bigs c' h') -> 0 <= size p c h <= size p c' h'.
Proof.
  intros p c h c' h' H. unfold size. induction p as [|t p IH]; cbn [map fold_right]; [lra|]. assert (M := mono_le (snd t) _ _ H). assert (A := Rabs_pos (fst t)).
  assert (0 <= Rabs (fst t) * monomial (snd t) (bigs c h)) by (apply Rmult_le_pos; lra). assert (Rabs (fst t) * monomial (snd t) (bigs c h) <= Rabs (fst t) * monomial (snd t) (bigs c' h')) by (apply Rmult_le_compat_l; lra). lra.
Qed.
Lemma bigs_refl : forall c h, List.Forall2 (fun x y => 0 <= x <= y) (bigs c h) (bigs c h).
Proof. intros c h. assert (P := bigs_pos c h). induction (bigs c h) as [|x l IH]; constructor; [split; [apply P; now left|lra]|]. apply IH. intros y Hy. apply P. now right. Qed.
Lemma size_pos : forall p c h, 0 <= size p c h.
Proof. intros p c h. apply (size_le p c h c h), bigs_refl. Qed.

(** The halves of a box *)
Definition below (c h c0 h0 : list R) : Prop := List.Forall2 (fun x y => 0 <= x <= y) (bigs c h) (bigs c0 h0).
Lemma bigs_nth : forall c h i, length h = length c -> (i < length c)%nat -> nth i (bigs c h) 0 = Rabs (nth i c 0) + Rabs (nth i h 0).
Proof.
  induction c as [|x c IH]; intros [|y h] i L Hi; try discriminate; cbn [length] in *; [lia|]. unfold bigs in *. destruct i as [|i]; [reflexivity|]. cbn [combine map nth]. apply IH; lia.
Qed.
Lemma forall2_nth : forall (P : R -> R -> Prop) xs ys, length ys = length xs -> (forall i, (i < length xs)%nat -> P (nth i xs 0) (nth i ys 0)) -> List.Forall2 P xs ys.
Proof.
  intros P. induction xs as [|x xs IH]; intros [|y ys] L H; try discriminate; constructor; [apply (H O); cbn; lia|]. apply IH; [cbn in L; lia|]. intros i Hi. apply (H (S i)). cbn. lia.
Qed.
Lemma below_halves : forall a c h c0 h0, (1 <= a <= length c)%nat -> length h = length c -> below c h c0 h0 -> below (low_centre a c h) (half_half a h) c0 h0 /\ below (high_centre a c h) (half_half a h) c0 h0.
Proof.
  intros a c h c0 h0 Ha Lh B. unfold below in *.
  assert (T : forall xs, List.Forall2 (fun x y => 0 <= x <= y) xs (bigs c h) -> List.Forall2 (fun x y => 0 <= x <= y) xs (bigs c0 h0)).
  { intros xs H. revert B. generalize (bigs c0 h0). induction H as [|x y xs ys Hx H IH]; intros zs B; inversion B; subst; constructor; [lra|]. now apply IH. }
  assert (Lb : forall c h, length h = length c -> length (bigs c h) = length c) by (intros c' h' L'; unfold bigs; rewrite map_length, combine_length; lia).
  assert (L1 : length (low_centre a c h) = length c) by apply along_len. assert (L2 : length (high_centre a c h) = length c) by apply along_len. assert (L3 : length (half_half a h) = length h) by apply along_len.
  assert (C : forall i, (i < length c)%nat -> let d := if Nat.eqb (S i) a then nth i h 0 / 2 else 0 in nth i (low_centre a c h) 0 = nth i c 0 - d /\ nth i (high_centre a c h) 0 = nth i c 0 + d /\ nth i (half_half a h) 0 = nth i h 0 - d).
  { intros i Hi. unfold low_centre, high_centre, half_half. rewrite !nth_along by lia. unfold comp. destruct (Nat.eqb_spec (S i) a) as [<-|]; cbn [Nat.sub]; rewrite ?Nat.sub_0_r; repeat split; lra. }
  split; apply T; apply forall2_nth; rewrite ?Lb by lia; try lia; intros i Hi; rewrite !bigs_nth by lia; specialize (C i ltac:(lia)); cbv zeta in C; destruct C as (C1 & C2 & C3); rewrite ?C1, ?C2, C3; set (x := nth i c 0); set (y := nth i h 0);
    (destruct (Nat.eqb (S i) a); [|rewrite ?Rminus_0_r, ?Rplus_0_r; assert (X := Rabs_pos x); assert (Y := Rabs_pos y); lra]); unfold Rabs; repeat destruct (Rcase_abs _); lra.
Qed.

(** The error of DRLHRE *)
Lemma fold_max_bound : forall (g : nat -> R) b l a, a <= b -> (forall k, In k l -> g k <= b) -> fold_left (fun s k => Rmax s (g k)) l a <= b.
Proof. intros g b. induction l as [|k l IH]; intros a Ha H; cbn [fold_left]; [exact Ha|]. apply IH; [apply Rmax_lub; [exact Ha|apply H; now left]|]. intros q Hq. apply H. now right. Qed.
Lemma error_near : forall n t null j B kap, 0 <= B -> 0 <= kap -> (forall k, (1 <= k <= 4)%nat -> Rabs (null k j) <= B) ->
  (forall k i, (1 <= k <= 3)%nat -> (1 <= i <= t_len t)%nat -> 0 <= norms n t k i /\ (1 + Rabs (scales t k i)) * norms n t k i <= kap) -> 0 <= t_ec t 3 <= t_ec t 4 ->
  drl_error n t null j <= t_ec t 4 * (kap * B).
Proof.
  intros n t null j B kap HB HK Hn Hk He. assert (KB : 0 <= kap * B) by (now apply Rmult_le_pos).
  assert (S : forall k, (1 <= k <= 3)%nat -> drl_search n t null j k <= kap * B).
  { intros k Hk'. unfold drl_search. apply (fold_max_bound (fun i => Rabs (null (k + 1)%nat j + scales t k i * null k j) * norms n t k i)); [exact KB|]. intros i Hi. apply in_seq in Hi. destruct (Hk k i Hk' ltac:(lia)) as [N0 N1].
    assert (N2 := Hn k ltac:(lia)). assert (N3 := Hn (k + 1)%nat ltac:(lia)). set (s := scales t k i) in *. set (m := norms n t k i) in *. assert (P := Rabs_pos s).
    apply (Rle_trans _ ((1 + Rabs s) * B * m)).
    - apply Rmult_le_compat_r; [exact N0|]. eapply Rle_trans; [apply Rabs_triang|]. rewrite Rabs_mult. assert (Rabs s * Rabs (null k j) <= Rabs s * B) by (now apply Rmult_le_compat_l). lra.
    - replace ((1 + Rabs s) * B * m) with ((1 + Rabs s) * m * B) by ring. now apply Rmult_le_compat_r. }
  assert (S1 := S 1%nat ltac:(lia)). assert (S2 := S 2%nat ltac:(lia)). assert (S3 := S 3%nat ltac:(lia)). unfold drl_error. cbv zeta.
  destruct (_ && _).
  - apply (Rle_trans _ (t_ec t 3 * (kap * B))); [apply Rmult_le_compat_l; lra|apply Rmult_le_compat_r; lra].
  - apply Rmult_le_compat_l; [lra|]. apply Rmax_lub; [apply Rmax_lub|]; assumption.
Qed.
