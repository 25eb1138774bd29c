(** Sums, and the values that SIXLIN calculates. *)

From Coq Require Import List Bool Arith Reals Lra Lia.
From Verif Require Import Exn Instances McModel BaModel RgModel RgSpec.
Import ListNotations.
Open Scope R_scope.

Lemma pow2_gt_0 a : a <> 0 -> 0 < a ^ 2.
Proof. intros H. replace (a ^ 2) with (Rsqr a) by (unfold Rsqr; ring). now apply Rsqr_pos_lt. Qed.
Lemma Sum_ext {A} (f g : A -> R) l : (forall p, In p l -> f p = g p) -> Sum f l = Sum g l.
Proof. induction l as [|p l IH]; intros H; [easy|]. cbn [Sum fold_right]. rewrite (H p) by now left. fold (Sum f l). fold (Sum g l). rewrite IH; [easy|]. intros q Hq. apply H. now right. Qed.
Lemma Sum_add {A} (f g : A -> R) l : Sum (fun p => f p + g p) l = Sum f l + Sum g l.
Proof. induction l as [|p l IH]; cbn [Sum fold_right]; [lra|]. fold (Sum (fun p => f p + g p) l) (Sum f l) (Sum g l). rewrite IH. lra. Qed.
Lemma Sum_scal {A} k (f : A -> R) l : Sum (fun p => k * f p) l = k * Sum f l.
Proof. induction l as [|p l IH]; cbn [Sum fold_right]; [lra|]. fold (Sum (fun p => k * f p) l) (Sum f l). rewrite IH. lra. Qed.
Lemma Sum_const {A} k (l : list A) : Sum (fun _ => k) l = k * size l.
Proof. unfold size. induction l as [|p l IH]; [cbn; lra|]. cbn [Sum fold_right]. fold (Sum (fun _ : A => k) l). rewrite IH. cbn [length]. rewrite S_INR. lra. Qed.
Lemma Sum_nonneg {A} (f : A -> R) l : (forall p, In p l -> 0 <= f p) -> 0 <= Sum f l.
Proof. induction l as [|p l IH]; intros H; cbn [Sum fold_right]; [lra|]. fold (Sum f l). specialize (H p (or_introl eq_refl)) as H0. assert (0 <= Sum f l) by (apply IH; intros q Hq; apply H; now right). lra. Qed.
Lemma Sum_zero {A} (f : A -> R) l : (forall p, In p l -> 0 <= f p) -> Sum f l = 0 -> forall p, In p l -> f p = 0.
Proof.
  induction l as [|p l IH]; intros H E q Hq; [easy|]. cbn [Sum fold_right] in E. fold (Sum f l) in E.
  assert (0 <= f p) by (apply H; now left). assert (0 <= Sum f l) by (apply Sum_nonneg; intros r Hr; apply H; now right).
  destruct Hq as [<-|Hq]; [lra|]. apply IH; [|lra|easy]. intros r Hr. apply H. now right.
Qed.
Lemma Sum_map {A B} (f : B -> R) (h : A -> B) l : Sum f (map h l) = Sum (fun p => f (h p)) l.
Proof. induction l as [|p l IH]; [easy|]. cbn [map Sum fold_right]. fold (Sum f (map h l)). now rewrite IH. Qed.
Lemma Sum_fst (x y : list R) : length x = length y -> Sum fst (combine x y) = Sum (fun v => v) x.
Proof. revert y; induction x as [|a x IH]; intros [|b y] H; try discriminate; [easy|]. cbn [combine Sum fold_right fst]. fold (Sum fst (combine x y)) (Sum (fun v => v) x). rewrite IH; [easy|]. now injection H. Qed.
Lemma Sum_snd (x y : list R) : length x = length y -> Sum snd (combine x y) = Sum (fun v => v) y.
Proof. revert y; induction x as [|a x IH]; intros [|b y] H; try discriminate; [easy|]. cbn [combine Sum fold_right snd]. fold (Sum snd (combine x y)) (Sum (fun v => v) y). rewrite IH; [easy|]. now injection H. Qed.

Lemma nsum_from {A} (f : A -> num) g l s : (forall p, f p = Num (g p)) ->
  fold_left (fun s p => (s + f p)%num) l (Num s) = Num (s + Sum g l).
Proof.
  intros H. revert s. induction l as [|p l IH]; intros s; cbn [fold_left Sum fold_right]; [f_equal; lra|].
  rewrite H. change (Num s + Num (g p))%num with (Num (s + g p)). rewrite IH. fold (Sum g l). f_equal. lra.
Qed.
Lemma nsum_ok {A} (f : A -> num) g l : (forall p, f p = Num (g p)) -> nsum f l = Num (Sum g l).
Proof. intros H. unfold nsum. rewrite (nsum_from f g) by exact H. f_equal. lra. Qed.
Lemma nsum_map {A B} (f : B -> num) (h : A -> B) l : nsum f (map h l) = nsum (fun p => f (h p)) l.
Proof. unfold nsum. generalize (Num 0). induction l as [|p l IH]; intros s; cbn [map fold_left]; [easy|]. apply IH. Qed.
Lemma nsum_bad {A} (f : A -> num) l : l <> [] -> (forall p, f p = Bad) -> nsum f l = Bad.
Proof.
  intros Hl H. unfold nsum. assert (B : forall l, fold_left (fun s p => (s + f p)%num) l Bad = Bad) by (induction l0 as [|p l0 IH]; [easy|exact IH]).
  destruct l as [|p l]; [easy|]. cbn [fold_left]. rewrite H. cbn. apply B.
Qed.

Lemma ndiv_ok a b : b <> 0 -> (Num a / Num b)%num = Num (a / b).
Proof. intros H. cbn. rewrite (proj2 (Reqb_false b 0) H). easy. Qed.
Lemma nsqrt_ok a : 0 <= a -> nsqrt (Num a) = Num (sqrt a).
Proof. intros H. cbn. rewrite (proj2 (Rltb_false a 0)) by lra. easy. Qed.
Lemma nsq_ok a : (Num a)²%num = Num (a ^ 2).
Proof. cbn. f_equal. lra. Qed.
Lemma nadd_ok a b : (Num a + Num b)%num = Num (a + b). Proof. easy. Qed.
Lemma nsub_ok a b : (Num a - Num b)%num = Num (a - b). Proof. easy. Qed.
Lemma nmul_ok a b : (Num a * Num b)%num = Num (a * b). Proof. easy. Qed.

(** Sums about the means *)
Section Moments.
Variable pts : list (R * R).
Hypothesis Hne : pts <> [].
Let n := size pts.
Lemma size_pos : 0 < size pts.
Proof. unfold size. destruct pts as [|p l]; [easy|]. apply lt_0_INR. cbn. lia. Qed.
Lemma dev_x : Sum (fun p => fst p - mx pts) pts = 0.
Proof.
  rewrite (Sum_ext _ (fun p => fst p + -1 * mx pts)) by (intros; ring). rewrite Sum_add, Sum_const. unfold mx. pose proof size_pos. field_simplify; lra.
Qed.
Lemma dev_y : Sum (fun p => snd p - my pts) pts = 0.
Proof.
  rewrite (Sum_ext _ (fun p => snd p + -1 * my pts)) by (intros; ring). rewrite Sum_add, Sum_const. unfold my. pose proof size_pos. field_simplify; lra.
Qed.
Lemma Sxx_nonneg : 0 <= Sxx pts. Proof. apply Sum_nonneg. intros. apply pow2_ge_0. Qed.
Lemma Syy_nonneg : 0 <= Syy pts. Proof. apply Sum_nonneg. intros. apply pow2_ge_0. Qed.
Lemma Sxx_pos : Sxy pts <> 0 -> 0 < Sxx pts.
Proof.
  intros H. destruct (Rle_lt_or_eq_dec _ _ Sxx_nonneg) as [?|E]; [easy|]. exfalso. apply H. unfold Sxy.
  rewrite (Sum_ext _ (fun _ => 0)); [rewrite Sum_const; lra|]. intros p Hp.
  assert (Z : (fst p - mx pts) ^ 2 = 0) by (apply (Sum_zero (fun p => (fst p - mx pts) ^ 2) pts); [intros; apply pow2_ge_0|now symmetry|easy]).
  assert (Z' : fst p - mx pts = 0) by (apply Rsqr_0_uniq; unfold Rsqr; lra). rewrite Z'. lra.
Qed.
Lemma Syy_pos : Sxy pts <> 0 -> 0 < Syy pts.
Proof.
  intros H. destruct (Rle_lt_or_eq_dec _ _ Syy_nonneg) as [?|E]; [easy|]. exfalso. apply H. unfold Sxy.
  rewrite (Sum_ext _ (fun _ => 0)); [rewrite Sum_const; lra|]. intros p Hp.
  assert (Z : (snd p - my pts) ^ 2 = 0) by (apply (Sum_zero (fun p => (snd p - my pts) ^ 2) pts); [intros; apply pow2_ge_0|now symmetry|easy]).
  assert (Z' : snd p - my pts = 0) by (apply Rsqr_0_uniq; unfold Rsqr; lra). rewrite Z'. lra.
Qed.
(** The sum of squared vertical distances *)
Lemma vertical_eq a b : vertical pts a b = Syy pts - 2 * b * Sxy pts + b ^ 2 * Sxx pts + size pts * (my pts - a - b * mx pts) ^ 2.
Proof.
  unfold vertical. set (e := my pts - a - b * mx pts).
  rewrite (Sum_ext _ (fun p => (snd p - my pts) ^ 2 + (- (2 * b) * ((fst p - mx pts) * (snd p - my pts)) + (b ^ 2 * (fst p - mx pts) ^ 2 +
    (2 * e * (snd p - my pts) + (- (2 * b * e) * (fst p - mx pts) + e ^ 2)))))).
  - rewrite !Sum_add, !Sum_scal, Sum_const, dev_x, dev_y. unfold Syy, Sxy, Sxx. ring.
  - intros p _. unfold e. ring.
Qed.
Lemma cauchy : Sxy pts ^ 2 <= Sxx pts * Syy pts.
Proof.
  destruct (Req_dec (Sxy pts) 0) as [E|E].
  - rewrite E. pose proof Sxx_nonneg. pose proof Syy_nonneg. rewrite pow_i by lia. now apply Rmult_le_pos.
  - pose proof (Sxx_pos E). assert (V : 0 <= vertical pts (my pts - Sxy pts / Sxx pts * mx pts) (Sxy pts / Sxx pts)) by (apply Sum_nonneg; intros; apply pow2_ge_0).
    rewrite vertical_eq in V. replace (my pts - _ - _) with 0 in V by ring.
    apply (Rmult_le_compat_l (Sxx pts)) in V; [|lra]. field_simplify in V; [|lra]. lra.
Qed.
End Moments.
