(** Weighted sums of polynomials against given moments. *)

From Coq Require Import List Bool Arith ZArith Reals Lra Lia.
From Verif Require Import CountSpec CountLemmas BaLemmas CubSpec.
Import ListNotations.
Open Scope R_scope.

Definition node := ((R * R) * R)%type.
(** The weighted sum of g over the nodes *)
Fixpoint rule_sum (l : list node) (g : R -> R -> R) : R :=
  match l with [] => 0 | ((u, v), w) :: l' => w * g u v + rule_sum l' g end.

Lemma rule_ext : forall l g h, (forall u v, g u v = h u v) -> rule_sum l g = rule_sum l h.
Proof. induction l as [|[[u v] w] l IH]; intros g h E; [reflexivity|]. cbn [rule_sum]. now rewrite E, (IH g h E). Qed.
Lemma rule_zero : forall l, rule_sum l (fun _ _ => 0) = 0.
Proof. induction l as [|[[u v] w] l IH]; [reflexivity|]. cbn [rule_sum]. rewrite IH. ring. Qed.
Lemma rule_plus : forall l g h, rule_sum l (fun u v => g u v + h u v) = rule_sum l g + rule_sum l h.
Proof. induction l as [|[[u v] w] l IH]; intros g h; cbn [rule_sum]; [ring|]. rewrite IH. ring. Qed.
Lemma rule_scal : forall l g k, rule_sum l (fun u v => k * g u v) = k * rule_sum l g.
Proof. induction l as [|[[u v] w] l IH]; intros g k; cbn [rule_sum]; [ring|]. rewrite IH. ring. Qed.
Lemma rule_so : forall l n a (g : nat -> R -> R -> R), rule_sum l (fun u v => sum_over a n (fun i => g i u v)) = sum_over a n (fun i => rule_sum l (g i)).
Proof.
  intros l n. induction n as [|n IH]; intros a g; [rewrite so_0; apply rule_zero|]. rewrite so_front.
  rewrite (rule_ext l _ (fun u v => g a u v + sum_over (S a) n (fun i => g i u v))) by (intros u v; apply so_front). rewrite rule_plus, IH. reflexivity.
Qed.

Lemma so_abs : forall n a f, Rabs (sum_over a n f) <= sum_over a n (fun i => Rabs (f i)).
Proof.
  induction n as [|n IH]; intros a f; [rewrite !so_0, Rabs_R0; lra|]. rewrite !so_front. eapply Rle_trans; [apply Rabs_triang|]. specialize (IH (S a) f). lra.
Qed.
Lemma so_f_R0 : forall f n, sum_f_R0 f n = sum_over 0 (S n) f.
Proof. intros f n. induction n as [|n IH]; [rewrite so_end, so_0; cbn; ring|]. rewrite so_end, <- IH. reflexivity. Qed.
Lemma C_pos : forall n i, 0 <= C n i.
Proof. intros n i. unfold C. apply Rlt_le, Rdiv_lt_0_compat; [|apply Rmult_lt_0_compat]; apply INR_fact_lt_0. Qed.

(** Binomial coefficients of (l + s u)^a *)
Definition bco (l s : R) (a i : nat) : R := C a i * s ^ i * l ^ (a - i).
Lemma bin : forall l s u a, (l + s * u) ^ a = sum_over 0 (S a) (fun i => bco l s a i * u ^ i).
Proof.
  intros l s u a. rewrite Rplus_comm, binomial, so_f_R0. apply so_ext. intros i _. unfold bco. rewrite Rpow_mult_distr. ring.
Qed.
Lemma bin_abs : forall l s a, sum_over 0 (S a) (fun i => Rabs (bco l s a i)) = (Rabs l + Rabs s) ^ a.
Proof.
  intros l s a. rewrite Rplus_comm, binomial, so_f_R0. apply so_ext. intros i _. unfold bco. rewrite !Rabs_mult, <- !RPow_abs, (Rabs_pos_eq (C a i)) by apply C_pos. reflexivity.
Qed.

(** The mean of (l + s u)^a when u has the moments m *)
Definition spread (m : nat -> R) (l s : R) (a : nat) : R := sum_over 0 (S a) (fun i => bco l s a i * m i).

Lemma so_mult : forall n p f g, sum_over 0 n f * sum_over 0 p g = sum_over 0 n (fun i => sum_over 0 p (fun j => f i * g j)).
Proof. intros n p f g. rewrite <- so_scal_r. apply so_ext. intros i _. now rewrite so_scal. Qed.

Section Rule.
Variable L : list node.
Variables mx my : nat -> R.
Variable eps : R.
Variable d : nat.
Hypothesis moments : forall i j, (i + j <= d)%nat -> Rabs (rule_sum L (fun u v => u ^ i * v ^ j) - mx i * my j) <= eps.

Lemma rule_term : forall l0 s0 l1 s1 a b, (a + b <= d)%nat ->
  Rabs (rule_sum L (fun u v => (l0 + s0 * u) ^ a * (l1 + s1 * v) ^ b) - spread mx l0 s0 a * spread my l1 s1 b) <= eps * ((Rabs l0 + Rabs s0) ^ a * (Rabs l1 + Rabs s1) ^ b).
Proof.
  intros l0 s0 l1 s1 a b Hab.
  rewrite (rule_ext L _ (fun u v => sum_over 0 (S a) (fun i => sum_over 0 (S b) (fun j => (bco l0 s0 a i * bco l1 s1 b j) * (u ^ i * v ^ j))))).
  2:{ intros u v. rewrite !bin, so_mult. apply so_ext. intros i _. apply so_ext. intros j _. ring. }
  rewrite (rule_so L (S a) 0 (fun i u v => sum_over 0 (S b) (fun j => (bco l0 s0 a i * bco l1 s1 b j) * (u ^ i * v ^ j)))).
  unfold spread. rewrite so_mult, <- so_minus. rewrite <- !bin_abs, so_mult, <- so_scal. eapply Rle_trans; [apply so_abs|]. apply so_le. intros i Hi.
  rewrite (rule_so L (S b) 0 (fun j u v => (bco l0 s0 a i * bco l1 s1 b j) * (u ^ i * v ^ j))), <- so_minus, <- so_scal. eapply Rle_trans; [apply so_abs|]. apply so_le. intros j Hj.
  rewrite rule_scal. replace (bco l0 s0 a i * bco l1 s1 b j * rule_sum L (fun u v => u ^ i * v ^ j) - bco l0 s0 a i * mx i * (bco l1 s1 b j * my j))
    with ((bco l0 s0 a i * bco l1 s1 b j) * (rule_sum L (fun u v => u ^ i * v ^ j) - mx i * my j)) by ring.
  rewrite !Rabs_mult, (Rmult_comm eps). apply Rmult_le_compat_l; [apply Rmult_le_pos; apply Rabs_pos|]. apply moments. lia.
Qed.

Lemma rule_poly : forall c l0 s0 l1 s1,
  Rabs (rule_sum L (fun u v => poly d c (l0 + s0 * u) (l1 + s1 * v)) - sum_over 0 (S d) (fun a => sum_over 0 (S d - a) (fun b => c a b * (spread mx l0 s0 a * spread my l1 s1 b))))
  <= eps * size d c (Rabs l0 + Rabs s0) (Rabs l1 + Rabs s1).
Proof.
  intros c l0 s0 l1 s1. unfold poly, size.
  rewrite (rule_so L (S d) 0 (fun a u v => sum_over 0 (S d - a) (fun b => c a b * (l0 + s0 * u) ^ a * (l1 + s1 * v) ^ b))), <- so_minus, <- so_scal.
  eapply Rle_trans; [apply so_abs|]. apply so_le. intros a Ha.
  rewrite (rule_so L (S d - a) 0 (fun b u v => c a b * (l0 + s0 * u) ^ a * (l1 + s1 * v) ^ b)), <- so_minus, <- so_scal. eapply Rle_trans; [apply so_abs|]. apply so_le. intros b Hb.
  rewrite (rule_ext L _ (fun u v => c a b * ((l0 + s0 * u) ^ a * (l1 + s1 * v) ^ b))) by (intros; ring). rewrite rule_scal, <- Rmult_minus_distr_l, Rabs_mult.
  assert (T := rule_term l0 s0 l1 s1 a b ltac:(lia)). assert (P := Rabs_pos (c a b)).
  replace (eps * (Rabs (c a b) * (Rabs l0 + Rabs s0) ^ a * (Rabs l1 + Rabs s1) ^ b)) with (Rabs (c a b) * (eps * ((Rabs l0 + Rabs s0) ^ a * (Rabs l1 + Rabs s1) ^ b))) by ring.
  now apply Rmult_le_compat_l.
Qed.
End Rule.
