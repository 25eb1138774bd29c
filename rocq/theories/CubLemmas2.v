(** Integrals of polynomials over rectangles, and the moments of the normal
    distribution. *)

From Coq Require Import List Bool Arith ZArith Reals Lra Lia Ranalysis.
From Coquelicot Require Import Coquelicot.
From Verif Require Import CountSpec CountLemmas BaLemmas HpdLemmas PwlLemmas4 CubSpec CubLemmas.
Import ListNotations.
Open Scope R_scope.

Lemma is_RInt_so : forall (f : nat -> R -> R) (v : nat -> R) a b k n, (forall j, (k <= j < k + n)%nat -> is_RInt (f j) a b (v j)) ->
  is_RInt (fun x => sum_over k n (fun j => f j x)) a b (sum_over k n v).
Proof. intros f v a b k n H. unfold sum_over. apply (is_RInt_sumR f v a b (seq k n)). intros j Hj. apply in_seq in Hj. apply H. lia. Qed.
Lemma is_RInt_cst : forall (f : R -> R) a b v k, is_RInt f a b v -> is_RInt (fun x => k * f x) a b (k * v).
Proof. intros f a b v k H. exact (is_RInt_scal (V := R_NormedModule) f a b k v H). Qed.
Lemma is_RInt_eq : forall (f g : R -> R) a b v, (forall x, f x = g x) -> is_RInt f a b v -> is_RInt g a b v.
Proof. intros f g a b v E H. apply (is_RInt_ext (V := R_NormedModule) f g a b v); [|exact H]. intros x _. apply E. Qed.
Lemma is_RInt_same : forall (f : R -> R) a b v w, is_RInt f a b v -> is_RInt f a b w -> v = w.
Proof. intros f a b v w H1 H2. rewrite <- (is_RInt_unique (V := R_CompleteNormedModule) f a b v H1). exact (is_RInt_unique (V := R_CompleteNormedModule) f a b w H2). Qed.

(** ** The uniform moments on [-1,1] *)
Definition um (i : nat) : R := (1 - (-1) ^ (S i)) / INR (S i).
Lemma is_RInt_pow : forall a xl xu, is_RInt (fun x => x ^ a) xl xu ((xu ^ S a - xl ^ S a) / INR (S a)).
Proof.
  intros a xl xu. assert (N : INR (S a) <> 0) by (apply not_0_INR; lia).
  replace ((xu ^ S a - xl ^ S a) / INR (S a)) with (minus (xu ^ S a / INR (S a)) (xl ^ S a / INR (S a))) by (unfold minus, plus, opp; cbn -[pow INR]; field; exact N).
  apply (is_RInt_derive (V := R_CompleteNormedModule) (fun x => x ^ S a / INR (S a)) (fun x => x ^ a)).
  - intros x _. auto_derive; [exact I|]. cbn [Nat.pred]. field. exact N.
  - intros x _. apply (ex_derive_continuous (fun x => x ^ a)). auto_derive. exact I.
Qed.
Lemma is_RInt_um : forall i, is_RInt (fun u => u ^ i) (-1) 1 (um i).
Proof. intros i. unfold um. replace 1 with (1 ^ S i) at 2 by apply pow1. apply is_RInt_pow. Qed.
Lemma is_RInt_range : forall a xl xu, is_RInt (fun x => x ^ a) xl xu (/ 2 * (xu - xl) * spread um (/ 2 * (xu + xl)) (/ 2 * (xu - xl)) a).
Proof.
  intros a xl xu. set (h := / 2 * (xu - xl)). set (m := / 2 * (xu + xl)).
  assert (I1 := is_RInt_pow a xl xu). assert (E : (xu ^ S a - xl ^ S a) / INR (S a) = h * spread um m h a); [|rewrite <- E; exact I1].
  apply (is_RInt_same (fun u => h * (m + h * u) ^ a) (-1) 1).
  - apply (is_RInt_eq (fun y => scal h ((h * y + m) ^ a))); [intros y; unfold scal; cbn; unfold mult; cbn; f_equal; f_equal; ring|].
    apply (is_RInt_comp_lin (V := R_NormedModule) (fun x => x ^ a)). replace (h * -1 + m) with xl by (unfold h, m; field). replace (h * 1 + m) with xu by (unfold h, m; field). exact I1.
  - apply is_RInt_cst. apply (is_RInt_eq (fun u => sum_over 0 (S a) (fun i => bco m h a i * u ^ i))); [intros u; now rewrite bin|].
    unfold spread. apply (is_RInt_so (fun i u => bco m h a i * u ^ i)). intros i _. apply is_RInt_cst, is_RInt_um.
Qed.

(** Products of functions of one variable *)
Lemma integral_prod : forall d c (f g : nat -> R -> R) (F G : nat -> R) xl xu yl yu,
  (forall a, is_RInt (f a) xl xu (F a)) -> (forall b, is_RInt (g b) yl yu (G b)) ->
  integral (fun x y => sum_over 0 (S d) (fun a => sum_over 0 (S d - a) (fun b => c a b * f a x * g b y))) xl xu yl yu
  = sum_over 0 (S d) (fun a => sum_over 0 (S d - a) (fun b => c a b * (F a * G b))).
Proof.
  intros d c f g F G xl xu yl yu HF HG. unfold integral.
  assert (In : forall x, RInt (fun y => sum_over 0 (S d) (fun a => sum_over 0 (S d - a) (fun b => c a b * f a x * g b y))) yl yu = sum_over 0 (S d) (fun a => sum_over 0 (S d - a) (fun b => c a b * f a x * G b))).
  { intros x. apply (RInt_is _ _ _ (sum_over 0 (S d) (fun a => sum_over 0 (S d - a) (fun b => c a b * f a x * G b)))); [|reflexivity].
    apply (is_RInt_so (fun a y => sum_over 0 (S d - a) (fun b => c a b * f a x * g b y)) (fun a => sum_over 0 (S d - a) (fun b => c a b * f a x * G b))). intros a _.
    apply (is_RInt_so (fun b y => c a b * f a x * g b y) (fun b => c a b * f a x * G b)). intros b _. apply is_RInt_cst, HG. }
  apply (RInt_is _ _ _ (sum_over 0 (S d) (fun a => sum_over 0 (S d - a) (fun b => c a b * (F a * G b))))); [|reflexivity].
  apply (is_RInt_eq (fun x => sum_over 0 (S d) (fun a => sum_over 0 (S d - a) (fun b => (c a b * G b) * f a x)))).
  { intros x. rewrite In. apply so_ext. intros a _. apply so_ext. intros b _. ring. }
  apply (is_RInt_so (fun a x => sum_over 0 (S d - a) (fun b => (c a b * G b) * f a x)) (fun a => sum_over 0 (S d - a) (fun b => c a b * (F a * G b)))). intros a _.
  apply (is_RInt_so (fun b x => (c a b * G b) * f a x) (fun b => c a b * (F a * G b))). intros b _. replace (c a b * (F a * G b)) with ((c a b * G b) * F a) by ring. apply is_RInt_cst, HF.
Qed.

Lemma integral_poly : forall d c xl xu yl yu,
  integral (poly d c) xl xu yl yu = (/ 2 * (xu - xl)) * (/ 2 * (yu - yl)) *
    sum_over 0 (S d) (fun a => sum_over 0 (S d - a) (fun b => c a b * (spread um (/ 2 * (xu + xl)) (/ 2 * (xu - xl)) a * spread um (/ 2 * (yu + yl)) (/ 2 * (yu - yl)) b))).
Proof.
  intros d c xl xu yl yu. unfold poly.
  rewrite (integral_prod d c (fun a x => x ^ a) (fun b y => y ^ b) _ _ xl xu yl yu (fun a => is_RInt_range a xl xu) (fun b => is_RInt_range b yl yu)).
  rewrite <- so_scal. apply so_ext. intros a _. rewrite <- so_scal. apply so_ext. intros b _. ring.
Qed.

(** ** Normal moments *)
Definition e1 (u : R) : R := exp (- u ^ 2 / 2).
Lemma bell_e1 : forall u v, bell u v = e1 u * e1 v.
Proof. intros u v. unfold bell, e1. rewrite <- exp_plus. f_equal. field. Qed.
Definition mom (i : nat) (T : R) : R := RInt (fun u => u ^ i * e1 u) (- T) T.
Lemma mom_cont : forall i x, continuous (fun u => u ^ i * e1 u) x.
Proof. intros i x. apply (ex_derive_continuous (fun u => u ^ i * e1 u)). unfold e1. auto_derive. exact I. Qed.
Lemma is_mom : forall i T, is_RInt (fun u => u ^ i * e1 u) (- T) T (mom i T).
Proof. intros i T. apply (RInt_correct (V := R_CompleteNormedModule)). apply (ex_RInt_continuous (V := R_CompleteNormedModule)). intros z _. apply mom_cont. Qed.

Fixpoint nm2 (i : nat) : R * R := match i with O => (1, 0) | S j => let p := nm2 j in (snd p, INR (S j) * fst p) end.
(** The moments of the standard normal distribution: 1, 0, 1, 0, 3, 0, 15, ... *)
Definition nm (i : nat) : R := fst (nm2 i).
Lemma nm_0 : nm 0 = 1. Proof. reflexivity. Qed.
Lemma nm_1 : nm 1 = 0. Proof. reflexivity. Qed.
Lemma nm_SS : forall i, nm (S (S i)) = INR (S i) * nm i.
Proof. reflexivity. Qed.

Lemma mom_step : forall i T, mom (S (S i)) T = INR (S i) * mom i T - (T ^ S i * e1 T - (- T) ^ S i * e1 (- T)).
Proof.
  intros i T. assert (D : is_RInt (fun u => INR (S i) * (u ^ i * e1 u) - u ^ S (S i) * e1 u) (- T) T (T ^ S i * e1 T - (- T) ^ S i * e1 (- T))).
  { apply (is_RInt_derive (V := R_CompleteNormedModule) (fun u => u ^ S i * e1 u) (fun u => INR (S i) * (u ^ i * e1 u) - u ^ S (S i) * e1 u)).
    - intros x _. unfold e1. auto_derive; [exact I|]. change (match i with O => 1 | S _ => INR i + 1 end) with (INR (S i)). replace (- x ^ 2 / 2) with (- (x * (x * 1)) * / 2) by (cbn [pow]; field). cbn [pow]. field.
    - intros x _. apply (ex_derive_continuous (fun u => INR (S i) * (u ^ i * e1 u) - u ^ S (S i) * e1 u)). unfold e1. auto_derive. exact I. }
  assert (D2 : is_RInt (fun u => INR (S i) * (u ^ i * e1 u) - u ^ S (S i) * e1 u) (- T) T (INR (S i) * mom i T - mom (S (S i)) T)).
  { apply (is_RInt_minus (V := R_NormedModule) (fun u => INR (S i) * (u ^ i * e1 u)) (fun u => u ^ S (S i) * e1 u)); [apply is_RInt_cst|]; apply is_mom. }
  assert (E := is_RInt_same _ _ _ _ _ D D2). lra.
Qed.
Lemma e1_even : forall T, e1 (- T) = e1 T.
Proof. intros T. unfold e1. f_equal. f_equal. ring. Qed.
Lemma e1_pos : forall T, 0 < e1 T. Proof. intros T. apply exp_pos. Qed.
Lemma mom_1 : forall T, mom 1 T = 0.
Proof.
  intros T. apply (RInt_is _ _ _ (- e1 T - - e1 (- T))); [|rewrite e1_even; ring].
  apply (is_RInt_derive (V := R_CompleteNormedModule) (fun u => - e1 u) (fun u => u ^ 1 * e1 u)).
  - intros x _. unfold e1. auto_derive; [exact I|]. replace (- x ^ 2 / 2) with (- (x * (x * 1)) * / 2) by (cbn [pow]; field). cbn [pow]. field.
  - intros x _. apply mom_cont.
Qed.
Lemma mom_0_mono : forall T, 1 <= T -> mom 0 1 <= mom 0 T.
Proof.
  intros T H. unfold mom.
  assert (X : forall a b, ex_RInt (fun u => u ^ 0 * e1 u) a b) by (intros a b; apply (ex_RInt_continuous (V := R_CompleteNormedModule)); intros z _; apply mom_cont).
  assert (P : forall a b, a <= b -> 0 <= RInt (fun u => u ^ 0 * e1 u) a b).
  { intros a b Hab. apply RInt_ge_0; [exact Hab|apply X|]. intros x _. cbn [pow]. assert (Q := e1_pos x). lra. }
  rewrite <- (RInt_Chasles (V := R_CompleteNormedModule) (fun u => u ^ 0 * e1 u) (- T) (Ropp 1) T) by apply X.
  rewrite <- (RInt_Chasles (V := R_CompleteNormedModule) (fun u => u ^ 0 * e1 u) (Ropp 1) 1 T) by apply X.
  assert (P1 := P (- T) (Ropp 1) ltac:(lra)). assert (P2 := P 1 T H). unfold plus; cbn -[RInt pow e1]. cbv beta in P1, P2. lra.
Qed.
Lemma mom_0_pos1 : 0 < mom 0 1.
Proof.
  unfold mom. apply RInt_gt_0; [lra| |intros x _; apply mom_cont]. intros x _. cbn [pow]. assert (Q := e1_pos x). lra.
Qed.
Lemma mom_0_pos : forall T, 1 <= T -> 0 < mom 0 T.
Proof. intros T H. assert (A := mom_0_mono T H). assert (B := mom_0_pos1). lra. Qed.

(** T^k exp(-T^2/2) vanishes *)
Lemma tail_bound : forall k T, 1 <= T -> T ^ S k * e1 T <= INR (fact (S k)) * 2 ^ S k / T.
Proof.
  intros k T H. set (n := S k). assert (X : (T ^ 2 / 2) ^ n / INR (fact n) <= exp (T ^ 2 / 2)).
  { eapply Rle_trans; [|apply (exp_ge_taylor (T ^ 2 / 2) n); nra]. rewrite so_f_R0, so_end. cbn [Nat.add].
    assert (0 <= sum_over 0 n (fun k0 : nat => (T ^ 2 / 2) ^ k0 / INR (fact k0))); [|lra].
    apply so_nonneg. intros i _. apply Rmult_le_pos; [apply pow_le; nra|]. apply Rlt_le, Rinv_0_lt_compat, INR_fact_lt_0. }
  assert (E : e1 T * exp (T ^ 2 / 2) = 1) by (unfold e1; rewrite <- exp_plus; replace (- T ^ 2 / 2 + T ^ 2 / 2) with 0 by field; apply exp_0).
  assert (TP : 0 < T) by lra. assert (FP := INR_fact_lt_0 n). assert (EP := e1_pos T). assert (Tn : 0 < T ^ n) by now apply pow_lt.
  assert (Y : e1 T * (T ^ 2 / 2) ^ n <= INR (fact n)).
  { apply Rmult_le_reg_r with (/ INR (fact n)); [now apply Rinv_0_lt_compat|]. rewrite (Rinv_r (INR (fact n))) by lra. rewrite <- E, Rmult_assoc. apply Rmult_le_compat_l; [lra|exact X]. }
  assert (Z : (T ^ 2 / 2) ^ n = T ^ n * T ^ n * / 2 ^ n).
  { unfold Rdiv. rewrite Rpow_mult_distr, <- pow_mult, pow_inv by lra. f_equal. rewrite <- pow_add. f_equal. lia. }
  rewrite Z in Y. assert (P2 : 0 < 2 ^ n) by (apply pow_lt; lra).
  assert (T1 : T <= T ^ n) by (unfold n; cbn [pow]; assert (1 <= T ^ k) by (now apply pow_R1_Rle); nra).
  apply Rmult_le_reg_r with T; [exact TP|]. unfold Rdiv. rewrite Rmult_assoc, (Rmult_assoc _ (/ T)), Rinv_l, Rmult_1_r by lra.
  apply Rle_trans with (T ^ n * e1 T * T ^ n); [rewrite <- Rmult_assoc; apply Rmult_le_compat_l; [nra|exact T1]|].
  apply Rmult_le_reg_r with (/ 2 ^ n); [now apply Rinv_0_lt_compat|]. rewrite (Rmult_assoc (INR (fact n))), Rinv_r, Rmult_1_r by lra. nra.
Qed.

Lemma lim_inv_T : forall K, is_lim (fun T => K / T) p_infty 0.
Proof.
  intros K. replace (Finite 0) with (Rbar_mult K (Rbar_inv p_infty)) by (cbn; f_equal; ring).
  apply (is_lim_scal_l (fun T => / T) K p_infty (Rbar_inv p_infty)). apply (is_lim_inv (fun T => T) p_infty p_infty); [apply is_lim_id|discriminate].
Qed.
Lemma lim_zero : forall f K, (forall T, 1 <= T -> Rabs (f T) <= K / T) -> is_lim f p_infty 0.
Proof.
  intros f K H. apply (is_lim_le_le_loc (fun T => (- K) / T) (fun T => K / T)); [|apply lim_inv_T|apply lim_inv_T].
  exists 1. intros T HT. specialize (H T ltac:(lra)). assert (N : - K / T = - (K / T)) by (field; lra). rewrite N. unfold Rabs in H. destruct (Rcase_abs (f T)); lra.
Qed.

Lemma mom_lim : forall i, is_lim (fun T => mom i T / mom 0 T) p_infty (nm i) /\ is_lim (fun T => mom (S i) T / mom 0 T) p_infty (nm (S i)).
Proof.
  induction i as [|i [IH1 IH2]].
  - split.
    + apply (is_lim_ext_loc (fun _ => 1)); [|apply is_lim_const]. exists 1. intros T HT. assert (P := mom_0_pos T ltac:(lra)). field. lra.
    + apply (is_lim_ext_loc (fun _ => 0)); [|apply is_lim_const]. exists 1. intros T HT. rewrite mom_1. unfold Rdiv. ring.
  - split; [exact IH2|]. rewrite nm_SS. clear IH2.
    apply (is_lim_ext_loc (fun T => INR (S i) * (mom i T / mom 0 T) + - ((T ^ S i * e1 T - (- T) ^ S i * e1 (- T)) / mom 0 T))).
    { exists 1. intros T HT. rewrite mom_step. assert (P := mom_0_pos T ltac:(lra)). field. lra. }
    replace (Finite (INR (S i) * nm i)) with (Finite (INR (S i) * nm i + 0)) by (f_equal; ring).
    apply (is_lim_plus' (fun T => INR (S i) * (mom i T / mom 0 T)) (fun T => - ((T ^ S i * e1 T - (- T) ^ S i * e1 (- T)) / mom 0 T)) p_infty (INR (S i) * nm i) 0).
    + exact (is_lim_scal_l (fun T => mom i T / mom 0 T) (INR (S i)) p_infty (nm i) IH1).
    + apply (lim_zero _ (2 * (INR (fact (S i)) * 2 ^ S i) / mom 0 1)). intros T HT. assert (P := mom_0_pos T HT). assert (P1 := mom_0_pos1). assert (Mo := mom_0_mono T HT).
      rewrite Rabs_Ropp, e1_even. unfold Rdiv. rewrite Rabs_mult, (Rabs_pos_eq (/ mom 0 T)) by (now apply Rlt_le, Rinv_0_lt_compat).
      assert (B := tail_bound i T HT). set (K := INR (fact (S i)) * 2 ^ S i) in *.
      assert (A : Rabs (T ^ S i * e1 T - (- T) ^ S i * e1 T) <= 2 * K * / T).
      { eapply Rle_trans; [apply Rabs_triang|]. rewrite Rabs_Ropp, !Rabs_mult, <- !RPow_abs, Rabs_Ropp, (Rabs_pos_eq T), (Rabs_pos_eq (e1 T)) by (try (assert (Q := e1_pos T)); lra). unfold Rdiv in B. lra. }
      assert (IT : / mom 0 T <= / mom 0 1) by (apply Rinv_le_contravar; assumption). assert (IP : 0 < / mom 0 T) by now apply Rinv_0_lt_compat.
      replace (2 * K * / mom 0 1 * / T) with (2 * K * / T * / mom 0 1) by ring. apply Rmult_le_compat; [apply Rabs_pos|lra|exact A|exact IT].
Qed.

Lemma is_lim_so : forall (f : nat -> R -> R) (v : nat -> R) n k, (forall j, (k <= j < k + n)%nat -> is_lim (f j) p_infty (v j)) ->
  is_lim (fun T => sum_over k n (fun j => f j T)) p_infty (sum_over k n v).
Proof.
  intros f v n. induction n as [|n IH]; intros k H; [exact (is_lim_const 0 p_infty)|].
  apply (is_lim_plus' (f k) (fun T => sum_over (S k) n (fun j => f j T)) p_infty (v k) (sum_over (S k) n v)); [apply H; lia|apply IH; intros j Hj; apply H; lia].
Qed.
Lemma is_lim_mul : forall (f g : R -> R) (a b : R), is_lim f p_infty a -> is_lim g p_infty b -> is_lim (fun T => f T * g T) p_infty (a * b).
Proof. intros f g a b Hf Hg. apply (is_lim_mult f g p_infty a b Hf Hg). exact I. Qed.

Lemma is_spread : forall l s a T, is_RInt (fun u => (l + s * u) ^ a * e1 u) (- T) T (sum_over 0 (S a) (fun i => bco l s a i * mom i T)).
Proof.
  intros l s a T. apply (is_RInt_eq (fun u => sum_over 0 (S a) (fun i => bco l s a i * (u ^ i * e1 u)))).
  { intros u. rewrite bin, <- so_scal_r. apply so_ext. intros i _. ring. }
  apply (is_RInt_so (fun i u => bco l s a i * (u ^ i * e1 u))). intros i _. apply is_RInt_cst, is_mom.
Qed.

Lemma mean_poly : forall d c l0 l1 s0 s1,
  normal_mean (poly d c) l0 l1 s0 s1 (sum_over 0 (S d) (fun a => sum_over 0 (S d - a) (fun b => c a b * (spread nm l0 s0 a * spread nm l1 s1 b)))).
Proof.
  intros d c l0 l1 s0 s1. unfold normal_mean.
  assert (Z : forall T, integral bell (- T) T (- T) T = mom 0 T * mom 0 T).
  { intros T. unfold integral. assert (In : forall u, RInt (fun v => bell u v) (- T) T = mom 0 T * e1 u).
    { intros u. apply (RInt_is _ _ _ (e1 u * mom 0 T)); [|ring]. apply (is_RInt_eq (fun v => e1 u * (v ^ 0 * e1 v))); [intros v; rewrite bell_e1; cbn [pow]; ring|]. apply is_RInt_cst, is_mom. }
    apply (RInt_is _ _ _ (mom 0 T * mom 0 T)); [|reflexivity]. apply (is_RInt_eq (fun u => mom 0 T * (u ^ 0 * e1 u))); [intros u; rewrite In; cbn [pow]; ring|]. apply is_RInt_cst, is_mom. }
  assert (N : forall T, integral (fun u v => poly d c (l0 + s0 * u) (l1 + s1 * v) * bell u v) (- T) T (- T) T
    = sum_over 0 (S d) (fun a => sum_over 0 (S d - a) (fun b => c a b * (sum_over 0 (S a) (fun i => bco l0 s0 a i * mom i T) * sum_over 0 (S b) (fun i => bco l1 s1 b i * mom i T))))).
  { intros T. rewrite <- (integral_prod d c (fun a u => (l0 + s0 * u) ^ a * e1 u) (fun b v => (l1 + s1 * v) ^ b * e1 v) _ _ (- T) T (- T) T (fun a => is_spread l0 s0 a T) (fun b => is_spread l1 s1 b T)).
    unfold integral. apply RInt_ext. intros u _. apply RInt_ext. intros v _. rewrite bell_e1. unfold poly. rewrite <- so_scal_r. apply so_ext. intros a _. rewrite <- so_scal_r. apply so_ext. intros b _. ring. }
  apply (is_lim_ext_loc (fun T => sum_over 0 (S d) (fun a => sum_over 0 (S d - a) (fun b => c a b *
    (sum_over 0 (S a) (fun i => bco l0 s0 a i * (mom i T / mom 0 T)) * sum_over 0 (S b) (fun i => bco l1 s1 b i * (mom i T / mom 0 T))))))).
  { exists 1. intros T HT. rewrite Z, N. assert (P := mom_0_pos T ltac:(lra)). match goal with |- _ = ?x / ?y => change (x / y) with (x * / y) end. rewrite <- so_scal_r. apply so_ext. intros a _. rewrite <- so_scal_r. apply so_ext. intros b _.
    assert (Q : forall l s k, sum_over 0 (S k) (fun i => bco l s k i * (mom i T / mom 0 T)) = sum_over 0 (S k) (fun i => bco l s k i * mom i T) * / mom 0 T).
    { intros l s k. rewrite <- so_scal_r. apply so_ext. intros i _. unfold Rdiv. ring. }
    rewrite (Q l0 s0 a), (Q l1 s1 b), Rinv_mult. ring. }
  apply (is_lim_so (fun a T => sum_over 0 (S d - a) (fun b => c a b *
    (sum_over 0 (S a) (fun i => bco l0 s0 a i * (mom i T / mom 0 T)) * sum_over 0 (S b) (fun i => bco l1 s1 b i * (mom i T / mom 0 T)))))
    (fun a => sum_over 0 (S d - a) (fun b => c a b * (spread nm l0 s0 a * spread nm l1 s1 b)))). intros a _.
  apply (is_lim_so (fun b T => c a b * (sum_over 0 (S a) (fun i => bco l0 s0 a i * (mom i T / mom 0 T)) * sum_over 0 (S b) (fun i => bco l1 s1 b i * (mom i T / mom 0 T))))
    (fun b => c a b * (spread nm l0 s0 a * spread nm l1 s1 b))). intros b _.
  assert (Sp : forall l s k, is_lim (fun T => sum_over 0 (S k) (fun i => bco l s k i * (mom i T / mom 0 T))) p_infty (spread nm l s k)).
  { intros l s k. unfold spread. apply (is_lim_so (fun i T => bco l s k i * (mom i T / mom 0 T)) (fun i => bco l s k i * nm i)). intros i _.
    exact (is_lim_mul (fun _ => bco l s k i) (fun T => mom i T / mom 0 T) (bco l s k i) (nm i) (is_lim_const _ _) (proj1 (mom_lim i))). }
  exact (is_lim_mul (fun _ => c a b) _ (c a b) _ (is_lim_const _ _) (is_lim_mul _ _ _ _ (Sp l0 s0 a) (Sp l1 s1 b))).
Qed.
Lemma mean_unique : forall p l0 l1 s0 s1 m m', normal_mean p l0 l1 s0 s1 m -> normal_mean p l0 l1 s0 s1 m' -> m = m'.
Proof. intros p l0 l1 s0 s1 m m' H1 H2. assert (E1 := is_lim_unique _ _ _ H1). assert (E2 := is_lim_unique _ _ _ H2). rewrite E1 in E2. now injection E2. Qed.
