From Coq Require Import List Bool Arith Reals Lia Lra Psatz.
From Verif Require Import Exn Instances McModel CountSpec CountLemmas BaModel BaSpec BaLemmas BaLemmas2.
Import ListNotations.
Open Scope R_scope.

(** ** Triangular systems *)
Lemma upper_zero : forall n (L : nat -> nat -> R) x, (forall i j, (i < j)%nat -> (j < n)%nat -> L i j = 0) -> (forall i, (i < n)%nat -> L i i <> 0) ->
  (forall i, (i < n)%nat -> sum_over 0 n (fun m => L m i * x m) = 0) -> forall i, (i < n)%nat -> x i = 0.
Proof.
  intros n L x Z D H. assert (K : forall k, (k <= n)%nat -> forall i, (n - k <= i < n)%nat -> x i = 0).
  { induction k as [|k IH]; intros Hk i I; [lia|]. destruct (Nat.eq_dec i (n - S k)) as [->|N]; [|apply IH; lia].
    pose proof (H (n - S k)%nat ltac:(lia)) as E. rewrite (so_one n 0 _ (n - S k)%nat) in E.
    - apply Rmult_integral in E. destruct E as [E|E]; [|exact E]. exfalso. apply (D (n - S k)%nat); [lia|exact E].
    - lia.
    - intros j J N. destruct (Nat.lt_ge_cases j (n - S k)) as [Q|Q]; [rewrite Z by lia; ring|rewrite (IH ltac:(lia) j) by lia; ring]. }
  intros i I. apply (K n); lia.
Qed.
Lemma lower_zero : forall n (L : nat -> nat -> R) x, (forall i j, (i < j)%nat -> (j < n)%nat -> L i j = 0) -> (forall i, (i < n)%nat -> L i i <> 0) ->
  (forall i, (i < n)%nat -> sum_over 0 n (fun m => L i m * x m) = 0) -> forall i, (i < n)%nat -> x i = 0.
Proof.
  intros n L x Z D H i. induction i as [i IH] using (well_founded_induction lt_wf). intro I.
  pose proof (H i I) as E. rewrite (so_one n 0 _ i) in E.
  - apply Rmult_integral in E. destruct E as [E|E]; [|exact E]. exfalso. now apply (D i).
  - lia.
  - intros j J N. destruct (Nat.lt_ge_cases j i) as [Q|Q]; [rewrite (IH j) by lia; ring|rewrite Z by lia; ring].
Qed.

(** ** Least squares *)
Section LS.
Variables (n N : nat) (G : nat -> nat -> R) (s : nat -> R).
Definition fit (x : nat -> R) (i : nat) : R := sum_over 0 n (fun a => x a * G a i).
Definition mis (x : nat -> R) : R := sum_over 0 N (fun i => (s i - fit x i) ^ 2).
Lemma met_sym : forall i j, met N G i j = met N G j i.
Proof. intros. unfold met. apply so_ext. intros. ring. Qed.
Lemma quad_met : forall x y, sum_over 0 n (fun a => sum_over 0 n (fun b => x a * y b * met N G a b)) = sum_over 0 N (fun i => fit x i * fit y i).
Proof.
  intros x y. rewrite (so_ext n 0 _ (fun a => sum_over 0 N (fun i => x a * G a i * fit y i))).
  2:{ intros a A. unfold fit, met. rewrite (so_ext n 0 _ (fun b => sum_over 0 N (fun i => x a * G a i * (y b * G b i)))).
      2:{ intros b B. rewrite <- so_scal. apply so_ext. intros. ring. }
      rewrite so_swap. apply so_ext. intros i I. now rewrite so_scal. }
  rewrite so_swap. apply so_ext. intros i I. rewrite so_scal_r. reflexivity.
Qed.
Lemma lin_prj : forall x, sum_over 0 n (fun a => x a * prj N G s a) = sum_over 0 N (fun i => fit x i * s i).
Proof.
  intros x. unfold prj, fit. rewrite (so_ext n 0 _ (fun a => sum_over 0 N (fun i => x a * G a i * s i))).
  2:{ intros a A. rewrite <- so_scal. apply so_ext. intros. ring. }
  rewrite so_swap. apply so_ext. intros i I. now rewrite so_scal_r.
Qed.
Lemma mis_expand : forall x, mis x = sum_over 0 N (fun i => s i * s i) - 2 * sum_over 0 n (fun a => x a * prj N G s a) + sum_over 0 n (fun a => sum_over 0 n (fun b => x a * x b * met N G a b)).
Proof.
  intro x. rewrite quad_met, lin_prj. unfold mis. rewrite <- so_scal, <- so_minus, <- so_plus. apply so_ext. intros. ring.
Qed.
Variable A : nat -> R.
Hypothesis normal : forall a, (a < n)%nat -> sum_over 0 n (fun b => met N G a b * A b) = prj N G s a.
Lemma quad_normal : forall x, sum_over 0 n (fun a => sum_over 0 n (fun b => x a * A b * met N G a b)) = sum_over 0 n (fun a => x a * prj N G s a).
Proof.
  intros x. apply so_ext. intros a Ha. rewrite <- normal by lia. rewrite <- so_scal. apply so_ext. intros. ring.
Qed.
Lemma mis_best : forall x, mis x = mis A + sum_over 0 N (fun i => fit (fun a => x a - A a) i ^ 2).
Proof.
  intro x. assert (Q : sum_over 0 N (fun i => fit (fun a => x a - A a) i ^ 2) = sum_over 0 N (fun i => fit x i * fit x i) - 2 * sum_over 0 N (fun i => fit x i * fit A i) + sum_over 0 N (fun i => fit A i * fit A i)).
  { rewrite <- so_scal, <- so_minus, <- so_plus. apply so_ext. intros i I.
    assert (E : fit (fun a => x a - A a) i = fit x i - fit A i) by (unfold fit; rewrite <- so_minus; apply so_ext; intros; ring). rewrite E. ring. }
  rewrite Q, <- !quad_met. rewrite !quad_normal. rewrite (mis_expand x), (mis_expand A). rewrite quad_normal. ring.
Qed.
Lemma mis_value : mis A = sum_over 0 N (fun i => s i * s i) - sum_over 0 n (fun a => A a * prj N G s a).
Proof. rewrite mis_expand, quad_normal. ring. Qed.
End LS.

(** ** All of metricAnalysis *)
Record analysed (G : mat) (s : list R) (r : analysis) : Prop := {
  z_metric : square (an_metric r) (rows G);
  z_metric_is : forall a b, (a < rows G)%nat -> (b < rows G)%nat -> entry (an_metric r) a b = sum_over 0 (cols G) (fun i => entry G a i * entry G b i);
  z_L : square (an_L r) (rows G);
  z_low : forall i j, (i < j)%nat -> (j < rows G)%nat -> entry (an_L r) i j = 0;
  z_pos : forall i, (i < rows G)%nat -> 0 < entry (an_L r) i i;
  z_factor : forall i j, (i < rows G)%nat -> (j < rows G)%nat -> product (rows G) (entry (an_L r)) (transpose (entry (an_L r))) i j = entry (an_metric r) i j;
  z_rdet : an_rdet r = prod_over (rows G) (fun i => entry (an_L r) i i);
  z_plen : length (an_proj r) = rows G;
  z_proj : forall a, (a < rows G)%nat -> nth a (an_proj r) 0 = sum_over 0 (cols G) (fun i => entry G a i * nth i s 0);
  z_alen : length (an_amps r) = rows G;
  z_normal : forall a, (a < rows G)%nat -> sum_over 0 (rows G) (fun b => entry (an_metric r) a b * nth b (an_amps r) 0) = nth a (an_proj r) 0;
  z_suf : an_suf r = sum_over 0 (rows G) (fun a => nth a (an_amps r) 0 * nth a (an_proj r) 0) }.

Lemma mrep_entry : forall n p F i j, mrep n p F -> (i < n)%nat -> (j < n)%nat -> entry (Mat n n p) i j = F i j.
Proof. intros n p F i j [_ H] I J. unfold entry. cbn [cols cells]. apply nth_rd. now apply H. Qed.
Lemma mrep_square : forall n p F, mrep n p F -> square (Mat n n p) n.
Proof. intros n p F [H _]. split; [reflexivity|]. split; [reflexivity|]. exact H. Qed.
Lemma vrep_nth : forall n p F i, vrep n p F -> (i < n)%nat -> nth i p 0 = F i.
Proof. intros n p F i [_ H] I. apply nth_rd. now apply H. Qed.
Lemma rd_entry : forall G a i, shaped G -> (a < rows G)%nat -> (i < cols G)%nat -> rd (cells G) (a * cols G + i) = Ok (entry G a i).
Proof. intros G a i S A I. unfold entry. apply rd_nth. rewrite S. nia. Qed.

Lemma not_stuck : forall n N (G : nat -> nat -> R), stuck n (met N G) -> exists x, (exists a, (a < n)%nat /\ x a <> 0) /\ forall i, (i < N)%nat -> sum_over 0 n (fun a => x a * G a i) = 0.
Proof.
  intros n N G H. destruct (stuck_direction n (met N G) (fun i j _ _ => met_sym N G i j) H) as [x [X Q]]. exists x. split; [exact X|]. intros i I.
  rewrite (quad_met n N G x x) in Q. apply (so_sq_zero N 0 (fit n G x) Q i). lia.
Qed.

Lemma analysis_is : forall G s, shaped G -> length s = cols G -> (exists r, metricAnalysis G s = Ok r /\ analysed G s r) \/ (metricAnalysis G s = Err ValueError /\ ~ independent G).
Proof.
  intros G s SH LS. unfold metricAnalysis. rewrite LS, Nat.eqb_refl. cbn [negb]. cbv zeta. set (n := rows G). set (N := cols G) in *.
  assert (HG : forall a i, (a < n)%nat -> (i < N)%nat -> rd (cells G) (a * N + i) = Ok (entry G a i)) by (intros; now apply rd_entry).
  assert (Hs : forall i, (i < N)%nat -> rd s i = Ok (nth i s 0)) by (intros; apply rd_nth; lia).
  destruct (metric_is (cells G) n N (entry G) HG) as [m [-> MM]].
  destruct (proj_is (cells G) s n N (entry G) (fun i => nth i s 0) HG Hs) as [p [-> PP]].
  set (M := met N (entry G)) in *. assert (SY : forall i j, (i < n)%nat -> (j < n)%nat -> M i j = M j i) by (intros; apply met_sym).
  destruct (cholesky_is n M m MM) as [[cf [diag [rdet [F [d [-> [MF [DR [DN RD]]]]]]]]]|[-> ST]].
  2:{ right. split; [reflexivity|]. intro I. destruct (not_stuck n N (entry G) ST) as [x [[a [A X]] Z]]. apply X. apply I; assumption. }
  left. destruct (tidy_is n cf diag F d MF DR) as [cf' [-> ML]]. set (L := low F d) in *.
  assert (LZ : forall i j, (i < j)%nat -> (j < n)%nat -> L i j = 0) by (intros; unfold L; now apply low_gt).
  assert (LP : forall i, (i < n)%nat -> 0 < L i i) by (intros i I; unfold L; rewrite low_eq; now apply (d_pos n M n F d DN)).
  assert (LD : forall i, (i < n)%nat -> L i i <> 0) by (intros i I; pose proof (LP i I); lra).
  assert (V0 : vrep n (repeat 0 n) (fun _ => 0)) by (split; [apply repeat_length|intros; now apply rd_repeat]).
  destruct (forward_is n L cf' ML LZ LD p (prj N (entry G) (fun i => nth i s 0)) (repeat 0 n) _ PP V0) as [ad [y [-> [Y HY]]]].
  destruct (backward_is n L cf' ML LZ LD ad y Y) as [ad' [x [-> [X HX]]]].
  rewrite (add_loop n 0 ad' p (fun a => a) (fun a => a) x (prj N (entry G) (fun i => nth i s 0))) by (intros i I; split; [apply X|apply PP]; lia).
  eexists. split; [reflexivity|].
  assert (FA : forall i j, (i < n)%nat -> (j < n)%nat -> sum_over 0 n (fun k => L i k * L j k) = M i j) by (intros; unfold L; now apply factor).
  constructor; cbn [an_metric an_L an_rdet an_proj an_amps an_suf]; fold n N.
  - exact (mrep_square n m M MM).
  - intros a b A B. now rewrite (mrep_entry n m M).
  - exact (mrep_square n cf' L ML).
  - intros i j I J. rewrite (mrep_entry n cf' L) by (try assumption; lia). now apply LZ.
  - intros i I. rewrite (mrep_entry n cf' L) by assumption. now apply LP.
  - intros i j I J. rewrite (mrep_entry n m M) by assumption. unfold product, transpose. rewrite <- FA by assumption. apply so_ext. intros k K. rewrite !(mrep_entry n cf' L) by (try assumption; lia). reflexivity.
  - rewrite RD. apply prod_ext. intros i I. rewrite (mrep_entry n cf' L) by assumption. unfold L. now rewrite low_eq.
  - apply PP.
  - intros a A. now rewrite (vrep_nth n p _ a PP).
  - apply X.
  - intros a A. rewrite (vrep_nth n p _ a PP A). rewrite <- HY by exact A.
    rewrite (so_ext n 0 _ (fun b => sum_over 0 n (fun k => L a k * (L b k * x b)))).
    2:{ intros b B. rewrite (mrep_entry n m M), (vrep_nth n ad' x) by (try assumption; lia). rewrite <- FA by (try assumption; lia). rewrite <- so_scal_r. apply so_ext. intros. ring. }
    rewrite so_swap. apply so_ext. intros k K. rewrite so_scal, HX by lia. reflexivity.
  - rewrite Rplus_0_l. apply so_ext. intros a A. now rewrite (vrep_nth n p _ a PP), (vrep_nth n ad' x a X) by lia.
Qed.

Lemma analysed_independent : forall G s r, analysed G s r -> independent G.
Proof.
  intros G s r Z x H. set (n := rows G). set (N := cols G).
  apply (upper_zero n (entry (an_L r)) x (z_low G s r Z)); [intros i I; pose proof (z_pos G s r Z i I); lra|].
  assert (Q : sum_over 0 n (fun k => sum_over 0 n (fun m => entry (an_L r) m k * x m) * sum_over 0 n (fun m => entry (an_L r) m k * x m)) <= 0).
  { pose proof (quad_met n N (entry G) x x) as E. assert (E0 : sum_over 0 N (fun i => fit n (entry G) x i * fit n (entry G) x i) = 0) by (apply so_zero; intros i I; unfold fit; fold n in H; rewrite H by (unfold N in I; lia); ring).
    rewrite E0 in E. right. rewrite <- E.
    rewrite (so_ext n 0 (fun a => sum_over 0 n (fun b => x a * x b * met N (entry G) a b)) (fun a => sum_over 0 n (fun k => entry (an_L r) a k * x a * sum_over 0 n (fun m => entry (an_L r) m k * x m)))).
    - rewrite so_swap. apply so_ext. intros k K. now rewrite so_scal_r.
    - intros a A. rewrite (so_ext n 0 _ (fun b => sum_over 0 n (fun k => entry (an_L r) a k * x a * (entry (an_L r) b k * x b)))).
      + rewrite so_swap. apply so_ext. intros k K. now rewrite so_scal.
      + intros b B. unfold met. unfold N. rewrite <- (z_metric_is G s r Z a b) by (unfold n in *; lia). rewrite <- (z_factor G s r Z a b) by (unfold n in *; lia).
        unfold product, transpose. fold n. rewrite <- so_scal. apply so_ext. intros. ring. }
  intros i I. apply (so_sq_zero n 0 _ Q i). lia.
Qed.

Lemma analysis_ok : forall G s, shaped G -> length s = cols G -> independent G -> exists r, metricAnalysis G s = Ok r /\ analysed G s r.
Proof. intros G s SH LS I. destruct (analysis_is G s SH LS) as [H|[_ H]]; [exact H|contradiction]. Qed.
Lemma analysis_rejects : forall G s, shaped G -> length s = cols G -> ~ independent G -> metricAnalysis G s = Err ValueError.
Proof. intros G s SH LS I. destruct (analysis_is G s SH LS) as [[r [_ H]]|[H _]]; [|exact H]. exfalso. apply I. exact (analysed_independent G s r H). Qed.
Lemma analysis_shape : forall G s, length s <> cols G -> metricAnalysis G s = Err ValueError.
Proof. intros G s H. unfold metricAnalysis. rewrite (proj2 (Nat.eqb_neq (cols G) (length s))) by congruence. reflexivity. Qed.
Lemma analysis_analysed : forall G s r, shaped G -> metricAnalysis G s = Ok r -> length s = cols G /\ analysed G s r.
Proof.
  intros G s r SH H. destruct (Nat.eq_dec (length s) (cols G)) as [E|E]; [|rewrite analysis_shape in H by exact E; discriminate].
  split; [exact E|]. destruct (analysis_is G s SH E) as [[r' [H' A]]|[H' _]]; rewrite H in H'; [congruence|discriminate].
Qed.
Lemma rdet_pos : forall G s r, analysed G s r -> 0 < an_rdet r.
Proof. intros G s r Z. rewrite (z_rdet G s r Z). apply prod_pos. intros i I. now apply (z_pos G s r Z). Qed.

(** The minimum *)
Lemma misfit_min : forall G s r, analysed G s r -> let A := fun a => nth a (an_amps r) 0 in
  misfit G s A = sum_over 0 (cols G) (fun i => nth i s 0 ^ 2) - an_suf r /\
  (forall x, misfit G s A <= misfit G s x) /\
  (forall x, misfit G s x = misfit G s A -> forall a, (a < rows G)%nat -> x a = A a).
Proof.
  intros G s r Z A. set (n := rows G). set (N := cols G).
  assert (NE : forall a, (a < n)%nat -> sum_over 0 n (fun b => met N (entry G) a b * A b) = prj N (entry G) (fun i => nth i s 0) a).
  { intros a Ha. unfold prj. unfold N. rewrite <- (z_proj G s r Z a Ha). rewrite <- (z_normal G s r Z a Ha). apply so_ext. intros b B. rewrite (z_metric_is G s r Z a b) by (unfold n in *; lia). reflexivity. }
  assert (ME : forall x, misfit G s x = mis n N (entry G) (fun i => nth i s 0) x) by reflexivity.
  assert (BEST : forall x, misfit G s x = misfit G s A + sum_over 0 N (fun i => fit n (entry G) (fun a => x a - A a) i ^ 2)) by (intro x; rewrite !ME; now apply mis_best).
  split; [|split].
  - rewrite ME. rewrite mis_value by exact NE. rewrite (z_suf G s r Z). f_equal; [apply so_ext; intros; ring|]. apply so_ext. intros a Ha. unfold A. f_equal. rewrite (z_proj G s r Z a) by lia. reflexivity.
  - intro x. rewrite (BEST x). assert (0 <= sum_over 0 N (fun i => fit n (entry G) (fun a => x a - A a) i ^ 2)) by (apply so_nonneg; intros; apply pow2_ge_0). lra.
  - intros x E a Ha. rewrite (BEST x) in E. assert (Q : sum_over 0 N (fun i => fit n (entry G) (fun a => x a - A a) i * fit n (entry G) (fun a => x a - A a) i) <= 0).
    { right. rewrite (so_ext N 0 _ (fun i => fit n (entry G) (fun a => x a - A a) i ^ 2)) by (intros; ring). lra. }
    pose proof (analysed_independent G s r Z (fun a => x a - A a)) as I. assert (x a - A a = 0); [|lra]. apply I; [|exact Ha]. intros i Hi. apply (so_sq_zero N 0 _ Q i). unfold N. lia.
Qed.
