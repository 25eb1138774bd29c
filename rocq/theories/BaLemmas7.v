From Coq Require Import List Bool Arith Reals Lia Lra Psatz.
From Verif Require Import Exn Instances McModel CountSpec CountLemmas BaModel BaSpec BaLemmas BaLemmas2 BaLemmas3 BaLemmas4 BaLemmas5 BaLemmas6.
Import ListNotations.
Open Scope R_scope.

(** The covariance of the factor that the analysis returns inverts its metric. *)
Lemma covar_analysed : forall G s r, analysed G s r -> exists C, covar (an_L r) = Ok C /\ square C (rows G) /\
  (forall a b, (a < rows G)%nat -> (b < rows G)%nat -> entry C a b = entry C b a) /\
  forall a b, (a < rows G)%nat -> (b < rows G)%nat ->
    product (rows G) (fun a b => sum_over 0 (cols G) (fun i => entry G a i * entry G b i)) (entry C) a b = identity a b /\
    product (rows G) (entry C) (fun a b => sum_over 0 (cols G) (fun i => entry G a i * entry G b i)) a b = identity a b.
Proof.
  intros G s r Z. destruct (covar_is (an_L r) (rows G) (z_L _ _ _ Z)) as [C [E [SQ [SY H]]]]; [intros i I; pose proof (z_pos _ _ _ Z i I); lra|].
  exists C. split; [exact E|]. split; [exact SQ|]. split; [exact SY|].
  assert (LE : forall i j, (i < rows G)%nat -> (j < rows G)%nat -> lower (entry (an_L r)) i j = entry (an_L r) i j).
  { intros i j I J. destruct (Nat.le_gt_cases j i) as [Q|Q]; [now apply lower_le|]. rewrite lower_gt by exact Q. now rewrite (z_low _ _ _ Z). }
  assert (ME : forall a b, (a < rows G)%nat -> (b < rows G)%nat -> product (rows G) (lower (entry (an_L r))) (transpose (lower (entry (an_L r)))) a b = sum_over 0 (cols G) (fun i => entry G a i * entry G b i)).
  { intros a b A B. rewrite <- (z_metric_is _ _ _ Z a b A B), <- (z_factor _ _ _ Z a b A B). apply product_ext; intros k K; unfold transpose; now apply LE. }
  intros a b A B. destruct (H a b A B) as [H1 H2]. split.
  - rewrite <- H1. apply product_ext; intros k K; [now rewrite ME|reflexivity].
  - rewrite <- H2. apply product_ext; intros k K; [reflexivity|now rewrite ME].
Qed.

Lemma covar_after_marg : forall U basis data ncol sigma setup o0 cs p G, new_ba U basis data ncol sigma setup = Ok o0 -> design basis setup data sigma p G -> independent G ->
  exists C, snd (ba_covar true U (fst (marg_stats true U p (after_calls cs o0)))) = Ok C /\ square C (rows G) /\
  (forall a b, (a < rows G)%nat -> (b < rows G)%nat -> entry C a b = entry C b a) /\
  forall a b, (a < rows G)%nat -> (b < rows G)%nat ->
    product (rows G) (fun a b => sum_over 0 (cols G) (fun i => entry G a i * entry G b i)) (entry C) a b = identity a b /\
    product (rows G) (entry C) (fun a b => sum_over 0 (cols G) (fun i => entry G a i * entry G b i)) a b = identity a b.
Proof.
  intros U basis data ncol sigma setup o0 cs p G made DG IN. destruct (new_ba_good U basis data ncol sigma setup o0 made) as [LS [GD SY]]. pose proof (design_mat U basis data ncol sigma setup o0 made p G DG) as MA.
  destruct (made_is U basis data ncol sigma setup o0 made) as [sigs [EO _]]. assert (ST : ba_std U o0 = std_of sigma data) by now rewrite EO. destruct DG as [RG [CG [SG _]]].
  destruct (analysis_ok G (std_of sigma data) SG ltac:(now rewrite std_len, CG) IN) as [r [ER AN]].
  assert (AT : ba_at U o0 p = Ok r) by (unfold ba_at, res_at; rewrite MA, ST; exact ER).
  destruct (marg_is U o0 LS p _ (calls_good U o0 LS cs o0 GD)) as [o1 [_ H]]. rewrite AT in H. destruct H as [-> [K _]]. cbn [fst]. destruct K as [K1 [_ [_ [_ K5]]]]. unfold ba_covar. rewrite K1, K5. cbn [snd].
  exact (covar_analysed G _ r AN).
Qed.
Lemma covar_before : forall U basis data ncol sigma setup o0, new_ba U basis data ncol sigma setup = Ok o0 -> snd (ba_covar true U o0) = Err ValueError.
Proof. intros U basis data ncol sigma setup o0 H. destruct (made_is U basis data ncol sigma setup o0 H) as [sigs [-> _]]. reflexivity. Qed.

