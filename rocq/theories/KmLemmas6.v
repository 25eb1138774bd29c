(** Lemmas on PLEST1 as a whole, and on what KMADJ makes of its results *)

From Coq Require Import List Bool Arith ZArith Reals Lra Lia Permutation.
From Verif Require Import Exn Instances McModel BaModel KmModel KmSpec KmLemmas KmLemmas2 KmLemmas3 KmLemmas4 KmLemmas5.
Import ListNotations.
Open Scope R_scope.

Lemma map_same (f : nat -> R) x a n : (forall k, (a <= k < a + n)%nat -> f k = x) -> map f (seq a n) = repeat x n.
Proof.
  revert a. induction n as [|n IH]; intros a H; [easy|]. cbn [seq map repeat]. f_equal; [apply H; lia|]. apply IH. intros k Hk. apply H. lia.
Qed.

Lemma topmost_true found limits t : topmost found limits t = true <-> forall y, In y (data found limits) -> y <= t.
Proof. unfold topmost. rewrite forallb_forall. split; intros H y Hy; apply Rle_b_true; now apply H. Qed.

Lemma plest_ok found limits fuel ntot u c nu nc s v w :
  (1 <= nu)%nat -> (nu + nc <= ntot)%nat -> incr u nu -> incr c nc ->
  Permutation found (map u (seq 1 nu)) -> Permutation limits (map c (seq 1 nc)) ->
  (nu + nc < w)%nat -> (forall y, In y (data found limits) -> y < u w) -> (w + 2 <= fuel)%nat ->
  (length (events found limits) = 1%nat -> u 2%nat <> u 1%nat) ->
  let t := length (filter (topmost found limits) limits) in
  exists e, plest1 fuel ntot u c nu nc s v = Ok e /\ (t <= nc)%nat /\
    e_nu e = (nu + t)%nat /\ e_nc e = (nc - t)%nat /\ e_nchange e = t /\
    Permutation (events found limits) (map (e_u e) (seq 1 (nu + t))) /\
    Permutation (data found limits) (map (e_u e) (seq 1 (nu + t)) ++ map c (seq 1 (nc - t))) /\
    incr (e_u e) (nu + t) /\ (forall k, (1 <= k <= nc - t)%nat -> c k < e_u e (nu + t)%nat) /\
    (forall k, (nu + t < k)%nat -> e_u e k = u k) /\ (forall k, (k <= nu)%nat -> e_u e k = u k) /\
    (forall i, (1 <= i <= nu + t)%nat -> e_s e i = Q (e_u e) c (nu + t) (nc - t) i /\
       e_v e i = Q (e_u e) c (nu + t) (nc - t) i * sqrt (G (e_u e) c (nu + t) (nc - t) i)) /\
    e_mean e = mean found limits /\ e_sigma e = sqrt (mean_var found limits).
Proof.
  intros Hnu Hn Hu Hc Pf Pl Hw Hwu Hfu Hone t0.
  destruct (change_ok ntot c nc u nu 0 Hnu Hn Hc) as (u' & t & P & T & A & B & C & D & F).
  assert (IND : forall y, In y (data found limits) <-> (exists k, (1 <= k <= nu)%nat /\ u k = y) \/ (exists k, (1 <= k <= nc)%nat /\ c k = y)).
  { intros y. unfold data. rewrite in_app_iff.
    assert (G1 : forall m n, In y (map m (seq 1 n)) <-> exists k, (1 <= k <= n)%nat /\ m k = y).
    { intros m n. rewrite in_map_iff. split; intros [k [K1 K2]]; exists k; [apply in_seq in K2; split; [lia | easy] | split; [easy | apply in_seq; lia]]. }
    rewrite <- !G1. split; intros [H|H].
    - left. now apply (Permutation_in _ Pf).
    - right. now apply (Permutation_in _ Pl).
    - left. now apply (Permutation_in _ (Permutation_sym Pf)).
    - right. now apply (Permutation_in _ (Permutation_sym Pl)). }
  assert (U' : incr u' (nu + t)).
  { intros i j Hi Hj. destruct (le_lt_dec i nu) as [L1|L1], (le_lt_dec j nu) as [L2|L2]; try lia.
    - rewrite !A by lia. apply Hu; lia.
    - rewrite (A i) by lia. replace j with (nu + (j - nu))%nat by lia. destruct (B (j - nu)%nat ltac:(lia)) as [B1 _]. rewrite B1.
      specialize (C ltac:(lia)). assert (X := Hu i nu ltac:(lia) ltac:(lia)). lra.
    - replace i with (nu + (i - nu))%nat by lia. replace j with (nu + (j - nu))%nat by lia.
      destruct (B (j - nu)%nat ltac:(lia)) as [B1 _]. destruct (B (i - nu)%nat ltac:(lia)) as [B2 _]. rewrite B1, B2. lra. }
  assert (TOPD : In (u' (nu + t)%nat) (data found limits)).
  { apply IND. destruct (Nat.eq_dec t 0) as [E|N].
    - left. exists nu. rewrite E, Nat.add_0_r, A by lia. split; [lia | easy].
    - right. exists nc. destruct (B t ltac:(lia)) as [B1 _]. rewrite B1. split; [lia | easy]. }
  assert (SEQ : seq 1 nc = seq 1 (nc - t) ++ seq (1 + (nc - t)) t) by (rewrite <- seq_app; f_equal; lia).
  assert (M : map u' (seq (1 + nu) t) = map c (seq (1 + (nc - t)) t)).
  { rewrite (map_same u' (c nc)), (map_same c (c nc)); [easy | |].
    - intros k Hk. destruct (B (nc + 1 - k)%nat ltac:(lia)) as [_ B1]. rewrite <- B1. f_equal. lia.
    - intros k Hk. destruct (B (k - nu)%nat ltac:(lia)) as [B1 _]. rewrite <- B1. f_equal. lia. }
  assert (UU : map u' (seq 1 (nu + t)) = map u (seq 1 nu) ++ map c (seq (1 + (nc - t)) t)).
  { rewrite seq_app, map_app, M. f_equal. apply map_ext_in. intros k Hk. apply in_seq in Hk. apply A. lia. }
  assert (FT : filter (topmost found limits) (map c (seq 1 nc)) = map c (seq (1 + (nc - t)) t)).
  { rewrite SEQ, map_app, filter_app.
    replace (filter (topmost found limits) (map c (seq 1 (nc - t)))) with (@nil R).
    - cbn [app]. assert (G1 : forall l, (forall y, In y l -> topmost found limits y = true) -> filter (topmost found limits) l = l).
      { induction l as [|y l IH]; intros H; [easy|]. cbn [filter]. rewrite (H y (or_introl eq_refl)), IH; [easy|]. intros z Hz. apply H. now right. }
      apply G1. intros y Hy. apply in_map_iff in Hy. destruct Hy as [k [<- Hk]]. apply in_seq in Hk. apply topmost_true.
      destruct (B (nc + 1 - k)%nat ltac:(lia)) as [_ B1]. replace (nc + 1 - (nc + 1 - k))%nat with k in B1 by lia. rewrite B1.
      intros y Hy. apply IND in Hy. destruct Hy as [[j [Hj <-]]|[j [Hj <-]]].
      + assert (X := Hu j nu ltac:(lia) ltac:(lia)). specialize (C ltac:(lia)). lra.
      + apply Hc; lia.
    - assert (G1 : forall l, (forall y, In y l -> topmost found limits y = false) -> filter (topmost found limits) l = []).
      { induction l as [|y l IH]; intros H; [easy|]. cbn [filter]. rewrite (H y (or_introl eq_refl)), IH; [easy|]. intros z Hz. apply H. now right. }
      symmetry. apply G1. intros y Hy. apply in_map_iff in Hy. destruct Hy as [k [<- Hk]]. apply in_seq in Hk.
      destruct (topmost found limits (c k)) eqn:E; [|easy]. rewrite topmost_true in E. specialize (E _ TOPD). specialize (D k ltac:(lia)). lra. }
  assert (FP := filter_perm _ (topmost found limits) _ _ Pl). rewrite FT in FP.
  assert (T0 : t0 = t). { unfold t0. rewrite (Permutation_length FP), map_length, seq_length. easy. }
  assert (EV : Permutation (events found limits) (map u' (seq 1 (nu + t)))).
  { rewrite UU. unfold events. now apply Permutation_app. }
  assert (DA : Permutation (data found limits) (map u' (seq 1 (nu + t)) ++ map c (seq 1 (nc - t)))).
  { rewrite UU. unfold data. rewrite <- app_assoc. apply Permutation_app; [easy|]. rewrite Pl, SEQ, map_app. apply Permutation_app_comm. }
  assert (HW : u' w = u w) by (apply F; lia).
  assert (HL : u' (nu + t)%nat < u' w) by (rewrite HW; now apply Hwu).
  assert (LEN : length (events found limits) = (nu + t)%nat) by (rewrite (Permutation_length EV), map_length, seq_length; easy).
  assert (H1 : (nu + t)%nat = 1%nat -> u' 2%nat <> u' 1%nat).
  { intros E. rewrite (F 2%nat) by lia. rewrite (A 1%nat) by lia. apply Hone. lia. }
  assert (Hc' : incr c (nc - t)) by (intros i j Hi Hj; apply Hc; lia).
  assert (D' : forall k, (1 <= k <= nc - t)%nat -> c k < u' (nu + t)%nat) by exact D.
  clearbody t0. subst t0.
  unfold plest1. replace (nu =? 0)%nat with false by (symmetry; apply Nat.eqb_neq; lia). rewrite P. cbn [Nat.add].
  assert (CV := curve_ok u' c (nu + t) (nc - t) ltac:(lia) U' Hc' s v). cbv zeta in CV.
  set (cv := pl_curve _ _ _ s v) in *. clearbody cv.
  destruct (plest_rest found limits u' c (nu + t) (nc - t) ltac:(lia) EV DA U' Hc' D' (p_s cv) (fun i Hi => proj1 (CV i Hi)) w ltac:(lia) HL H1 fuel ltac:(lia)) as [R1 R2].
  rewrite R1, R2. eexists. split; [reflexivity|]. cbn [e_u e_nu e_nc e_nchange e_s e_v e_mean e_sigma].
  repeat (split; [first [easy | lia | exact EV | exact DA | exact U' | exact D' | exact F | exact A | exact CV]|]). easy.
Qed.

(** What KMADJ makes *)
Section Adjust.
Variables found limits : list R.
Variables u c : mem.
Variables nu nc : nat.
Hypothesis Hnu : (1 <= nu)%nat.
Hypothesis Hev : Permutation (events found limits) (map u (seq 1 nu)).
Hypothesis Hdat : Permutation (data found limits) (map u (seq 1 nu) ++ map c (seq 1 nc)).
Hypothesis Hu : incr u nu.
Hypothesis Hlast : forall k, (1 <= k <= nc)%nat -> c k < u nu.
Hypothesis Hone : nu = 1%nat -> u 2%nat <> u 1%nat.
Variables s v : mem.
Hypothesis Hs : forall i, (1 <= i <= nu)%nat -> s i = Q u c nu nc i.
Hypothesis Hv : forall i, (1 <= i <= nu)%nat -> v i = Q u c nu nc i * sqrt (G u c nu nc i).
Let pts := points found limits.
Let QQ := Q u c nu nc.

Definition good_up (z a b : R) : Prop := a = survival found limits z /\ b = greenwood found limits z.
Definition good_down (z a b : R) : Prop := a = below found limits (- z) /\ b = greenwood_before found limits (- z).

Lemma adj_up zc ic : exists a, kmadj u zc nu ic s v 1 = Ok (a, zc) /\ neat good_up (fun t => In t pts) a (a_iu a).
Proof.
  unfold kmadj. cbn [Z.ltb Z.compare].
  destruct (unique_ok good_up (fun t => In t pts) (2 * nu + 2) 1 (Adj u nu s v)) as (a & E & N); cbn [a_iu a_zu]; try lia; try easy.
  - split; [easy|]. cbn [a_iu a_zu a_s a_v]. split; [|split; [|split]].
    + intros i Hi. apply Hu; lia.
    + intros i Hi. lia.
    + intros i Hi Fi. rewrite Hs, Hv by easy. split.
      * apply (Q_final found limits u c nu nc Hnu Hev Hdat Hu i Hi). exact Fi.
      * symmetry. apply (greenwood_final found limits u c nu nc Hnu Hev Hdat Hu Hlast i Hi). exact Fi.
    + intros t. apply (pts_in found limits u nu Hnu Hev).
  - exists a. rewrite E. easy.
Qed.

Lemma psum_one m : psum u c nu nc (fun _ => 1) m = 1 - QQ m.
Proof. induction m as [|m IH]; [unfold psum, total, QQ; cbn; lra|]. rewrite psum_S, IH. unfold QQ. lra. Qed.
Lemma total_ext (A : Type) (f g : A -> R) l : (forall x, f x = g x) -> total (map f l) = total (map g l).
Proof. intros H. f_equal. apply map_ext. exact H. Qed.

Lemma above_ok m i : (1 <= i <= nu)%nat -> above nu m (turn_f nu (jumps s)) i = 1 - QQ (nu - i).
Proof.
  intros Hi. unfold above. replace ((1 <=? i) && (i <=? nu))%nat with true by (symmetry; apply andb_true_iff; split; apply Nat.leb_le; lia).
  assert (J : forall k, (1 <= k <= nu)%nat -> jumps s k = QQ (k - 1) - QQ k).
  { intros k Hk. unfold jumps. destruct (Nat.eqb_spec k 1) as [->|N]; [rewrite Hs by lia; easy|]. rewrite !Hs by lia. easy. }
  assert (X : forall i, (i <= nu)%nat -> fold_left (fun a j => a - turn_f nu (jumps s) j) (seq 1 i) 1 = 1 - QQ (nu - i)).
  { induction i0 as [|k IH]; intros Hk.
    - cbn [seq fold_left]. rewrite Nat.sub_0_r. unfold QQ. rewrite (Q_last u c nu nc Hnu Hlast). lra.
    - rewrite seq_S, fold_left_app. cbn [fold_left]. rewrite IH by lia. rewrite turn_f_ok, J by lia.
      replace (nu + 1 - (1 + k))%nat with (nu - k)%nat by lia. replace (nu - k - 1)%nat with (nu - S k)%nat by lia. lra. }
  apply X. lia.
Qed.

Lemma adj_down zc ic : (nu = 1%nat -> u 2%nat <> - u 1%nat) ->
  exists a, kmadj u zc nu ic s v (-1) = Ok (a, turn ic zc) /\ neat good_down (fun t => In t (map Ropp pts)) a (a_iu a).
Proof.
  intros Hneg. unfold kmadj. cbn [Z.ltb Z.compare].
  destruct (unique_ok good_down (fun t => In t (map Ropp pts)) (2 * nu + 2) 1 (Adj (turn nu u) nu (above nu s (turn_f nu (jumps s))) (turn_v nu v))) as (a & E & N); cbn [a_iu a_zu]; try lia.
  - intros E1. rewrite turn_beyond, turn_ok by lia. assert (X := Hneg E1). rewrite E1. exact X.
  - split; [easy|]. cbn [a_iu a_zu a_s a_v]. split; [|split; [|split]].
    + intros i Hi. rewrite !turn_ok by lia. assert (X := Hu (nu + 1 - (i + 1))%nat (nu + 1 - i)%nat ltac:(lia) ltac:(lia)). lra.
    + intros i Hi. lia.
    + intros i Hi Fi. rewrite (turn_ok nu u i Hi) in *. rewrite above_ok by easy. unfold good_down. rewrite Ropp_involutive.
      destruct (Nat.eq_dec i nu) as [->|Ni].
      * replace (nu + 1 - nu)%nat with 1%nat by lia. rewrite Nat.sub_diag, turn_v_last by easy. rewrite Hv by lia.
        rewrite (Q_last u c nu nc Hnu Hlast).
        unfold below, greenwood_before, survival_before. fold pts. unfold pts. rewrite (first_none found limits u nu Hnu Hev Hu).
        unfold total, product, QQ. cbn [map fold_right Q]. rewrite sqrt_0. lra.
      * destruct Fi as [Fi|Fi]; [lia|]. rewrite (turn_ok nu u (i + 1)) in Fi by lia.
        replace (nu + 1 - (i + 1))%nat with (nu - i)%nat in Fi by lia. replace (nu + 1 - i)%nat with (nu - i + 1)%nat in * by lia.
        assert (L : u (nu - i)%nat < u (nu - i + 1)%nat) by lra.
        assert (B : (1 <= nu - i < nu)%nat) by lia. split.
        -- rewrite <- psum_one. rewrite (psum_some found limits u c nu nc Hnu Hev Hdat Hu _ (nu - i) B L).
           apply total_ext. intros x. lra.
        -- rewrite turn_v_ok, Hv by lia.
           rewrite <- (greenwood_final found limits u c nu nc Hnu Hev Hdat Hu Hlast (nu - i) ltac:(lia) (or_intror L)).
           unfold greenwood, greenwood_before. rewrite (before_next found limits u nu Hnu Hev Hu (nu - i) B L).
           f_equal. f_equal. f_equal. f_equal. fold pts. apply filter_ext_in. intros x Hx.
           destruct (Rle_b x (u (nu - i)%nat)) eqn:E1, (Rlt_b x (u (nu - i + 1)%nat)) eqn:E2; try easy.
           ++ apply Rle_b_true in E1. enough (Rlt_b x (u (nu - i + 1)%nat) = true) by congruence. apply Rlt_b_true. lra.
           ++ apply Rlt_b_true in E2. enough (Rle_b x (u (nu - i)%nat) = true) by congruence. apply Rle_b_true.
              apply (pts_in found limits u nu Hnu Hev) in Hx. destruct Hx as [k [Hk <-]].
              destruct (le_lt_dec k (nu - i)) as [K|K]; [apply Hu; lia|]. assert (X := Hu (nu - i + 1)%nat k ltac:(lia) ltac:(lia)). lra.
    + intros t. rewrite in_map_iff. split.
      * intros [x [<- Hx]]. apply (pts_in found limits u nu Hnu Hev) in Hx. destruct Hx as [k [Hk <-]]. exists (nu + 1 - k)%nat. split; [lia|].
        rewrite turn_ok by lia. f_equal. f_equal. lia.
      * intros [k [Hk <-]]. rewrite turn_ok by easy. exists (u (nu + 1 - k)%nat). split; [easy|]. apply (pts_in found limits u nu Hnu Hev).
        exists (nu + 1 - k)%nat. split; [lia | easy].
  - exists a. rewrite E. easy.
Qed.
End Adjust.
