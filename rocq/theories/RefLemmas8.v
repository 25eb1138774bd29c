(** Integrals over refined grids, and the parameters of peaks. *)

From Coq Require Import ZArith List Bool Arith Reals Sorted Lra Lia.
From Verif Require Import Exn Instances RefModel RefSpec RefLemmas RefLemmas2 RefLemmas3 RefLemmas4 RefLemmas5 RefLemmas6 RefLemmas7.
Import ListNotations.
Local Open Scope R_scope.

Lemma gpoints_pbl : forall lin a, (2 <= i_n a)%Z -> (lin = false -> 0 < i_lo a) -> i_lo a < i_hi a ->
  gpoints lin (i_lo a) (i_hi a) (i_n a) = points_but_last lin a ++ [i_hi a].
Proof.
  intros lin a Hn H0 H. unfold gpoints, points_but_last. replace (Z.to_nat (i_n a)) with (S (Z.to_nat (i_n a) - 1)) at 1 by lia.
  rewrite seq_S, map_app. cbn [map Nat.add]. do 2 f_equal. replace (Z.of_nat (Z.to_nat (i_n a) - 1)) with (i_n a - 1)%Z by lia.
  now apply spaced_last.
Qed.

Lemma points_cons : forall lin a l hi, all_points lin hi (a :: l) = points_but_last lin a ++ all_points lin hi l.
Proof. intros. unfold all_points. cbn [flat_map]. now rewrite app_assoc. Qed.

Lemma points_head : forall lin l lo hi, tiling lo hi l -> (lin = false -> 0 < lo) -> exists r, all_points lin hi l = lo :: r.
Proof.
  intros lin l lo hi T H0. destruct (points_facts lin l lo hi T H0) as (_ & _ & _ & E).
  destruct (all_points lin hi l) as [|x r]; [discriminate|]. cbn in E. inversion E. eauto.
Qed.

Lemma points_split : forall f lin a l hi, tiling (i_lo a) hi (a :: l) -> (lin = false -> 0 < i_lo a) ->
  trapezoid f (all_points lin hi (a :: l)) = trapezoid f (gpoints lin (i_lo a) (i_hi a) (i_n a)) + trapezoid f (all_points lin hi l).
Proof.
  intros f lin a l hi T H0. cbn in T. destruct T as (_ & T2 & T3 & T4). rewrite points_cons.
  destruct (points_head lin l (i_hi a) hi T4) as (r & ->). { intros L. specialize (H0 L). lra. }
  rewrite gpoints_pbl by auto. apply trap_split.
Qed.

Lemma points_last : forall lin l hi, last (all_points lin hi l) 0 = hi.
Proof. intros. unfold all_points. apply last_last. Qed.

Lemma trapzd_sum_ok : forall f ivs gs lo hi acc, tiling lo hi ivs -> Forall2 (matches f) ivs gs ->
  trapzd_sum acc gs = Ok (acc + trapezoid f (all_points true hi ivs)).
Proof.
  intros f. induction ivs as [|a ivs IH]; intros gs lo hi acc T F; inversion F as [|? g ? gs1 [M _] F1]; subst; cbn [trapzd_sum].
  - cbn. f_equal. lra.
  - pose proof T as T0. cbn in T. destruct T as (T1 & T2 & T3 & T4). subst lo. rewrite (trapzd_holds _ _ _ _ _ _ T3 M).
    rewrite (IH gs1 _ _ _ T4 F1). rewrite points_split by (auto; discriminate). f_equal. lra.
Qed.

Lemma log_add : forall a t, let '(t', l') := if Rltb a t then (a, t) else (t, a) in
  exp (l' + ln (1 + exp (t' - l'))) = exp a + exp t.
Proof.
  assert (forall l t, exp (l + ln (1 + exp (t - l))) = exp l + exp t) as H.
  { intros l t. rewrite exp_plus, exp_ln by (pose proof (exp_pos (t - l)); lra). rewrite Rmult_plus_distr_l, <- exp_plus, Rmult_1_r.
    do 2 f_equal. lra. }
  intros a t. destruct (Rltb a t); rewrite H; lra.
Qed.

(** The sum of the clipped trapezoids of the grids. *)
Inductive clipped (f : R -> R) (top : R) : list ival -> R -> Prop :=
| clipped_nil : clipped f top [] 0
| clipped_cons : forall a l M t, M <= top -> (exists x, In x (gpoints true (i_lo a) (i_hi a) (i_n a)) /\ f x = M) -> clipped f top l t ->
    clipped f top (a :: l) (trapezoid (floor_exp M f) (gpoints true (i_lo a) (i_hi a) (i_n a)) + t).

Lemma gpoints_sub : forall a l hi lo x, tiling lo hi (a :: l) -> In x (gpoints true (i_lo a) (i_hi a) (i_n a)) -> In x (all_points true hi (a :: l)).
Proof.
  intros a l hi lo x T H. cbn in T. destruct T as (T1 & T2 & T3 & T4). rewrite points_cons. apply in_or_app.
  rewrite gpoints_pbl in H by (auto; discriminate). apply in_app_or in H as [H|[<-|[]]]; [left; auto|].
  destruct (points_head true l (i_hi a) hi T4) as (r & ->); [discriminate|]. right. left. auto.
Qed.

Lemma logtrapzd_sum_ok : forall f top ivs gs lo hi acc, tiling lo hi ivs -> Forall2 (matches f) ivs gs ->
  (forall x, In x (all_points true hi ivs) -> f x <= top) ->
  exists r t, logtrapzd_sum acc gs = Ok r /\ clipped f top ivs t /\ exp r = exp acc + t.
Proof.
  intros f top. induction ivs as [|a ivs IH]; intros gs lo hi acc T F H; inversion F as [|? g ? gs1 [M _] F1]; subst; cbn [logtrapzd_sum].
  - exists acc, 0. split; auto. split; [constructor|lra].
  - pose proof T as T0. cbn in T. destruct T as (T1 & T2 & T3 & T4).
    destruct (logtrapzd_holds f true _ _ _ _ T3 ltac:(discriminate) T2 M) as (r1 & M1 & -> & HM & HMa & E1).
    pose proof (log_add acc r1) as LA. destruct (if Rltb acc r1 then _ else _) as [t' l'].
    destruct (IH gs1 (i_hi a) hi (l' + ln (1 + exp (t' - l'))) T4 F1) as (r & t & -> & C & E).
    { intros x Hx. apply H. rewrite points_cons. apply in_or_app. auto. }
    exists r, (exp r1 + t). split; [reflexivity|]. split; [|lra]. rewrite E1. constructor; auto.
    destruct HM as (x & Hx & <-). apply H. eapply gpoints_sub; eauto.
Qed.

Lemma grid_log_ok : forall f top ivs gs lo hi, lo < hi -> tiling lo hi ivs -> Forall2 (matches f) ivs gs ->
  (forall x, In x (all_points true hi ivs) -> f x <= top) ->
  exists r t, match gs with [] => Err IndexError | g :: l => match logtrapzd g with Err e => Err e | Ok t => logtrapzd_sum t l end end = Ok r
    /\ clipped f top ivs t /\ exp r = t.
Proof.
  intros f top ivs gs lo hi Hlh T F H. destruct ivs as [|a ivs]; [cbn in T; lra|]. inversion F as [|? g ? gs1 [M _] F1]; subst.
  pose proof T as T0. cbn in T. destruct T as (T1 & T2 & T3 & T4).
  destruct (logtrapzd_holds f true _ _ _ _ T3 ltac:(discriminate) T2 M) as (r1 & M1 & -> & HM & HMa & E1).
  destruct (logtrapzd_sum_ok f top ivs gs1 (i_hi a) hi r1 T4 F1) as (r & t & -> & C & E).
  { intros x Hx. apply H. rewrite points_cons. apply in_or_app. auto. }
  exists r, (exp r1 + t). split; [reflexivity|]. split; [|exact E]. rewrite E1. constructor; auto.
  destruct HM as (x & Hx & <-). apply H. eapply gpoints_sub; eauto.
Qed.

Lemma clipped_bounds : forall f top ivs t, clipped f top ivs t -> forall lo hi, tiling lo hi ivs ->
  trapezoid (fun x => exp (f x)) (all_points true hi ivs) <= t
    <= trapezoid (fun x => exp (f x)) (all_points true hi ivs) + exp (top - 725) * (hi - lo).
Proof.
  intros f top ivs t C. induction C as [|a l M t HM HMx C IH]; intros lo hi T.
  - cbn in T. subst. cbn. lra.
  - pose proof T as T0. cbn in T. destruct T as (T1 & T2 & T3 & T4). rewrite <- T1 in T0. rewrite points_split by (auto; discriminate).
    specialize (IH _ _ T4). destruct (gpoints_last true (i_lo a) (i_hi a) (i_n a) T3 ltac:(discriminate) T2) as (r & Er & La).
    pose proof (gpoints_sorted true (i_lo a) (i_hi a) (i_n a) T3 ltac:(discriminate) T2) as S. rewrite Er in *.
    pose proof (floor_bounds f M top (i_lo a) r S HM) as FB. rewrite La in FB. rewrite <- T1. lra.
Qed.

Lemma clipped_exact : forall f top ivs t, clipped f top ivs t -> forall lo hi, tiling lo hi ivs ->
  (forall x y, In x (all_points true hi ivs) -> In y (all_points true hi ivs) -> f x - f y <= 725) ->
  t = trapezoid (fun x => exp (f x)) (all_points true hi ivs).
Proof.
  intros f top ivs t C. induction C as [|a l M t HM HMx C IH]; intros lo hi T H; [reflexivity|].
  pose proof T as T0. cbn in T. destruct T as (T1 & T2 & T3 & T4). rewrite <- T1 in T0. rewrite points_split by (auto; discriminate).
  rewrite (IH _ _ T4).
  2:{ intros x y Hx Hy. apply H; rewrite points_cons; apply in_or_app; auto. }
  f_equal. destruct HMx as (x & Hx & <-). apply floor_exact. intros y Hy.
  pose proof (H x y (gpoints_sub _ _ _ _ _ T0 Hx) (gpoints_sub _ _ _ _ _ T0 Hy)). lra.
Qed.

(** ** Points *)

Lemma points_nth_le : forall lin l lo hi p a k, tiling lo hi l -> (lin = false -> 0 < lo) -> nth_error l p = Some a -> (0 <= k <= i_n a - 1)%Z ->
  nth_error (all_points lin hi l) (Z.to_nat (before l p + k)) = Some (spaced lin (i_lo a) (i_hi a) (i_n a) k).
Proof.
  intros lin. induction l as [|b l IH]; intros lo hi p a k T H0 H Hk; [destruct p; discriminate|].
  pose proof T as T0. cbn in T. destruct T as (T1 & T2 & T3 & T4).
  destruct (Z.eq_dec k (i_n a - 1)) as [->|N]; [|apply (points_nth lin (b :: l) lo hi p a k T0 H); lia].
  assert (lin = false -> 0 < i_hi b) as H1. { intros L. specialize (H0 L). lra. }
  rewrite points_cons. destruct p as [|p]; cbn in H.
  - inversion H; subst b. unfold before. cbn [firstn]. unfold steps_in. cbn [map fold_right].
    rewrite nth_error_app2 by (rewrite pbl_len; lia). rewrite pbl_len.
    replace (Z.to_nat (0 + (i_n a - 1)) - (Z.to_nat (i_n a) - 1))%nat with 0%nat by lia.
    destruct (points_head lin l (i_hi a) hi T4 H1) as (r & ->). cbn. rewrite spaced_last; auto. intros L. specialize (H0 L). lra.
  - assert (before (b :: l) (S p) = i_n b - 1 + before l p)%Z as EB by reflexivity. rewrite EB.
    assert (0 <= before l p)%Z as B0.
    { unfold before. clear -T4. revert p T4. generalize (i_hi b). induction l as [|c l IH]; intros r p T; [rewrite firstn_nil; unfold steps_in; cbn; lia|].
      destruct p; [unfold steps_in; cbn; lia|]. cbn [firstn]. rewrite steps_cons. cbn in T. destruct T as (_ & _ & Tn & T). specialize (IH _ p T). lia. }
    rewrite nth_error_app2 by (rewrite pbl_len; lia). rewrite pbl_len.
    replace (Z.to_nat (i_n b - 1 + before l p + (i_n a - 1)) - (Z.to_nat (i_n b) - 1))%nat with (Z.to_nat (before l p + (i_n a - 1))) by lia.
    apply (IH (i_hi b) hi p a _ T4 H1 H Hk).
Qed.

Lemma Forall2_nth : forall {A B} (P : A -> B -> Prop) l l' i a, Forall2 P l l' -> nth_error l i = Some a ->
  exists b, nth_error l' i = Some b /\ P a b.
Proof.
  intros A B P l l' i a F. revert i. induction F as [|x y l l' H F IH]; intros i E; [destruct i; discriminate|].
  destruct i; cbn in *; [inversion E; subst; eauto|auto].
Qed.

Lemma point_holds : forall f lin lo hi n g i, (2 <= n)%Z -> holds f lin lo hi n g -> (0 <= i < n)%Z ->
  point g i = Ok (spaced lin lo hi n i,
    (if Z.eqb i (n - 1) then 0 else if lin then g_step g else spaced lin lo hi n i * (exp (g_step g) - 1)),
    Some (f (spaced lin lo hi n i))).
Proof.
  intros f lin lo hi n g i Hn [A B C D E F G] Hi. unfold point. rewrite C, D.
  replace (Z.ltb i 0 || Z.leb n i) with false by (symmetry; apply orb_false_iff; split; [apply Z.ltb_ge|apply Z.leb_gt]; lia).
  assert (nth_error (gpoints lin lo hi n) (Z.to_nat i) = Some (spaced lin lo hi n i)) as EN.
  { unfold gpoints. rewrite (map_nth_error _ (Z.to_nat i) (seq 0 (Z.to_nat n)) (d := Z.to_nat i)); [now rewrite Z2Nat.id by lia|].
    rewrite (nth_error_nth' _ 0%nat) by (rewrite seq_length; lia). rewrite seq_nth by lia. reflexivity. }
  assert ((match g_absc g with None => Ok (absc_at g i) | Some a => match nth_error a (Z.to_nat i) with Some x => Ok x | None => Err IndexError end end)
     = Ok (spaced lin lo hi n i)) as ->.
  { destruct G as [-> | ->]; [|now rewrite EN]. rewrite absc_spaced by congruence. now rewrite A, B, C, D. }
  rewrite F. rewrite (map_nth_error f _ _ EN). reflexivity.
Qed.

(** ** Everything about a refined grid *)

Lemma grid_facts : forall f lo hi n s, (2 <= n)%Z -> lo < hi -> ginv f lo hi n s ->
  let xs := all_points true hi (rl_il (G_ilist s)) in
  StronglySorted Rlt xs /\ hd_error xs = Some lo /\ last xs 0 = hi /\ Z.of_nat (length xs) = G_tot s
  /\ grid_trapzd s = Ok (trapezoid f xs)
  /\ (forall top, (forall x, In x xs -> f x <= top) -> exists r, grid_logtrapzd s = Ok r
        /\ trapezoid (fun x => exp (f x)) xs <= exp r <= trapezoid (fun x => exp (f x)) xs + exp (top - 725) * (hi - lo)
        /\ ((forall x y, In x xs -> In y xs -> f x - f y <= 725) -> exp r = trapezoid (fun x => exp (f x)) xs))
  /\ (forall k, (0 <= k < G_tot s)%Z -> exists x w, grid_point (length (rl_il (G_ilist s))) s k = Ok (x, w, Some (f x))
        /\ nth_error xs (Z.to_nat k) = Some x
        /\ match nth_error xs (Z.to_nat k + 1) with Some x' => w = x' - x | None => w = 0 end).
Proof.
  intros f lo hi n s Hn Hlh [Q1 Q2 [Q3 Q3a] Q4 (P1 & P2 & P3 & P4 & P5) [Q6 Q6a] Q7 [Q8 Q8a] Q9 Q10]. cbv zeta.
  pose proof (inv_tiling _ Q4) as T. rewrite P3, P4 in T. set (il := rl_il (G_ilist s)) in *.
  destruct (points_facts true il lo hi T ltac:(discriminate)) as (S1 & S2 & S3 & S4).
  pose proof (inv_npts _ Q4) as EN. fold il in EN.
  assert (1 <= count_points il)%Z as C1.
  { destruct (all_points true hi il) eqn:E; [discriminate|]. cbn [length] in S3. lia. }
  split; [auto|]. split; [|split; [apply points_last|split; [|split; [|split]]]].
  - destruct (all_points true hi il); cbn in *; congruence.
  - rewrite S3, Q10, EN. rewrite Z2Nat.id; lia.
  - unfold grid_trapzd. rewrite (trapzd_sum_ok f il (G_glist s) lo hi 0 T Q9). f_equal. lra.
  - intros top Ht. destruct (grid_log_ok f top il (G_glist s) lo hi Hlh T Q9 Ht) as (r & t & Er & C & E). exists r.
    split; [exact Er|]. rewrite E. split; [now apply (clipped_bounds f top il t C lo hi)|]. intros H. now apply (clipped_exact f top il t C lo hi).
  - intros k Hk. rewrite Q10 in Hk. destruct (nlocate_ok (G_ilist s) k Q4 Hk) as (i & j & a & E & Ea & Hj & Ek & Hlast & Ex).
    fold il in E, Ea, Ek, Ex. rewrite P2, P4 in Ex. unfold grid_point. rewrite E.
    destruct (Forall2_nth _ _ _ _ _ Q9 Ea) as (g & -> & M & Ma). pose proof (nth_error_In _ _ Ea) as Ia.
    destruct (tiling_in _ _ _ _ T Ia) as (T1 & T2 & T3).
    assert (2 <= i_n a)%Z as Hna. { pose proof (inv_ok _ Q4) as F. rewrite Forall_forall in F. apply (F a Ia). }
    rewrite (point_holds f true _ _ _ g j Hna M) by lia. eexists. eexists. split; [reflexivity|]. split; [exact Ex|].
    destruct (Z.eq_dec k (rl_npts (G_ilist s) - 1)) as [El|Nl].
    + destruct (nth_error (all_points true hi il) (Z.to_nat k + 1)) eqn:Ez.
      { assert (Z.to_nat k + 1 < length (all_points true hi il))%nat by (apply nth_error_Some; congruence). lia. }
      replace (Z.eqb j (i_n a - 1)) with true; [reflexivity|]. symmetry. apply Z.eqb_eq.
      destruct (Z.eq_dec j (i_n a - 1)); auto. exfalso.
      assert (nth_error (all_points true hi il) (Z.to_nat k + 1) <> None) as NN; [|congruence].
      pose proof (points_nth_le true il lo hi i a (j + 1) T ltac:(discriminate) Ea ltac:(lia)) as PN.
      replace (Z.to_nat k + 1)%nat with (Z.to_nat (before il i + (j + 1))) by lia. congruence.
    + specialize (Hlast ltac:(lia)). 
      pose proof (points_nth_le true il lo hi i a (j + 1) T ltac:(discriminate) Ea ltac:(lia)) as PN.
      replace (Z.to_nat k + 1)%nat with (Z.to_nat (before il i + (j + 1))) by lia. rewrite PN.
      replace (Z.eqb j (i_n a - 1)) with false by (symmetry; apply Z.eqb_neq; lia).
      unfold spaced. rewrite plus_IZR. rewrite (h_step _ _ _ _ _ _ M). unfold span. lra.
Qed.

(** ** The parameters of a Gaussian *)

Lemma gauss_peak : forall L mu sg x0 x1 x2, 0 < sg -> x0 < x1 < x2 -> 2 * (x1 - x0) ^ 2 <> (x2 - x0) ^ 2 ->
  let y x := L - (x - mu) ^ 2 / (2 * sg ^ 2) in
  IsPeak (y x0) (y x1) (y x2) = true ->
  PeakParams x0 x1 x2 (y x0) (y x1) (y x2) = (L, mu, sg).
Proof.
  intros L mu sg x0 x1 x2 Hs Hx Hf y HP. assert (y x0 < y x1 /\ y x2 <= y x1) as [H0 H2].
  { unfold IsPeak in HP. apply orb_true_iff in HP as [HP|HP]; apply andb_true_iff in HP as [A B]; rb; lra. }
  unfold PeakParams. set (w := x2 - x0) in *. assert (0 < w) as Hw by (unfold w; lra).
  set (al := (x1 - x0) / w). assert (x1 - x0 = al * w) as E1 by (unfold al; field; lra).
  assert (0 < al) as A0 by (unfold al; apply Rdiv_lt_0_compat; lra).
  assert (al < 1) as A1. { apply Rmult_lt_reg_r with w; auto. rewrite <- E1. unfold w. lra. }
  set (d := mu - x0).
  assert (y x0 - y x1 = (al ^ 2 * w ^ 2 - 2 * al * w * d) / (2 * sg ^ 2)) as Ea.
  { unfold y. replace (x1 - mu) with (al * w - d) by (unfold d; lra). replace (x0 - mu) with (- d) by (unfold d; lra). field. lra. }
  assert (y x0 - y x1 - y x1 + y x2 = w * (- w * (1 - 2 * al ^ 2) + 2 * d * (1 - 2 * al)) / (2 * sg ^ 2)) as ED.
  { unfold y. replace (x1 - mu) with (al * w - d) by (unfold d; lra). replace (x0 - mu) with (- d) by (unfold d; lra).
    replace (x2 - mu) with (w - d) by (unfold d, w; lra). field. lra. }
  assert (0 < 2 * sg ^ 2) as Hs2 by (assert (0 < sg ^ 2) by (apply pow_lt; auto); lra).
  assert (1 - 2 * al ^ 2 <> 0) as NF.
  { intros C. apply Hf. rewrite E1. assert (w ^ 2 * (1 - 2 * al ^ 2) = 0) by (rewrite C; lra). lra. }
  set (fac := 1 - 2 * al ^ 2) in *.
  assert (- w * fac + 2 * d * (1 - 2 * al) <> 0) as NE.
  { intros C. rewrite C, Rmult_0_r in ED. unfold Rdiv in ED. rewrite Rmult_0_l in ED. lra. }
  set (E := - w * fac + 2 * d * (1 - 2 * al)) in *.
  assert (al * w - 2 * d <> 0) as NA.
  { intros C. assert (al ^ 2 * w ^ 2 - 2 * al * w * d = 0) as C' by (replace (al ^ 2 * w ^ 2 - 2 * al * w * d) with (al * w * (al * w - 2 * d)) by ring; rewrite C; lra).
    rewrite C' in Ea. unfold Rdiv in Ea. rewrite Rmult_0_l in Ea. lra. }
  rewrite ED, Ea.
  assert (al ^ 2 / fac + (al ^ 2 * w ^ 2 - 2 * al * w * d) / (2 * sg ^ 2) / (w * E / (2 * sg ^ 2)) = - 2 * d * al * (1 - al) / (fac * E)) as EC.
  { replace ((al ^ 2 * w ^ 2 - 2 * al * w * d) / (2 * sg ^ 2) / (w * E / (2 * sg ^ 2))) with ((al ^ 2 * w - 2 * al * d) / E) by (field; repeat split; lra).
    replace (al ^ 2 / fac + (al ^ 2 * w - 2 * al * d) / E) with ((al ^ 2 * E + fac * (al ^ 2 * w - 2 * al * d)) / (fac * E)) by (field; auto).
    f_equal. unfold E, fac. ring. }
  rewrite EC. clear EC.
  assert (- 2 * d * al * (1 - al) / (fac * E) * w * fac ^ 2 / (2 * al * (1 - al) + - 2 * d * al * (1 - al) / (fac * E) * (2 - 4 * al) * fac) = d) as Ed.
  { replace (2 * al * (1 - al) + - 2 * d * al * (1 - al) / (fac * E) * (2 - 4 * al) * fac) with (2 * al * (1 - al) * (- w * fac) / E).
    - field. repeat split; auto; lra.
    - replace (- w * fac) with (E - 2 * d * (1 - 2 * al)) by (unfold E; ring). field. auto. }
  rewrite Ed. replace (x0 + d) with mu by (unfold d; lra).
  assert (w * al * (1 / 2 * (w * al) - d) / ((al ^ 2 * w ^ 2 - 2 * al * w * d) / (2 * sg ^ 2)) = sg ^ 2) as Esg.
  { replace (al ^ 2 * w ^ 2 - 2 * al * w * d) with (al * w * (al * w - 2 * d)) by ring. field. repeat split; lra. }
  rewrite Esg. f_equal; [f_equal|].
  - unfold y. field. lra.
  - apply sqrt_pow2. lra.
Qed.
