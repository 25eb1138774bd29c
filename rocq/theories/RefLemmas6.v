(** Trapezoid sums. *)

From Coq Require Import ZArith List Bool Arith Reals Sorted Lra Lia.
From Verif Require Import Exn Instances RefModel RefSpec RefLemmas RefLemmas2 RefLemmas5.
Import ListNotations.
Local Open Scope R_scope.

(** ** Splitting and exactness *)

Lemma trap_cons : forall f a b l, trapezoid f (a :: b :: l) = (b - a) * (f a + f b) / 2 + trapezoid f (b :: l).
Proof. reflexivity. Qed.

Lemma trap_split : forall f A m B, trapezoid f (A ++ m :: B) = trapezoid f (A ++ [m]) + trapezoid f (m :: B).
Proof.
  induction A as [|a A IH]; intros m B.
  - cbn [app]. change (trapezoid f [m]) with 0. lra.
  - destruct A as [|b A].
    + cbn [app]. rewrite !trap_cons. change (trapezoid f [m]) with 0. lra.
    + cbn [app] in *. rewrite !trap_cons, IH. lra.
Qed.

Lemma trap_ext : forall f g l, (forall x, In x l -> f x = g x) -> trapezoid f l = trapezoid g l.
Proof.
  induction l as [|a l IH]; intros H; [reflexivity|]. destruct l as [|b l]; [reflexivity|]. rewrite !trap_cons, IH.
  - rewrite (H a), (H b) by (cbn; auto). reflexivity.
  - intros x Hx. apply H. cbn in *. tauto.
Qed.

Lemma trap_scal : forall f c l, trapezoid (fun x => c * f x) l = c * trapezoid f l.
Proof. induction l as [|a l IH]; [cbn; lra|]. destruct l as [|b l]; [cbn; lra|]. rewrite !trap_cons, IH. field. Qed.

Lemma sorted_inv2 : forall a b l, StronglySorted Rlt (a :: b :: l) -> a < b /\ StronglySorted Rlt (b :: l).
Proof. intros a b l S. inversion S as [|? ? S1 F]; subst. inversion F; subst. auto. Qed.

Lemma trap_le : forall f g l, StronglySorted Rlt l -> (forall x, In x l -> f x <= g x) -> trapezoid f l <= trapezoid g l.
Proof.
  induction l as [|a l IH]; intros S H; [cbn; lra|]. destruct l as [|b l]; [cbn; lra|]. rewrite !trap_cons.
  apply sorted_inv2 in S as [Hab S]. assert (trapezoid f (b :: l) <= trapezoid g (b :: l)) by (apply IH; auto; intros x Hx; apply H; cbn in *; tauto).
  assert ((b - a) * (f a + f b) <= (b - a) * (g a + g b)); [|lra].
  apply Rmult_le_compat_l; [lra|]. apply Rplus_le_compat; apply H; cbn; auto.
Qed.

Lemma trap_plus_const : forall f c l a, trapezoid (fun x => f x + c) (a :: l) = trapezoid f (a :: l) + c * (last (a :: l) 0 - a).
Proof.
  intros f c. induction l as [|b l IH]; intros a; [cbn; lra|]. rewrite !trap_cons, IH.
  change (last (a :: b :: l) 0) with (last (b :: l) 0). field.
Qed.

Lemma affine_exact : forall f F a b, a < b ->
  (forall x, a <= x <= b -> derivable_pt_lim F x (f x)) ->
  (forall x, a <= x <= b -> (b - a) * f x = (b - x) * f a + (x - a) * f b) ->
  F b - F a = (b - a) * (f a + f b) / 2.
Proof.
  intros f F a b Hab D Aff.
  set (G := fun x => (- (b - x) ^ 2 * f a + (x - a) ^ 2 * f b) / (2 * (b - a))).
  assert (forall x, derivable_pt_lim G x (((b - x) * f a + (x - a) * f b) / (b - a))) as DG.
  { intros x. unfold G.
    assert (derivable_pt_lim (fun x => (- (b - x) ^ 2 * f a + (x - a) ^ 2 * f b) * / (2 * (b - a))) x
      (((- (INR 2 * (b - x) ^ 1 * (0 - 1))) * f a + (- (b - x) ^ 2) * 0 + ((INR 2 * (x - a) ^ 1 * (1 - 0)) * f b + (x - a) ^ 2 * 0)) * / (2 * (b - a)) +
        (- (b - x) ^ 2 * f a + (x - a) ^ 2 * f b) * 0)) as H.
    { apply (derivable_pt_lim_mult (fun x => - (b - x) ^ 2 * f a + (x - a) ^ 2 * f b) (fct_cte (/ (2 * (b - a))))); [|apply derivable_pt_lim_const].
      apply (derivable_pt_lim_plus (fun x => - (b - x) ^ 2 * f a) (fun x => (x - a) ^ 2 * f b)).
      - apply (derivable_pt_lim_mult (fun x => - (b - x) ^ 2) (fct_cte (f a))); [|apply derivable_pt_lim_const].
        apply (derivable_pt_lim_opp (fun x => (b - x) ^ 2)).
        apply (derivable_pt_lim_comp (fun x => b - x) (fun y => y ^ 2)).
        + apply (derivable_pt_lim_minus (fct_cte b) id); [apply derivable_pt_lim_const|apply derivable_pt_lim_id].
        + apply (derivable_pt_lim_pow _ 2).
      - apply (derivable_pt_lim_mult (fun x => (x - a) ^ 2) (fct_cte (f b))); [|apply derivable_pt_lim_const].
        apply (derivable_pt_lim_comp (fun x => x - a) (fun y => y ^ 2)).
        + apply (derivable_pt_lim_minus id (fct_cte a)); [apply derivable_pt_lim_id|apply derivable_pt_lim_const].
        + apply (derivable_pt_lim_pow _ 2). }
    replace (((b - x) * f a + (x - a) * f b) / (b - a)) with
      (((- (INR 2 * (b - x) ^ 1 * (0 - 1))) * f a + (- (b - x) ^ 2) * 0 + ((INR 2 * (x - a) ^ 1 * (1 - 0)) * f b + (x - a) ^ 2 * 0)) * / (2 * (b - a)) +
        (- (b - x) ^ 2 * f a + (x - a) ^ 2 * f b) * 0); [exact H|]. cbn [INR]. field. lra. }
  assert (forall x, a <= x <= b -> derivable_pt_lim (fun x => F x - G x) x 0) as D0.
  { intros x Hx. replace 0 with (f x - ((b - x) * f a + (x - a) * f b) / (b - a)).
    - apply (derivable_pt_lim_minus F G); auto.
    - rewrite <- (Aff x Hx). field. lra. }
  assert (F a - G a = F b - G b) as E.
  { assert (pr : forall x, a < x < b -> derivable_pt (fun x => F x - G x) x).
    { intros x Hx. exists 0. apply D0. lra. }
    symmetry. apply (null_derivative_loc (fun x => F x - G x) a b pr); try lra.
    - intros x Hx. apply derivable_continuous_pt. exists 0. apply D0. lra.
    - intros x P. rewrite (derive_pt_eq_0 (fun x => F x - G x) x 0 (pr x P)); auto. apply D0. lra. }
  assert (G b - G a = (b - a) * (f a + f b) / 2) as EG by (unfold G; field; lra). lra.
Qed.

Lemma trap_exact : forall f F l a, StronglySorted Rlt (a :: l) -> affine_between f (a :: l) ->
  (forall x, a <= x <= last (a :: l) 0 -> derivable_pt_lim F x (f x)) ->
  trapezoid f (a :: l) = F (last (a :: l) 0) - F a.
Proof.
  intros f F. induction l as [|b l IH]; intros a S Aff D; [cbn; lra|]. rewrite trap_cons.
  apply sorted_inv2 in S as [Hab S]. destruct Aff as [A1 A2]. change (last (a :: b :: l) 0) with (last (b :: l) 0) in *.
  assert (b <= last (b :: l) 0) as Hb.
  { clear -S. revert b S. induction l as [|c l IH]; intros b S; [cbn; lra|]. apply sorted_inv2 in S as [H S].
    change (last (b :: c :: l) 0) with (last (c :: l) 0). apply IH in S. lra. }
  rewrite IH; auto; [|intros x Hx; apply D; lra].
  pose proof (affine_exact f F a b Hab ltac:(intros x Hx; apply D; lra) A1). lra.
Qed.

(** ** The sums computed by a basic grid *)

Lemma gpoints_cons : forall (g : nat -> R) m k, map g (seq k (S m)) = g k :: map g (seq (S k) m).
Proof. reflexivity. Qed.

Lemma wsum_trap : forall f l, wsum (diffs l) (map f l) = trapezoid f l.
Proof.
  induction l as [|a l IH]; [reflexivity|]. destruct l as [|b l]; [reflexivity|]. rewrite trap_cons, <- IH. cbn. lra.
Qed.

Lemma sum_lin : forall (g v : nat -> R) step m k, (forall i, g (S i) = g i + step) ->
  step * (sum_list (map v (seq k (S m))) - 1/2 * (v k + v (k + m)%nat)) =
  wsum (diffs (map g (seq k (S m)))) (map v (seq k (S m))).
Proof.
  intros g v step. induction m as [|m IH]; intros k H.
  - cbn. rewrite Nat.add_0_r. lra.
  - rewrite (gpoints_cons g (S m) k), (gpoints_cons v (S m) k), (gpoints_cons g m (S k)), (gpoints_cons v m (S k)).
    assert (wsum (diffs (g k :: g (S k) :: map g (seq (S (S k)) m))) (v k :: v (S k) :: map v (seq (S (S k)) m)) =
            1/2 * (g (S k) - g k) * (v k + v (S k)) + wsum (diffs (map g (seq (S k) (S m)))) (map v (seq (S k) (S m)))) as E by reflexivity.
    rewrite E, <- IH by auto. rewrite H. replace (k + S m)%nat with (S k + m)%nat by lia.
    change (sum_list (v k :: v (S k) :: map v (seq (S (S k)) m))) with (v k + sum_list (map v (seq (S k) (S m)))). lra.
Qed.

Lemma last_map : forall {A} (f : A -> R) l d x, last (map f (l ++ [x])) d = f x.
Proof. intros. rewrite map_app. cbn. apply last_last. Qed.

Lemma seq_snoc : forall k m, seq k (S m) = seq k m ++ [(k + m)%nat].
Proof. intros. apply seq_S. Qed.

(** The grid [g] holds the values of f at its points. *)
Record holds (f : R -> R) (lin : bool) (lo hi : R) (n : Z) (g : bgrid) : Prop := Holds {
  h_lo : g_lo g = lo; h_hi : g_hi g = hi; h_n : g_n g = n; h_lin : g_lin g = lin;
  h_step : g_step g = span lin lo hi / (IZR n - 1);
  h_vals : g_vals g = Some (map f (gpoints lin lo hi n));
  h_absc : g_absc g = None \/ g_absc g = Some (gpoints lin lo hi n) }.

Lemma absc_spaced : forall g i, g_step g = span (g_lin g) (g_lo g) (g_hi g) / (IZR (g_n g) - 1) ->
  absc_at g i = spaced (g_lin g) (g_lo g) (g_hi g) (g_n g) i.
Proof. intros g i E. unfold absc_at, spaced, span in *. rewrite E. destruct (g_lin g); reflexivity. Qed.

Lemma grid_absc_points : forall g, g_step g = span (g_lin g) (g_lo g) (g_hi g) / (IZR (g_n g) - 1) ->
  grid_absc g = gpoints (g_lin g) (g_lo g) (g_hi g) (g_n g).
Proof. intros g E. unfold grid_absc, gpoints. apply map_ext. intros k. now apply absc_spaced. Qed.

Lemma log_widths_holds : forall f lin lo hi n g, holds f lin lo hi n g -> log_widths g = diffs (gpoints lin lo hi n).
Proof.
  intros f lin lo hi n g [A B C D E F G]. unfold log_widths. destruct G as [-> | ->]; [|reflexivity].
  rewrite grid_absc_points by congruence. now subst.
Qed.

Lemma trapzd_holds : forall f lin lo hi n g, (2 <= n)%Z -> holds f lin lo hi n g ->
  trapzd g = Ok (trapezoid f (gpoints lin lo hi n)).
Proof.
  intros f lin lo hi n g Hn Hg. pose proof (log_widths_holds _ _ _ _ _ _ Hg) as W. destruct Hg as [A B C D E F G].
  unfold trapzd. rewrite F, D. destruct lin; [|now rewrite W, wsum_trap]. f_equal. rewrite <- wsum_trap.
  unfold gpoints. destruct (Z.to_nat n) as [|m] eqn:Em; [lia|]. rewrite !map_map.
  rewrite <- (sum_lin (fun k => spaced true lo hi n (Z.of_nat k)) (fun k => f (spaced true lo hi n (Z.of_nat k))) (g_step g) m 0).
  - cbn [Nat.add]. f_equal. f_equal. f_equal. f_equal. cbn [map seq].
    change (f (spaced true lo hi n (Z.of_nat 0)) :: map (fun x => f (spaced true lo hi n (Z.of_nat x))) (seq 1 m)) with
      (map (fun x => f (spaced true lo hi n (Z.of_nat x))) (seq 0 (S m))). rewrite seq_snoc, last_map. reflexivity.
  - intros i. unfold spaced. rewrite E. unfold span. rewrite Nat2Z.inj_succ, succ_IZR. lra.
Qed.

(** ** Logarithmic sums *)

Lemma max_list_ge : forall l x, In x l -> x <= max_list l.
Proof.
  induction l as [|a l IH]; intros x H; [destruct H|]. destruct l as [|b l].
  - destruct H as [<-|[]]. cbn. lra.
  - change (max_list (a :: b :: l)) with (Rmax a (max_list (b :: l))). destruct H as [<-|H]; [apply Rmax_l|].
    apply Rle_trans with (max_list (b :: l)); [auto|apply Rmax_r].
Qed.
Lemma max_list_in : forall l, l <> [] -> In (max_list l) l.
Proof.
  induction l as [|a l IH]; intros H; [congruence|]. destruct l as [|b l]; [left; auto|].
  change (max_list (a :: b :: l)) with (Rmax a (max_list (b :: l))). unfold Rmax. destruct (Rle_dec a (max_list (b :: l))); [right; apply IH; discriminate|left; auto].
Qed.

Lemma diffs_lin : forall (g : nat -> R) step m k, (forall i, g (S i) = g i + step) ->
  diffs (map g (seq k (S m))) = repeat step m.
Proof.
  intros g step. induction m as [|m IH]; intros k H; [reflexivity|].
  rewrite (gpoints_cons g (S m) k), (gpoints_cons g m (S k)).
  change (diffs (g k :: g (S k) :: map g (seq (S (S k)) m))) with ((g (S k) - g k) :: diffs (map g (seq (S k) (S m)))).
  rewrite IH by auto. cbn. f_equal. rewrite H. lra.
Qed.

(** The clipped exponential, at the original scale. *)
Definition floor_exp (M : R) (f : R -> R) (x : R) : R := Rmax (exp (f x)) (exp (M - 725)).

Lemma exp_clip : forall y M, y <= M -> exp (clip (y - M)) = exp (- M) * Rmax (exp y) (exp (M - 725)).
Proof.
  intros y M H. unfold clip, smallExp. unfold Rmax at 1. destruct (Rle_dec (y - M) (-725)) as [C|C].
  - rewrite Rmin_left by lra. rewrite Rmax_right.
    + rewrite <- exp_plus. f_equal. lra.
    + destruct (Req_dec y (M - 725)) as [->|]; [lra|]. left. apply exp_increasing. lra.
  - rewrite Rmin_left by lra. rewrite Rmax_left.
    + rewrite <- exp_plus. f_equal. lra.
    + left. apply exp_increasing. lra.
Qed.

Lemma gpoints_last : forall lin lo hi n, (2 <= n)%Z -> (lin = false -> 0 < lo) -> lo < hi -> exists l, gpoints lin lo hi n = lo :: l /\ last (lo :: l) 0 = hi.
Proof.
  intros lin lo hi n Hn H0 H. unfold gpoints. destruct (Z.to_nat n) as [|m] eqn:Em; [lia|].
  eexists. split; [cbn; now rewrite spaced_first|].
  assert (last (map (fun k => spaced lin lo hi n (Z.of_nat k)) (seq 0 (S m))) 0 = hi) as E.
  { rewrite seq_snoc, last_map. cbn [Nat.add]. replace (Z.of_nat m) with (n - 1)%Z by lia. now apply spaced_last. }
  cbn [seq map] in E. rewrite spaced_first in E. exact E.
Qed.

Lemma gpoints_sorted : forall lin lo hi n, (2 <= n)%Z -> (lin = false -> 0 < lo) -> lo < hi -> StronglySorted Rlt (gpoints lin lo hi n).
Proof. intros lin lo hi n Hn H0 H. unfold gpoints. apply sorted_map_seq. intros i j Hij. apply spaced_lt; auto. lia. Qed.

Lemma trap_pos : forall f l a b, StronglySorted Rlt (a :: b :: l) -> (forall x, 0 < f x) -> 0 < trapezoid f (a :: b :: l).
Proof.
  intros f l a b S H. rewrite trap_cons. apply sorted_inv2 in S as [Hab S].
  assert (0 <= trapezoid f (b :: l)) as P.
  { replace 0 with (trapezoid (fun _ => 0) (b :: l)); [apply trap_le; auto; intros; left; auto|].
    clear. revert b. induction l as [|c l IH]; intros b; [reflexivity|]. rewrite trap_cons, IH. field. }
  assert (0 < (b - a) * (f a + f b)); [|lra]. apply Rmult_lt_0_compat; [lra|]. pose proof (H a). pose proof (H b). lra.
Qed.

Lemma logtrapzd_holds : forall f lin lo hi n g, (2 <= n)%Z -> (lin = false -> 0 < lo) -> lo < hi -> holds f lin lo hi n g ->
  exists r M, logtrapzd g = Ok r /\ (exists x, In x (gpoints lin lo hi n) /\ f x = M)
    /\ (forall x, In x (gpoints lin lo hi n) -> f x <= M)
    /\ exp r = trapezoid (floor_exp M f) (gpoints lin lo hi n).
Proof.
  intros f lin lo hi n g Hn H0 Hlh Hg. pose proof (log_widths_holds _ _ _ _ _ _ Hg) as W. destruct Hg as [A B C D E F G].
  unfold logtrapzd. rewrite F, D. set (xs := gpoints lin lo hi n) in *. set (M := max_list (map f xs)).
  assert ((if lin then repeat (g_step g) (Z.to_nat (g_n g) - 1) else log_widths g) = diffs xs) as Ew.
  { destruct lin; [|exact W]. unfold xs, gpoints. rewrite C. destruct (Z.to_nat n) as [|m] eqn:Em; [lia|].
    rewrite (diffs_lin _ (g_step g)); [cbn; now rewrite Nat.sub_0_r|].
    intros i. unfold spaced. rewrite E. unfold span. rewrite Nat2Z.inj_succ, succ_IZR. lra. }
  rewrite Ew. rewrite map_map, wsum_trap.
  assert (forall x, In x xs -> f x <= M) as HM. { intros x Hx. apply max_list_ge. now apply in_map. }
  assert (trapezoid (fun x => exp (clip (f x - M))) xs = exp (- M) * trapezoid (floor_exp M f) xs) as ET.
  { rewrite <- trap_scal. apply trap_ext. intros x Hx. apply exp_clip. auto. }
  assert (0 < trapezoid (floor_exp M f) xs) as P.
  { destruct (gpoints_last lin lo hi n Hn H0 Hlh) as (l & El & La). pose proof (gpoints_sorted lin lo hi n Hn H0 Hlh) as S.
    fold xs in El, S. rewrite El in *. destruct l as [|b l]; [cbn in La; lra|]. apply trap_pos; auto.
    intros x. unfold floor_exp. apply Rlt_le_trans with (exp (f x)); [apply exp_pos|apply Rmax_l]. }
  eexists. exists M. split; [reflexivity|]. split; [|split; [exact HM|]].
  - assert (In M (map f xs)) as HI. { apply max_list_in. unfold xs, gpoints. destruct (Z.to_nat n) eqn:Em; [lia|discriminate]. }
    apply in_map_iff in HI as (x & E1 & E2). exists x. auto.
  - rewrite ET, ln_mult by (try apply exp_pos; auto). rewrite ln_exp. replace (M + (- M + _)) with (ln (trapezoid (floor_exp M f) xs)) by lra.
    now apply exp_ln.
Qed.

(** Bounds for the clipped sum. *)
Lemma floor_bounds : forall f M top lo l, StronglySorted Rlt (lo :: l) -> M <= top ->
  trapezoid (fun x => exp (f x)) (lo :: l) <= trapezoid (floor_exp M f) (lo :: l)
    <= trapezoid (fun x => exp (f x)) (lo :: l) + exp (top - 725) * (last (lo :: l) 0 - lo).
Proof.
  intros f M top lo l S H. split.
  - apply trap_le; auto. intros x _. apply Rmax_l.
  - rewrite <- trap_plus_const. apply trap_le; auto. intros x _. unfold floor_exp.
    assert (exp (M - 725) <= exp (top - 725)). { destruct H as [H| ->]; [left; apply exp_increasing; lra|lra]. }
    pose proof (exp_pos (f x)). pose proof (exp_pos (M - 725)). unfold Rmax. destruct (Rle_dec _ _); lra.
Qed.

Lemma floor_exact : forall f M l, (forall x, In x l -> M - 725 <= f x) -> trapezoid (floor_exp M f) l = trapezoid (fun x => exp (f x)) l.
Proof.
  intros f M l H. apply trap_ext. intros x Hx. unfold floor_exp. apply Rmax_left. specialize (H x Hx).
  destruct H as [H|E]; [left; now apply exp_increasing|rewrite E; lra].
Qed.
