(** Moments of grids, and flatten. *)

From Coq Require Import ZArith List Bool Arith Reals Sorted Lra Lia.
From Verif Require Import Exn Instances RefModel RefSpec RefLemmas RefLemmas2 RefLemmas3 RefLemmas4 RefLemmas5 RefLemmas6 RefLemmas7 RefLemmas8 MomModel MomSpec.
Import ListNotations.
Local Open Scope R_scope.

Lemma times_map : forall k l, times l (map k l) = map (fun x => x * k x) l.
Proof. induction l as [|a l IH]; [reflexivity|]. cbn. now rewrite IH. Qed.
Lemma trap_plus : forall f g l, trapezoid (fun x => f x + g x) l = trapezoid f l + trapezoid g l.
Proof. induction l as [|a l IH]; [cbn; lra|]. destruct l as [|b l]; [cbn; lra|]. rewrite !trap_cons, IH. field. Qed.

(** The moments of a clipped exponential. *)
Definition cmom (f : R -> R) (k : nat) (M : R) (l : list R) : R := trapezoid (fun x => x ^ k * floor_exp M f x) l.

Lemma cmom_0 : forall f M l, cmom f 0 M l = trapezoid (floor_exp M f) l.
Proof. intros. apply trap_ext. intros x _. cbn. lra. Qed.
Lemma floor_pos : forall f M x, 0 < floor_exp M f x.
Proof. intros. unfold floor_exp. apply Rlt_le_trans with (exp (f x)); [apply exp_pos|apply Rmax_l]. Qed.

Section One.
Variable f : R -> R.
Variable lin : bool.
Variables lo hi : R.
Variable n : Z.
Hypothesis Hn : (2 <= n)%Z.
Hypothesis H0 : lin = false -> 0 < lo.
Hypothesis Hlh : lo < hi.
Let xs := gpoints lin lo hi n.

Lemma points_in : forall x, In x xs -> lo <= x <= hi.
Proof.
  intros x Hx. destruct (gpoints_last lin lo hi n Hn H0 Hlh) as (l & El & La). pose proof (gpoints_sorted lin lo hi n Hn H0 Hlh) as S.
  fold xs in El, S. rewrite El in *. clear El. destruct (StronglySorted_inv S) as [S1 F1]. rewrite Forall_forall in F1. split.
  - destruct Hx as [<-|Hx]; [lra|]. left. auto.
  - clear -S La Hx. revert x lo S La Hx. induction l as [|b l IH]; intros x lo S La Hx.
    + destruct Hx as [<-|[]]. cbn in La. lra.
    + apply sorted_inv2 in S as [Hab S]. change (last (b :: l) 0 = hi) in La. destruct Hx as [<-|Hx]; [|eapply IH; eauto].
      pose proof (IH b b S La (or_introl eq_refl)). lra.
Qed.

Lemma cmom_pos : forall M, 0 < cmom f 0 M xs.
Proof.
  intros M. rewrite cmom_0. destruct (gpoints_last lin lo hi n Hn H0 Hlh) as (l & El & La). pose proof (gpoints_sorted lin lo hi n Hn H0 Hlh) as S.
  fold xs in El, S. rewrite El in *. destruct l as [|b l]; [cbn in La; lra|]. apply trap_pos; auto. intros x. apply floor_pos.
Qed.
Lemma cmom_range : forall M, lo * cmom f 0 M xs <= cmom f 1 M xs <= hi * cmom f 0 M xs.
Proof.
  intros M. pose proof (gpoints_sorted lin lo hi n Hn H0 Hlh) as S. fold xs in S. rewrite cmom_0, <- !trap_scal. unfold cmom.
  split; apply trap_le; auto; intros x Hx; pose proof (points_in x Hx); pose proof (floor_pos f M x); rewrite pow_1; apply Rmult_le_compat_r; lra.
Qed.
Lemma cmom_square : forall M a, 0 <= cmom f 2 M xs - 2 * a * cmom f 1 M xs + a ^ 2 * cmom f 0 M xs.
Proof.
  intros M a. pose proof (gpoints_sorted lin lo hi n Hn H0 Hlh) as S. fold xs in S.
  replace (cmom f 2 M xs - 2 * a * cmom f 1 M xs + a ^ 2 * cmom f 0 M xs) with (trapezoid (fun x => (x - a) ^ 2 * floor_exp M f x) xs).
  - apply Rle_trans with (trapezoid (fun _ => 0) xs).
    + clear. induction xs as [|b l IH]; [cbn; lra|]. destruct l as [|c l]; [cbn; lra|]. rewrite trap_cons. lra.
    + apply trap_le; auto. intros x _. apply Rmult_le_pos; [apply pow2_ge_0|left; apply floor_pos].
  - unfold cmom. rewrite <- !trap_scal. unfold Rminus at 2. rewrite <- (Rmult_1_l (trapezoid (fun x => 2 * a * _) xs)), Ropp_mult_distr_l, <- trap_scal, <- !trap_plus.
    apply trap_ext. intros x _. ring.
Qed.
Lemma cmom_exact : forall k M, (forall x, In x xs -> M - 725 <= f x) -> cmom f k M xs = trapezoid (fun x => x ^ k * exp (f x)) xs.
Proof.
  intros k M H. apply trap_ext. intros x Hx. f_equal. unfold floor_exp. apply Rmax_left. specialize (H x Hx).
  destruct H as [H|E]; [left; now apply exp_increasing|rewrite E; lra].
Qed.

(** What a grid returns. *)
Lemma mom_holds : forall g, holds f lin lo hi n g ->
  exists M q, (exists x, In x xs /\ f x = M) /\ (forall x, In x xs -> f x <= M) /\ logtrapzd g = Ok q /\ exp q = cmom f 0 M xs
    /\ (forall nmom, falsy nmom = true -> logtrapzd_mom nmom g = (set_absc xs g, Ok [q]))
    /\ logtrapzd_mom (Some 1%Z) g = (set_absc xs g, Ok [q; cmom f 1 M xs / cmom f 0 M xs])
    /\ logtrapzd_mom (Some 2%Z) g = (set_absc xs g, Ok [q; cmom f 1 M xs / cmom f 0 M xs; cmom f 2 M xs / cmom f 0 M xs]).
Proof.
  intros g Hg.
  assert (Hg' := Hg). destruct Hg' as [A B C D E F G].
  assert ((match g_absc g with Some a => a | None => grid_absc g end) = xs) as EA.
  { destruct G as [-> | ->]; [|reflexivity]. rewrite grid_absc_points by congruence. rewrite D, A, B, C. reflexivity. }
  set (M := max_list (map f xs)). set (q := M + ln (wsum (diffs xs) (map (fun y => exp (clip (y - M))) (map f xs)))).
  assert (forall x, In x xs -> f x <= M) as HM. { intros x Hx. apply max_list_ge. now apply in_map. }
  assert (forall x, In x xs -> exp (clip (f x - M)) = exp (- M) * floor_exp M f x) as EC. { intros x Hx. apply exp_clip. auto. }
  assert (wsum (diffs xs) (map (fun y => exp (clip (y - M))) (map f xs)) = exp (- M) * cmom f 0 M xs) as EW.
  { rewrite map_map, wsum_trap, cmom_0, <- trap_scal. now apply trap_ext. }
  assert (exp q = cmom f 0 M xs) as EQ.
  { unfold q. rewrite EW, ln_mult by (try apply exp_pos; apply cmom_pos). rewrite ln_exp. replace (M + (- M + _)) with (ln (cmom f 0 M xs)) by lra.
    apply exp_ln, cmom_pos. }
  exists M, q. split; [|split; [exact HM|split; [|split; [exact EQ|]]]].
  - assert (In M (map f xs)) as HI. { apply max_list_in. unfold xs, gpoints. destruct (Z.to_nat n) eqn:Em; [lia|discriminate]. }
    apply in_map_iff in HI as (x & E1 & E2). exists x. auto.
  - pose proof (log_widths_holds _ _ _ _ _ _ Hg) as W.
    unfold logtrapzd. rewrite F, D. fold xs. fold M.
    replace (if lin then repeat (g_step g) (Z.to_nat (g_n g) - 1) else log_widths g) with (diffs xs); [reflexivity|].
    destruct lin; [|now rewrite W]. unfold xs, gpoints. rewrite C. destruct (Z.to_nat n) as [|m] eqn:Em; [lia|].
    rewrite (diffs_lin _ (g_step g)); [cbn; now rewrite Nat.sub_0_r|].
    intros i. unfold spaced. rewrite E. unfold span. rewrite Nat2Z.inj_succ, succ_IZR. lra.
  - assert (map (fun y => y * exp (M - q)) (map (fun y => exp (clip (y - M))) (map f xs)) = map (fun x => floor_exp M f x / cmom f 0 M xs) xs) as EV.
    { rewrite !map_map. apply map_ext_in. intros x Hx. rewrite EC by auto. unfold Rminus. rewrite exp_plus, (exp_Ropp q), EQ, exp_Ropp. field.
      split; [pose proof (cmom_pos M); lra|pose proof (exp_pos M); lra]. }
    assert (forall k, wsum (diffs xs) (map (fun x => x ^ k * (floor_exp M f x / cmom f 0 M xs)) xs) = cmom f k M xs / cmom f 0 M xs) as ES.
    { intros k. rewrite wsum_trap. transitivity (/ cmom f 0 M xs * trapezoid (fun x => x ^ k * floor_exp M f x) xs); [|unfold Rdiv; rewrite Rmult_comm; reflexivity].
      rewrite <- trap_scal. apply trap_ext. intros x _. unfold Rdiv. ring. }
    unfold logtrapzd_mom. rewrite F. fold xs. fold M. rewrite EA. fold q. rewrite EV, times_map.
    split; [|split].
    + intros nmom Hf. rewrite Hf. cbn [negb andb]. reflexivity.
    + cbn [falsy Z.eqb Pos.eqb negb andb orb].
      assert (map (fun x => x * (floor_exp M f x / cmom f 0 M xs)) xs = map (fun x => x ^ 1 * (floor_exp M f x / cmom f 0 M xs)) xs) as -> by (apply map_ext; intros x; now rewrite pow_1).
      rewrite (ES 1%nat). reflexivity.
    + cbn [falsy Z.eqb Pos.eqb negb andb orb]. rewrite times_map.
      assert (map (fun x => x * (floor_exp M f x / cmom f 0 M xs)) xs = map (fun x => x ^ 1 * (floor_exp M f x / cmom f 0 M xs)) xs) as -> by (apply map_ext; intros x; now rewrite pow_1).
      rewrite (ES 1%nat).
      assert (map (fun x => x * (x * (floor_exp M f x / cmom f 0 M xs))) xs = map (fun x => x ^ 2 * (floor_exp M f x / cmom f 0 M xs)) xs) as -> by (apply map_ext; intros x; ring).
      rewrite (ES 2%nat). reflexivity.
Qed.

Lemma absc_holds : forall g, holds f lin lo hi n g -> holds f lin lo hi n (set_absc xs g).
Proof. intros g [A B C D E F G]. constructor; auto. Qed.
End One.

(** ** A basic grid *)

Lemma same_point : forall f lin lo hi n g i, (2 <= n)%Z -> holds f lin lo hi n g -> point (set_absc (gpoints lin lo hi n) g) i = point g i.
Proof.
  intros f lin lo hi n g i Hn Hg. destruct (Z_lt_dec i 0) as [L|L]; [|destruct (Z_le_dec n i) as [U|U]].
  - unfold point. cbn [set_absc g_n]. replace (Z.ltb i 0) with true by (symmetry; apply Z.ltb_lt; lia). reflexivity.
  - unfold point. cbn [set_absc g_n]. rewrite (h_n _ _ _ _ _ _ Hg). replace (Z.leb n i) with true by (symmetry; apply Z.leb_le; lia). rewrite orb_true_r. reflexivity.
  - rewrite (point_holds f lin lo hi n g i Hn Hg) by lia. rewrite (point_holds f lin lo hi n _ i Hn (absc_holds f lin lo hi n g Hg)) by lia. reflexivity.
Qed.

Lemma basic_moments : forall f lo hi n lin peak m, (2 <= n)%Z -> lo < hi -> (lin = false -> 0 < lo) -> lm_nmax m <> Some O ->
  exists g, new_bgrid lo hi n lin peak = Ok g /\
  forall evaluate, evaluate = stepfunc \/ evaluate = vecfunc ->
  exists g' m' g'' q m1 m2, evaluate f g m = (g', m', Ok tt) /\ logtrapzd g' = Ok q /\
  let xs := gpoints lin lo hi n in
  logtrapzd_mom None g' = (g'', Ok [q]) /\ logtrapzd_mom (Some 1%Z) g' = (g'', Ok [q; m1]) /\ logtrapzd_mom (Some 2%Z) g' = (g'', Ok [q; m1; m2]) /\
  lo <= m1 <= hi /\ m1 ^ 2 <= m2 /\
  ((forall x y, In x xs -> In y xs -> f x - f y <= 725) ->
     m1 * trapezoid (fun x => exp (f x)) xs = trapezoid (fun x => x * exp (f x)) xs /\ m2 * trapezoid (fun x => exp (f x)) xs = trapezoid (fun x => x ^ 2 * exp (f x)) xs) /\
  (forall i, point g'' i = point g' i) /\ trapzd g'' = trapzd g' /\ logtrapzd g'' = logtrapzd g' /\ (forall nmom, logtrapzd_mom nmom g'' = (g'', snd (logtrapzd_mom nmom g'))).
Proof.
  intros f lo hi n lin peak m Hn Hlh H0 Hm. unfold new_bgrid. replace (Z.leb n 1) with false by (symmetry; apply Z.leb_gt; lia).
  replace (negb lin && Rleb (lo * hi) 0) with false.
  2:{ symmetry. destruct lin; auto. specialize (H0 eq_refl). cbn. apply Rleb_false. assert (0 < lo * hi) by (apply Rmult_lt_0_compat; lra). lra. }
  eexists. split; [reflexivity|]. intros ev Hev. set (g := BGrid _ _ _ _ _ _ _ _).
  assert (exists g' m', ev f g m = (g', m', Ok tt) /\ holds f lin lo hi n g') as (g' & m' & E & H).
  { destruct Hev as [-> | ->].
    - destruct (stepfunc_holds f g m Hm) as (g' & m' & E & H & _); auto. eauto.
    - destruct (vecfunc_holds f g m Hm) as (g' & m' & E & H); auto. eauto. }
  destruct (mom_holds f lin lo hi n Hn H0 Hlh g' H) as (M & q & (xm & Hx & Ex) & HM & EL & EQ & E0 & E1 & E2).
  set (xs := gpoints lin lo hi n) in *.
  pose proof (absc_holds f lin lo hi n g' H) as H''. fold xs in H''.
  assert (logtrapzd (set_absc xs g') = logtrapzd g') as EL'.
  { pose proof (log_widths_holds _ _ _ _ _ _ H) as W. pose proof (log_widths_holds _ _ _ _ _ _ H'') as W'. unfold logtrapzd. rewrite W, W'. reflexivity. }
  exists g', m', (set_absc xs g'), q, (cmom f 1 M xs / cmom f 0 M xs), (cmom f 2 M xs / cmom f 0 M xs).
  pose proof (cmom_pos f lin lo hi n Hn H0 Hlh M) as P. fold xs in P.
  pose proof (cmom_range f lin lo hi n Hn H0 Hlh M) as R1. fold xs in R1.
  assert (cmom f 1 M xs = cmom f 1 M xs / cmom f 0 M xs * cmom f 0 M xs) as D1 by (field; lra).
  split; [exact E|]. split; [exact EL|]. cbv zeta. split; [now apply E0|]. split; [exact E1|]. split; [exact E2|].
  split; [|split; [|split; [|split; [|split; [|split]]]]].
  - split; apply (Rmult_le_reg_r (cmom f 0 M xs)); try assumption; rewrite <- D1; lra.
  - pose proof (cmom_square f lin lo hi n Hn H0 Hlh M (cmom f 1 M xs / cmom f 0 M xs)) as S. fold xs in S.
    apply (Rmult_le_reg_r (cmom f 0 M xs)); [assumption|]. replace (cmom f 2 M xs / cmom f 0 M xs * cmom f 0 M xs) with (cmom f 2 M xs) by (field; lra).
    rewrite D1 in S at 2. lra.
  - intros Hc. assert (forall x, In x xs -> M - 725 <= f x) as HC. { intros x Hxx. pose proof (Hc xm x Hx Hxx). lra. }
    assert (trapezoid (fun x => exp (f x)) xs = cmom f 0 M xs) as ->. { rewrite cmom_0. symmetry. now apply floor_exact. }
    pose proof (cmom_exact f lin lo hi n 1 M HC) as X1. pose proof (cmom_exact f lin lo hi n 2 M HC) as X2. fold xs in X1, X2.
    split; [rewrite <- D1, X1; apply trap_ext; intros x _; now rewrite pow_1|]. rewrite <- X2. field. lra.
  - intros i. now apply (same_point f).
  - rewrite !(trapzd_holds f lin lo hi n) by assumption. reflexivity.
  - exact EL'.
  - intros nmom. unfold logtrapzd_mom. cbn [set_absc g_vals g_absc]. rewrite (h_vals _ _ _ _ _ _ H).
    assert ((match g_absc g' with Some a => a | None => grid_absc g' end) = xs) as ->.
    { destruct H as [A B C D F1 F2 G]. destruct G as [-> | ->]; [|reflexivity]. rewrite grid_absc_points by congruence. rewrite D, A, B, C. reflexivity. }
    destruct (negb (falsy nmom) && _); [reflexivity|]. destruct (falsy nmom); [reflexivity|]. destruct nmom as [[|[p|p|]|p]|]; reflexivity.
Qed.
