(** Moments of refined grids. *)

From Coq Require Import ZArith List Bool Arith Reals Sorted Lra Lia.
From Verif Require Import Exn Instances RefModel RefSpec RefLemmas RefLemmas2 RefLemmas3 RefLemmas4 RefLemmas5 RefLemmas6 RefLemmas7 RefLemmas8 MomModel MomSpec MomLemmas.
Import ListNotations.
Local Open Scope R_scope.

Section Rows.
Variable f : R -> R.

(** The moments of the intervals, each with the maximum on it. *)
Definition gp (a : ival) : list R := gpoints true (i_lo a) (i_hi a) (i_n a).
Definition cm (k : nat) (p : ival * R) : R := cmom f k (snd p) (gp (fst p)).
Definition total (k : nat) (l : list (ival * R)) : R := sum_list (map (cm k) l).
Definition top_of (p : ival * R) : Prop := (exists x, In x (gp (fst p)) /\ f x = snd p) /\ forall x, In x (gp (fst p)) -> f x <= snd p.
Definition row1 (p : ival * R) : list R := [ln (cm 0 p); cm 1 p / cm 0 p].
Definition row2 (p : ival * R) : list R := [ln (cm 0 p); cm 1 p / cm 0 p; cm 2 p / cm 0 p].

Lemma rows_ok : forall ivs gs lo hi, tiling lo hi ivs -> Forall2 (matches f) ivs gs ->
  exists l gs', map fst l = ivs /\ Forall top_of l /\ moms_of (Some 1%Z) gs = (gs', Ok (map row1 l)) /\ moms_of (Some 2%Z) gs = (gs', Ok (map row2 l))
    /\ gs' = map (fun p => set_absc (gp (fst p)) (snd p)) (combine ivs gs)
    /\ Forall2 (fun p g => logtrapzd g = Ok (ln (cm 0 p))) l gs.
Proof.
  induction ivs as [|a ivs IH]; intros gs lo hi T F; inversion F as [|? g ? gs1 [M _] F1]; subst.
  - exists [], []. repeat split; constructor.
  - cbn in T. destruct T as (T1 & T2 & T3 & T4). destruct (IH gs1 (i_hi a) hi T4 F1) as (l & gs' & E1 & E2 & E3 & E4 & E5 & E6).
    destruct (mom_holds f true (i_lo a) (i_hi a) (i_n a) T3 ltac:(discriminate) T2 g M) as (mx & q & Hx & HM & EL & EQ & _ & EM1 & EM2).
    fold (gp a) in *. assert (q = ln (cmom f 0 mx (gp a))) as Eq by (rewrite <- EQ; symmetry; apply ln_exp).
    exists ((a, mx) :: l), (set_absc (gp a) g :: gs'). split; [cbn; now rewrite E1|]. split; [constructor; [split; assumption|assumption]|].
    cbn [moms_of]. rewrite EM1, EM2, E3, E4, Eq. split; [reflexivity|]. split; [reflexivity|]. split; [cbn; now rewrite E5|].
    constructor; [|assumption]. rewrite EL, Eq. reflexivity.
Qed.

Lemma sum_scal : forall {A} (h : A -> R) c l, sum_list (map (fun x => c * h x) l) = c * sum_list (map h l).
Proof. induction l as [|a l IH]; [cbn; lra|]. cbn [map sum_list fold_right] in *. fold (sum_list (map (fun x => c * h x) l)). fold (sum_list (map h l)). rewrite IH. lra. Qed.
Lemma sum_ext : forall {A} (h k : A -> R) l, (forall x, In x l -> h x = k x) -> sum_list (map h l) = sum_list (map k l).
Proof. intros A h k l H. f_equal. now apply map_ext_in. Qed.
Lemma sum_pos : forall {A} (h : A -> R) l, l <> [] -> (forall x, In x l -> 0 < h x) -> 0 < sum_list (map h l).
Proof.
  induction l as [|a l IH]; intros N H; [congruence|]. cbn. change (0 < h a + sum_list (map h l)). destruct l as [|b l].
  - cbn. pose proof (H a (or_introl eq_refl)). lra.
  - assert (0 < sum_list (map h (b :: l))) by (apply IH; [discriminate|intros x Hx; apply H; now right]). pose proof (H a (or_introl eq_refl)). lra.
Qed.
Lemma sum_le : forall {A} (h k : A -> R) l, (forall x, In x l -> h x <= k x) -> sum_list (map h l) <= sum_list (map k l).
Proof.
  induction l as [|a l IH]; intros H; [cbn; lra|]. change (h a + sum_list (map h l) <= k a + sum_list (map k l)).
  pose proof (H a (or_introl eq_refl)). assert (sum_list (map h l) <= sum_list (map k l)) by (apply IH; intros x Hx; apply H; now right). lra.
Qed.
Lemma times_maps : forall {A} (h k : A -> R) l, times (map h l) (map k l) = map (fun x => h x * k x) l.
Proof. induction l as [|a l IH]; [reflexivity|]. cbn. now rewrite IH. Qed.

Lemma tiling_each : forall ivs lo hi a, tiling lo hi ivs -> In a ivs -> i_lo a < i_hi a /\ (2 <= i_n a)%Z /\ lo <= i_lo a /\ i_hi a <= hi.
Proof.
  assert (forall ivs lo hi, tiling lo hi ivs -> lo <= hi) as LE.
  { induction ivs as [|a ivs IH]; intros lo hi T; cbn in T; [lra|]. destruct T as (T1 & T2 & T3 & T4). specialize (IH _ _ T4). lra. }
  induction ivs as [|b ivs IH]; intros lo hi a T H; [destruct H|]. cbn in T. destruct T as (T1 & T2 & T3 & T4). pose proof (LE _ _ _ T4). destruct H as [<-|H].
  - repeat split; auto; lra.
  - destruct (IH _ _ _ T4 H) as (A & B & C & D). repeat split; auto. lra.
Qed.

Section Tile.
Variables lo hi : R.
Variable l : list (ival * R).
Hypothesis T : tiling lo hi (map fst l).

Lemma cm_pos : forall p, In p l -> 0 < cm 0 p.
Proof. intros p H. destruct (tiling_each _ _ _ (fst p) T (in_map fst _ _ H)) as (A & B & _). apply cmom_pos; auto. discriminate. Qed.
Lemma total_range : lo * total 0 l <= total 1 l <= hi * total 0 l.
Proof.
  unfold total. rewrite <- !sum_scal. split; apply sum_le; intros p H; destruct (tiling_each _ _ _ (fst p) T (in_map fst _ _ H)) as (A & B & C & D);
    pose proof (cmom_range f true (i_lo (fst p)) (i_hi (fst p)) (i_n (fst p)) B ltac:(discriminate) A (snd p)) as [E1 E2]; pose proof (cm_pos p H) as P; fold (gp (fst p)) in *; unfold cm in *.
  - apply Rle_trans with (2 := E1). apply Rmult_le_compat_r; lra.
  - apply Rle_trans with (1 := E2). apply Rmult_le_compat_r; lra.
Qed.
Lemma total_square : forall a, 0 <= total 2 l - 2 * a * total 1 l + a ^ 2 * total 0 l.
Proof.
  intros a. clear -T. assert (forall p, In p l -> 0 <= cm 2 p - 2 * a * cm 1 p + a ^ 2 * cm 0 p) as H.
  { intros p H. destruct (tiling_each _ _ _ (fst p) T (in_map fst _ _ H)) as (A & B & _). apply cmom_square; auto. discriminate. }
  clear T. unfold total. induction l as [|p l' IH]; [cbn; lra|]. pose proof (H p (or_introl eq_refl)). specialize (IH (fun q Hq => H q (or_intror Hq))).
  change (0 <= (cm 2 p + sum_list (map (cm 2) l')) - 2 * a * (cm 1 p + sum_list (map (cm 1) l')) + a ^ 2 * (cm 0 p + sum_list (map (cm 0) l'))). lra.
Qed.

(** The combination of the rows. *)
Hypothesis N : l <> [].
Lemma total_pos : 0 < total 0 l.
Proof. apply sum_pos; auto. apply cm_pos. Qed.
Lemma lquad_is : forall m, m + ln (sum_list (map (fun q => exp (q - m)) (map (fun p => ln (cm 0 p)) l))) = ln (total 0 l).
Proof.
  intros m. rewrite map_map. rewrite (sum_ext _ (fun p => exp (- m) * cm 0 p)).
  - rewrite sum_scal. rewrite ln_mult by (try apply exp_pos; apply total_pos). rewrite ln_exp. unfold total. lra.
  - intros p H. unfold Rminus. rewrite exp_plus, exp_ln by (now apply cm_pos). lra.
Qed.
Lemma mean_is : forall k, sum_list (times (map (fun q => exp (q - ln (total 0 l))) (map (fun p => ln (cm 0 p)) l)) (map (fun p => cm k p / cm 0 p) l)) = total k l / total 0 l.
Proof.
  intros k. rewrite map_map, times_maps. rewrite (sum_ext _ (fun p => / total 0 l * cm k p)).
  - rewrite sum_scal. unfold total, Rdiv. lra.
  - intros p H. unfold Rminus. rewrite exp_plus, exp_Ropp, !exp_ln by (try apply total_pos; now apply cm_pos). field. split; [pose proof total_pos; lra|pose proof (cm_pos p H); lra].
Qed.
End Tile.

Lemma total_exact : forall k l lo hi, tiling lo hi (map fst l) -> Forall top_of l ->
  (forall x y, In x (all_points true hi (map fst l)) -> In y (all_points true hi (map fst l)) -> f x - f y <= 725) ->
  total k l = trapezoid (fun x => x ^ k * exp (f x)) (all_points true hi (map fst l)).
Proof.
  intros k. induction l as [|[a M] l IH]; intros lo hi T F H.
  - cbn. reflexivity.
  - cbn [map fst] in *. inversion F as [|? ? F1 F2]; subst. pose proof T as T0. cbn in T. destruct T as (T1 & T2 & T3 & T4). rewrite <- T1 in T0.
    rewrite points_split by (auto; discriminate). unfold total. cbn [map sum_list fold_right]. fold (sum_list (map (cm k) l)). fold (total k l).
    rewrite (IH _ _ T4 F2).
    + f_equal. unfold cm. cbn [fst snd]. apply cmom_exact. intros x Hx. destruct F1 as [(y & Hy & E) _]. cbn [fst snd] in *. rewrite <- E.
      pose proof (H y x (gpoints_sub _ _ _ _ _ T0 Hy) (gpoints_sub _ _ _ _ _ T0 Hx)). lra.
    + intros x y Hx Hy. apply H; rewrite points_cons; apply in_or_app; now right.
Qed.

Lemma log_sum_rows : forall l gs acc, Forall2 (fun p g => logtrapzd g = Ok (ln (cm 0 p))) l gs -> (forall p, In p l -> 0 < cm 0 p) ->
  exists r, logtrapzd_sum acc gs = Ok r /\ exp r = exp acc + total 0 l.
Proof.
  induction l as [|p l IH]; intros gs acc F P; inversion F as [|? g ? gs1 E F1]; subst; cbn [logtrapzd_sum].
  - exists acc. split; auto. unfold total. cbn. lra.
  - rewrite E. pose proof (log_add acc (ln (cm 0 p))) as LA. destruct (if Rltb acc _ then _ else _) as [t' l'].
    destruct (IH gs1 (l' + ln (1 + exp (t' - l'))) F1 (fun q Hq => P q (or_intror Hq))) as (r & -> & Er). exists r. split; auto. rewrite Er, LA.
    rewrite exp_ln by (apply P; now left). unfold total. cbn [map sum_list fold_right]. fold (sum_list (map (cm 0) l)). lra.
Qed.
Lemma log_rows : forall l gs, l <> [] -> Forall2 (fun p g => logtrapzd g = Ok (ln (cm 0 p))) l gs -> (forall p, In p l -> 0 < cm 0 p) ->
  match gs with [] => Err IndexError | g :: gs' => match logtrapzd g with Err e => Err e | Ok t => logtrapzd_sum t gs' end end = Ok (ln (total 0 l)).
Proof.
  intros l gs Nl F P. destruct F as [|p g l gs E F]; [congruence|]. rewrite E. destruct (log_sum_rows l gs (ln (cm 0 p)) F (fun q Hq => P q (or_intror Hq))) as (r & -> & Er).
  f_equal. rewrite exp_ln in Er by (apply P; now left). unfold total. cbn [map sum_list fold_right]. fold (sum_list (map (cm 0) l)). fold (total 0 l). rewrite <- Er. symmetry. apply ln_exp.
Qed.
End Rows.

Lemma trapzd_absc : forall f ivs gs lo hi acc, tiling lo hi ivs -> Forall2 (matches f) ivs gs ->
  trapzd_sum acc (map (fun p => set_absc (gp (fst p)) (snd p)) (combine ivs gs)) = trapzd_sum acc gs.
Proof.
  intros f. induction ivs as [|a ivs IH]; intros gs lo hi acc T F; inversion F as [|? g ? gs1 [M _] F1]; subst; [reflexivity|]. cbn [combine map trapzd_sum fst snd].
  cbn in T. destruct T as (T1 & T2 & T3 & T4). unfold gp at 1. rewrite (trapzd_holds _ _ _ _ _ _ T3 M), (trapzd_holds _ _ _ _ _ _ T3 (absc_holds f true _ _ _ g M)). eapply IH; eauto.
Qed.
Lemma logtrapzd_absc : forall f lin lo hi n g, holds f lin lo hi n g -> logtrapzd (set_absc (gpoints lin lo hi n) g) = logtrapzd g.
Proof.
  intros f lin lo hi n g H. pose proof (log_widths_holds _ _ _ _ _ _ H) as W. pose proof (log_widths_holds _ _ _ _ _ _ (absc_holds f lin lo hi n g H)) as W'.
  unfold logtrapzd. rewrite W, W'. reflexivity.
Qed.
Lemma rows_absc : forall f (P : ival * R -> R) l gs, Forall2 (matches f) (map fst l) gs -> Forall2 (fun p g => logtrapzd g = Ok (P p)) l gs ->
  Forall2 (fun p g => logtrapzd g = Ok (P p)) l (map (fun p => set_absc (gp (fst p)) (snd p)) (combine (map fst l) gs)).
Proof.
  intros f P l. induction l as [|p l IH]; intros gs F G; inversion G as [|? g ? gs1 E G1]; subst; cbn [map combine]; constructor.
  - inversion F as [|? ? ? ? [M _] F1]; subst. cbn [fst snd]. unfold gp. rewrite (logtrapzd_absc f true _ _ _ g M). assumption.
  - apply IH; auto. now inversion F.
Qed.
Lemma nth_combine_map : forall f ivs gs i g, Forall2 (matches f) ivs gs -> nth_error gs i = Some g ->
  exists a, nth_error ivs i = Some a /\ matches f a g /\ nth_error (map (fun p => set_absc (gp (fst p)) (snd p)) (combine ivs gs)) i = Some (set_absc (gp a) g).
Proof.
  intros f ivs gs i g F. revert i. induction F as [|a g' ivs gs M F IH]; intros [|i] H; try discriminate.
  - injection H as <-. exists a. auto.
  - apply IH. exact H.
Qed.

Lemma grid_moments_inv : forall f lo hi n s, (2 <= n)%Z -> lo < hi -> ginv f lo hi n s ->
  let xs := all_points true hi (rl_il (G_ilist s)) in
  exists s' lq m1 m2, grid_logtrapzd s = Ok lq /\
  grid_logtrapzd_mom (Some 1%Z) s = (s', Ok [lq; m1]) /\ grid_logtrapzd_mom (Some 2%Z) s = (s', Ok [lq; m1; m2]) /\
  lo <= m1 <= hi /\ m1 ^ 2 <= m2 /\
  ((forall x y, In x xs -> In y xs -> f x - f y <= 725) ->
     m1 * trapezoid (fun x => exp (f x)) xs = trapezoid (fun x => x * exp (f x)) xs /\ m2 * trapezoid (fun x => exp (f x)) xs = trapezoid (fun x => x ^ 2 * exp (f x)) xs) /\
  (forall fuel k, grid_point fuel s' k = grid_point fuel s k) /\ grid_trapzd s' = grid_trapzd s /\ grid_logtrapzd s' = grid_logtrapzd s.
Proof.
  intros f lo hi n s Hn Hlh [Q1 Q2 [Q3 Q3a] Q4 (P1 & P2 & P3 & P4 & P5) [Q6 Q6a] Q7 [Q8 Q8a] Q9 Q10]. cbv zeta.
  pose proof (inv_tiling _ Q4) as T. rewrite P3, P4 in T. set (il := rl_il (G_ilist s)) in *.
  destruct (rows_ok f il (G_glist s) lo hi T Q9) as (l & gs' & E1 & E2 & E3 & E4 & E5 & E6).
  assert (l <> []) as Nl. { intros ->. rewrite <- E1 in T. cbn in T. lra. }
  assert (T' := T). rewrite <- E1 in T'.
  pose proof (total_pos f lo hi l T' Nl) as TP. pose proof (total_range f lo hi l T') as TR.
  assert (total f 1 l = total f 1 l / total f 0 l * total f 0 l) as D1 by (field; lra).
  exists (with_glist gs' s), (ln (total f 0 l)), (total f 1 l / total f 0 l), (total f 2 l / total f 0 l).
  split; [|split; [|split; [|split; [|split; [|split; [|split; [|split]]]]]]].
  - unfold grid_logtrapzd. apply log_rows; auto. apply (cm_pos f lo hi l T').
  - unfold grid_logtrapzd_mom. cbn [falsy Z.eqb]. rewrite E3. assert (column 0 (map (row1 f) l) = map (fun p => ln (cm f 0 p)) l) as C0 by (unfold column; rewrite map_map; reflexivity). assert (column 1 (map (row1 f) l) = map (fun p => cm f 1 p / cm f 0 p) l) as C1 by (unfold column; rewrite map_map; reflexivity). rewrite C0, C1.
    rewrite (lquad_is f lo hi l T' Nl), (mean_is f lo hi l T' Nl 1). reflexivity.
  - unfold grid_logtrapzd_mom. cbn [falsy Z.eqb]. rewrite E4. assert (column 0 (map (row2 f) l) = map (fun p => ln (cm f 0 p)) l) as C0 by (unfold column; rewrite map_map; reflexivity). assert (column 1 (map (row2 f) l) = map (fun p => cm f 1 p / cm f 0 p) l) as C1 by (unfold column; rewrite map_map; reflexivity). assert (column 2 (map (row2 f) l) = map (fun p => cm f 2 p / cm f 0 p) l) as C2 by (unfold column; rewrite map_map; reflexivity). rewrite C0, C1, C2.
    rewrite (lquad_is f lo hi l T' Nl), (mean_is f lo hi l T' Nl 1), (mean_is f lo hi l T' Nl 2). reflexivity.
  - split; apply (Rmult_le_reg_r (total f 0 l)); try assumption; rewrite <- D1; lra.
  - pose proof (total_square f lo hi l T' (total f 1 l / total f 0 l)) as S. apply (Rmult_le_reg_r (total f 0 l)); [assumption|].
    replace (total f 2 l / total f 0 l * total f 0 l) with (total f 2 l) by (field; lra). rewrite D1 in S at 2. lra.
  - intros Hc. rewrite <- E1 in Hc |- *. rewrite <- (trap_ext (fun x => x ^ 0 * exp (f x)) (fun x => exp (f x))) by (intros x _; cbn; lra).
    rewrite <- (trap_ext (fun x => x ^ 1 * exp (f x)) (fun x => x * exp (f x))) by (intros x _; rewrite pow_1; reflexivity).
    rewrite <- !(total_exact f _ l lo hi T' E2 Hc). split; field; lra.
  - intros fuel k. unfold grid_point. cbn [with_glist G_ilist G_glist]. destruct (nlocate fuel k (G_ilist s)) as [[[i j] ?]|e]; [|reflexivity].
    destruct (nth_error (G_glist s) i) as [g|] eqn:Eg.
    + destruct (nth_combine_map f il (G_glist s) i g Q9 Eg) as (a & Ea & [M _] & Eg'). rewrite E5, Eg'. unfold gp.
      destruct (tiling_each il lo hi a T (nth_error_In _ _ Ea)) as (_ & B & _). apply (same_point f); auto.
    + replace (nth_error gs' i) with (@None bgrid); [reflexivity|]. symmetry. apply nth_error_None. apply nth_error_None in Eg.
      rewrite E5, map_length, combine_length. lia.
  - unfold grid_trapzd. cbn [with_glist G_glist]. rewrite E5. apply (trapzd_absc f il (G_glist s) lo hi 0 T Q9).
  - unfold grid_logtrapzd. cbn [with_glist G_glist]. rewrite (log_rows f l (G_glist s) Nl E6 (cm_pos f lo hi l T')).
    apply log_rows; [assumption| |apply (cm_pos f lo hi l T')]. rewrite E5, <- E1. apply (rows_absc f); auto. now rewrite E1.
Qed.

Lemma refined_moments : forall f lo hi n nmax dynrange sigpts nsig peak calls,
  (2 <= n)%Z -> lo < hi -> nmax <> Some O -> (2 <= sigpts)%Z -> (1 <= nsig)%Z ->
  exists s s1, new_grid lo hi n true nmax dynrange sigpts nsig peak = Ok s /\ firstpass f s = (s1, Ok tt) /\
  let s2 := refines calls s1 in
  let xs := all_points true hi (rl_il (G_ilist s2)) in
  exists s3 lq m1 m2, grid_logtrapzd s2 = Ok lq /\
  grid_logtrapzd_mom (Some 1%Z) s2 = (s3, Ok [lq; m1]) /\ grid_logtrapzd_mom (Some 2%Z) s2 = (s3, Ok [lq; m1; m2]) /\
  lo <= m1 <= hi /\ m1 ^ 2 <= m2 /\
  ((forall x y, In x xs -> In y xs -> f x - f y <= 725) ->
     m1 * trapezoid (fun x => exp (f x)) xs = trapezoid (fun x => x * exp (f x)) xs /\ m2 * trapezoid (fun x => exp (f x)) xs = trapezoid (fun x => x ^ 2 * exp (f x)) xs) /\
  (forall fuel k, grid_point fuel s3 k = grid_point fuel s2 k) /\ grid_trapzd s3 = grid_trapzd s2 /\ grid_logtrapzd s3 = grid_logtrapzd s2.
Proof.
  intros f lo hi n nmax dynrange sigpts nsig peak calls Hn Hlh Hm Hp Hs.
  destruct (firstpass_inv f lo hi n nmax dynrange sigpts nsig peak Hn Hlh Hm Hp Hs) as (s & s1 & E & E1 & I1).
  exists s, s1. split; [exact E|]. split; [exact E1|]. cbv zeta. destruct (refines_inv calls f lo hi n s1 Hn Hlh I1) as (I2 & _).
  exact (grid_moments_inv f lo hi n _ Hn Hlh I2).
Qed.

(** What is refused *)
Lemma basic_refused : forall f lo hi n lin peak m, (2 <= n)%Z -> lo < hi -> (lin = false -> 0 < lo) -> lm_nmax m <> Some O ->
  exists g, new_bgrid lo hi n lin peak = Ok g /\ (forall nmom, logtrapzd_mom nmom g = (g, Err RuntimeError)) /\
  forall evaluate, evaluate = stepfunc \/ evaluate = vecfunc ->
  exists g' m', evaluate f g m = (g', m', Ok tt) /\ logtrapzd_mom (Some 0%Z) g' = logtrapzd_mom None g' /\
  forall k, (k < 0 \/ 2 < k)%Z -> logtrapzd_mom (Some k) g' = (g', Err ValueError).
Proof.
  intros f lo hi n lin peak m Hn Hl Hlin Hm. destruct (basic_moments f lo hi n lin peak m Hn Hl Hlin Hm) as (g & E & H). exists g. split; [exact E|]. split.
  - intros nmom. assert (V : g_vals g = None).
    { unfold new_bgrid in E. repeat match type of E with context [if ?b then _ else _] => destruct b; try discriminate end; injection E as <-; reflexivity. }
    unfold logtrapzd_mom. now rewrite V.
  - intros evaluate He. destruct (H evaluate He) as (g' & m' & g'' & q & m1 & m2 & E1 & _ & E2 & _). cbv zeta in E2. exists g', m'. split; [exact E1|].
    unfold logtrapzd_mom in *. destruct (g_vals g') as [v|]; [|discriminate]. split; [reflexivity|]. intros k Hk. cbn [falsy].
    destruct (Z.eqb_spec k 0); [lia|]. destruct (Z.eqb_spec k 1); [lia|]. destruct (Z.eqb_spec k 2); [lia|]. reflexivity.
Qed.
Lemma refined_refused : forall f lo hi n nmax dynrange sigpts nsig peak calls,
  (2 <= n)%Z -> lo < hi -> nmax <> Some O -> (2 <= sigpts)%Z -> (1 <= nsig)%Z ->
  exists s s1, new_grid lo hi n true nmax dynrange sigpts nsig peak = Ok s /\ firstpass f s = (s1, Ok tt) /\
  let s2 := refines calls s1 in
  (forall nmom, nmom = None \/ nmom = Some 0%Z -> grid_logtrapzd_mom nmom s2 = (s2, Err AttributeError)) /\
  forall k, (k < 0 \/ 2 < k)%Z -> snd (grid_logtrapzd_mom (Some k) s2) = Err ValueError.
Proof.
  intros f lo hi n nmax dynrange sigpts nsig peak calls Hn Hlh Hm Hp Hs.
  destruct (firstpass_inv f lo hi n nmax dynrange sigpts nsig peak Hn Hlh Hm Hp Hs) as (s & s1 & E & E1 & I1).
  exists s, s1. split; [exact E|]. split; [exact E1|]. cbv zeta. destruct (refines_inv calls f lo hi n s1 Hn Hlh I1) as (I2 & _).
  split; [intros nmom [-> | ->]; reflexivity|]. intros k Hk. destruct I2 as [Q1 Q2 [Q3 Q3a] Q4 (P1 & P2 & P3 & P4 & P5) [Q6 Q6a] Q7 [Q8 Q8a] Q9 Q10].
  pose proof (inv_tiling _ Q4) as T. rewrite P3, P4 in T. set (s2 := refines calls s1) in *. unfold grid_logtrapzd_mom. cbn [falsy]. destruct (Z.eqb_spec k 0); [lia|].
  destruct Q9 as [|a g il gs [M _] F]; [cbn in T; lra|]. cbn in T. destruct T as (T1 & T2 & T3 & T4).
  destruct (mom_holds f true (i_lo a) (i_hi a) (i_n a) T3 ltac:(discriminate) T2 g M) as (mx & q & _ & _ & _ & _ & EM & _). specialize (EM None eq_refl). cbn [moms_of].
  replace (logtrapzd_mom (Some k) g) with (g, @Err (list R) ValueError); [reflexivity|]. unfold logtrapzd_mom in *. destruct (g_vals g) as [v|]; [|discriminate]. cbn [falsy].
  destruct (Z.eqb_spec k 0); [lia|]. destruct (Z.eqb_spec k 1); [lia|]. destruct (Z.eqb_spec k 2); [lia|]. reflexivity.
Qed.
