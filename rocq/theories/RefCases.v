(** Worked cases for refined grids, and the exact forms of the theorems. *)

From Coq Require Import ZArith List Bool Arith Reals Sorted Lra Lia.
From Verif Require Import Exn Instances CountLemmas2 RefModel RefSpec RefLemmas RefLemmas2 RefLemmas3 RefLemmas4 RefLemmas5 RefLemmas6 RefLemmas7 RefLemmas8.
Import ListNotations.
Local Open Scope R_scope.

Lemma Int_part_eq : forall x k, IZR k <= x < IZR k + 1 -> Int_part x = k.
Proof.
  intros x k [A B]. destruct (Int_part_bounds x) as [C D].
  assert (k < Int_part x + 1)%Z by (apply lt_IZR; rewrite plus_IZR; lra).
  assert (Int_part x < k + 1)%Z by (apply lt_IZR; rewrite plus_IZR; lra). lia.
Qed.
Lemma ceil_eq : forall x k, IZR k - 1 < x <= IZR k -> ceil x = k.
Proof. intros x k H. unfold ceil. rewrite (Int_part_eq (- x) (- k)); [lia|]. rewrite opp_IZR. lra. Qed.

(** Decide the comparisons of numbers in the goal. *)
Ltac rdec :=
  repeat match goal with
  | |- context [Rltb ?a ?b] =>
      first [ replace (Rltb a b) with true by (symmetry; apply Rltb_spec; lra)
            | replace (Rltb a b) with false by (symmetry; apply Rltb_false; lra) ]
  | |- context [Rleb ?a ?b] =>
      first [ replace (Rleb a b) with true by (symmetry; apply Rleb_spec; lra)
            | replace (Rleb a b) with false by (symmetry; apply Rleb_false; lra) ]
  | |- context [Reqb ?a ?b] =>
      first [ replace (Reqb a b) with true by (symmetry; apply Reqb_spec; lra)
            | replace (Reqb a b) with false by (symmetry; apply Reqb_false; lra) ]
  | |- context [Int_part ?x] => let k := constr:(0%Z) in rewrite (Int_part_eq x k) by lra
  end.

(** ** The list of maxima *)

Lemma peaks_best : forall L (h : list (R * L)) nmax range,
  nmax <> Some O -> (forall r, range = Some r -> 1 < r) ->
  exists l, report_seq h (new_lml nmax range) = (Lml nmax (option_map ln range) l, Ok tt)
    /\ best_of nmax (option_map ln range) h l.
Proof.
  intros L h nmax range Hm Hr.
  destruct (report_seq_best nmax (option_map ln range) h [] []) as (l & E & B).
  - split.
    + intros k ->. destruct k; [congruence|lia].
    + intros d H. destruct range as [r|]; [|discriminate]. inversion H. rewrite <- ln_1. apply ln_increasing; [lra|auto].
  - apply best_nil.
  - exists l. split; [|exact B]. unfold new_lml. destruct range; exact E.
Qed.

Lemma limit_keeps : forall L nmax dyn p (l : list (R * L)) r, 1 <= r ->
  StronglySorted (fun a b => fst b <= fst a) (p :: l) ->
  limitRange r (Lml nmax dyn (p :: l)) = (Lml nmax dyn (filter (fun x => Rleb (fst p - fst x) (ln r)) (p :: l)), Ok tt).
Proof.
  intros L nmax dyn p l r Hr S. unfold limitRange. cbn [lm_list lm_nmax lm_dyn]. do 2 f_equal. cbn [filter].
  assert (0 <= ln r) as H0. { rewrite <- ln_1. destruct Hr as [Hr| <-]; [left; apply ln_increasing; lra|lra]. }
  replace (Rleb (fst p - fst p) (ln r)) with true by (symmetry; apply Rleb_spec; lra). f_equal. clear S.
  induction l as [|a l IH]; [reflexivity|]. cbn [prune_from filter]. rewrite IH.
  destruct (Rltb (ln r) (fst p - fst a)) eqn:E; destruct (Rleb (fst p - fst a) (ln r)) eqn:E2; rb; auto; lra.
Qed.

(** ** Intervals *)

Lemma lists_tile : forall lo hi n lin reqs, (2 <= n)%Z -> lo <> hi -> (lin = false -> 0 < lo /\ 0 < hi) ->
  Forall (fun r => (1 <= snd r)%Z) reqs ->
  exists s, new_rlist lo hi n lin = Ok s /\
  let s' := updates reqs s in
  let a := Rmin lo hi in let b := Rmax lo hi in
  let xs := all_points lin b (rl_il s') in
  tiling a b (rl_il s') /\ rl_npts s' = count_points (rl_il s')
  /\ StronglySorted Rlt xs /\ hd_error xs = Some a /\ last xs 0 = b /\ Z.of_nat (length xs) = rl_npts s'.
Proof.
  intros lo hi n lin reqs Hn Hlh H0 F. destruct (new_inv lo hi n lin Hn Hlh H0) as (s & E & I & L & P & H1 & H2 & H3).
  exists s. split; [exact E|]. cbv zeta. destruct (updates_inv reqs s I F) as (I' & (F1 & F2 & F3 & F4 & F5) & _).
  pose proof (inv_tiling _ I') as T. rewrite F3, F4, H1, H2 in T. split; [exact T|]. split; [apply (inv_npts _ I')|].
  destruct (points_facts lin (rl_il (updates reqs s)) _ _ T) as (S1 & S2 & S3 & S4).
  { intros L'. pose proof (inv_pos s I) as P0. rewrite L, H1 in P0. auto. }
  split; [exact S1|]. split; [|split; [apply points_last|]].
  - destruct (all_points lin (Rmax lo hi) (rl_il (updates reqs s))); cbn in *; congruence.
  - rewrite S3, (inv_npts _ I'). assert (0 < length (all_points lin (Rmax lo hi) (rl_il (updates reqs s))))%nat.
    { destruct (all_points lin (Rmax lo hi) (rl_il (updates reqs s))); [discriminate|cbn; lia]. }
    rewrite Z2Nat.id; lia.
Qed.

Lemma reversed_refuse : forall lo hi n lin s, hi < lo -> new_rlist lo hi n lin = Ok s ->
  forall a b m, update a b m s = (s, Err ValueError).
Proof.
  intros lo hi n lin s H E a b m. unfold new_rlist in E. destruct (Z.leb n 1); [discriminate|]. destruct (Reqb lo hi); [discriminate|].
  replace (Rltb lo hi) with false in E by (symmetry; apply Rltb_false; lra). destruct (negb lin && _); [discriminate|].
  destruct (mk_ival hi lo n lin); [|discriminate]. inversion E; subst. unfold update. cbn [rl_pos rl_lo rl_hi].
  replace (Rleb _ _) with true; [reflexivity|]. symmetry. apply Rleb_spec. apply Rmin_l.
Qed.

(** 0, 1, ..., 10. *)
Definition ten : rlist := RList true true 0 10 (Ival 0 10 11 ((10 - 0) / (11 - 1)) 0 true) [Ival 0 10 11 ((10 - 0) / (11 - 1)) 0 true] 11 [11%Z].
Lemma ten_new : new_rlist 0 10 11 true = Ok ten.
Proof. unfold new_rlist. cbn [Z.leb Z.compare Pos.compare Pos.compare_cont negb andb]. rdec. reflexivity. Qed.

Lemma ten_locate : forall k, (0 <= k <= 9)%Z -> i_locate (Ival 0 10 11 ((10 - 0) / (11 - 1)) 0 true) (IZR k) =
  (k, 0 + IZR k * ((10 - 0) / (11 - 1)), 0 + IZR k * ((10 - 0) / (11 - 1)) + (10 - 0) / (11 - 1)).
Proof.
  intros k H. unfold i_locate. cbn [i_lin i_lo i_step i_n]. rewrite (Int_part_eq _ k) by lra.
  replace (Z.eqb k (11 - 1)) with false by (symmetry; apply Z.eqb_neq; lia). reflexivity.
Qed.

(** A request for no points at all breaks the list. *)
Lemma ten_zero : exists a, update 2 3 0 ten = (with_il [a] ten, Err ValueError) /\ i_lo a = 0 /\ i_hi a < 10.
Proof.
  eexists. unfold update, ten. cbn [rl_lin rl_pos rl_lo rl_hi rl_il first_such i_lo i_hi].
  rewrite (Rmax_left 2 0), (Rmin_left 3 10) by lra. rdec. cbn [Z.eqb andb].
  pose proof (ten_locate 2 ltac:(lia)) as L2. pose proof (ten_locate 3 ltac:(lia)) as L3. rewrite L2, L3. clear L2 L3.
  unfold step_size. rdec. cbn [negb Nat.eqb]. unfold update_inside. cbn [i_step i_lo i_hi]. rdec.
  unfold bind, il_del, modify, il_insert, ret, mk_ival, with_il, del_at, ins_at, num_pts.
  rewrite (ceil_eq _ 2) by lra. cbn. split; [reflexivity|]. cbn. lra.
Qed.

(** ** Density *)

Lemma lin_no_coarser : forall lo hi n reqs, (2 <= n)%Z -> lo <> hi -> Forall (fun r => (1 <= snd r)%Z) reqs ->
  exists s, new_rlist lo hi n true = Ok s /\
  forall more, Forall (fun r => (1 <= snd r)%Z) more ->
  let s1 := updates reqs s in let s2 := updates more s1 in
  forall b x, In b (rl_il s2) -> i_lo b <= x < i_hi b ->
    exists a, In a (rl_il s1) /\ i_lo a <= x < i_hi a /\ i_step b <= i_step a.
Proof.
  intros lo hi n reqs Hn Hlh F. destruct (new_inv lo hi n true Hn Hlh ltac:(discriminate)) as (s & E & I & L & _).
  exists s. split; [exact E|]. intros more Fm. cbv zeta. destruct (updates_inv reqs s I F) as (I1 & Fr & _).
  destruct (updates_inv more _ I1 Fm) as (_ & _ & NC). destruct Fr as (_ & F2 & _). rewrite L in F2.
  intros b x Hb Hx. destruct (NC F2 b x Hb Hx) as (a & A & B & C). exists a. auto.
Qed.

Lemma lin_density : forall lo hi n reqs, (2 <= n)%Z -> lo < hi -> Forall (fun r => (1 <= snd r)%Z) reqs ->
  exists s, new_rlist lo hi n true = Ok s /\
  forall a b m, (2 <= m)%Z -> Rmax a lo < Rmin b hi ->
  let want := (Rmin b hi - Rmax a lo) / (IZR m - 1) in
  exists s2, update a b m (updates reqs s) = (s2, Ok tt) /\
    ((hi - lo) / (IZR n - 1) < 5 * want ->
     forall iv x, In iv (rl_il s2) -> i_lo iv <= x < i_hi iv -> Rmax a lo <= x < Rmin b hi -> i_step iv <= want).
Proof.
  intros lo hi n reqs Hn Hlh F. destruct (new_inv lo hi n true Hn ltac:(lra) ltac:(discriminate)) as (s & E & I & L & P & H1 & H2 & H3).
  exists s. split; [exact E|]. intros a b m Hm Hov. cbv zeta. destruct (updates_inv reqs s I F) as (I1 & (F1 & F2 & F3 & F4 & F5) & _).
  rewrite Rmin_left in H1 by lra. rewrite Rmax_right in H2 by lra.
  pose proof (update_spec a b m _ I1 ltac:(lia)) as U. destruct (update a b m (updates reqs s)) as [s2 r]. destruct U as (_ & _ & _ & U).
  rewrite F1, F2, F3, F4, F5, P, L, H1, H2 in U. destruct U as [-> U]; auto; [apply Rltb_spec; auto|].
  exists s2. split; auto. intros Hw. apply (U eq_refl). destruct (inv_base _ I) as ((_ & _ & _ & _ & B) & B1 & B2 & B3).
  rewrite B, B1, B2, B3, L, H1, H2, H3. exact Hw.
Qed.

(** A logarithmic list from 1/1000 to 1 with points at each factor of 10. *)
Definition dec_base : ival := Ival (1/1000) 1 4 (ln (1 / (1/1000)) / (4 - 1)) (exp (ln (1 / (1/1000)) / (4 - 1))) false.
Definition dec : rlist := RList true false (1/1000) 1 dec_base [dec_base] 4 [4%Z].
Lemma dec_new : new_rlist (1/1000) 1 4 false = Ok dec.
Proof.
  unfold new_rlist. cbn [Z.leb Z.compare Pos.compare Pos.compare_cont negb andb]. rdec. unfold mk_ival.
  cbn [Z.leb Z.compare Pos.compare Pos.compare_cont]. rdec. reflexivity.
Qed.

Lemma ln10 : 2 <= ln 10 <= 3.
Proof.
  split.
  - rewrite <- (ln_exp 2). left. apply ln_increasing; [apply exp_pos|]. replace 2 with (1 + 1) by lra. rewrite exp_plus.
    pose proof exp_le_3. pose proof (exp_pos 1). nra.
  - rewrite <- (ln_exp 3). left. apply ln_increasing; [lra|]. replace 3 with ((3/5 + 3/5) + (3/5 + (3/5 + 3/5))) by lra. rewrite !exp_plus.
    pose proof (exp_ineq1 (3/5) ltac:(lra)) as H. set (e := exp (3/5)) in *.
    assert (64/25 <= e * e) by nra. assert (512/125 <= e * (e * e)) by nra. nra.
Qed.
Lemma ln100 : forall x, x = 100 -> ln x = 2 * ln 10.
Proof. intros x ->. replace 100 with (10 * 10) by lra. rewrite ln_mult by lra. lra. Qed.
Lemma ln1000 : forall x, x = 1000 -> ln x = 3 * ln 10.
Proof. intros x ->. replace 1000 with (10 * 100) by lra. rewrite ln_mult, (ln100 100) by lra. lra. Qed.

Lemma dec_step : ln (1 / (1/1000)) / (4 - 1) = ln 10.
Proof. rewrite (ln1000 (1 / (1/1000))) by lra. lra. Qed.

(** After refining the last decade. *)
Definition dec2 : rlist :=
  RList true false (1/1000) 1 dec_base
    [Ival (1/1000) (1/10) 3 ((1/10 - 1/1000) / (3 - 1)) 0 true; Ival (1/10) 1 20 ((1 - 1/10) / (20 - 1)) 0 true] 22 [2%Z; 22%Z].

Lemma exp_2ln : exp (2 * ln 10) = 100.
Proof. rewrite <- (ln100 100) by reflexivity. apply exp_ln. lra. Qed.
Lemma exp_3ln : exp (3 * ln 10) = 1000.
Proof. rewrite <- (ln1000 1000) by reflexivity. apply exp_ln. lra. Qed.

Lemma dec_refined : update (1/10) 1 20 dec = (dec2, Ok tt).
Proof.
  pose proof ln10 as L10.
  unfold update, dec. cbn [rl_lin rl_pos rl_lo rl_hi rl_il first_such i_lo i_hi dec_base].
  rewrite (Rmax_left (1/10) (1/1000)), (Rmin_left 1 1) by lra. rdec. cbn [Z.eqb Pos.eqb andb].
  assert (i_locate dec_base (1/10) = (2%Z, 1/10, 1)) as ->.
  { unfold i_locate, dec_base. cbn [i_lin i_lo i_step i_n i_fac]. rewrite dec_step. rewrite (ln100 (1 / 10 / (1/1000))) by lra.
    rewrite (Int_part_eq _ 2) by (replace (2 * ln 10 / ln 10) with 2 by (field; lra); lra). cbn [Z.eqb Pos.eqb Z.sub Z.add Z.opp Z.pos_sub Pos.pred_double].
    rewrite exp_2ln, exp_ln by lra. f_equal; [f_equal|]; lra. }
  assert (i_locate dec_base 1 = (3%Z, 1, 1)) as ->.
  { unfold i_locate, dec_base. cbn [i_lin i_lo i_step i_n i_fac]. rewrite dec_step. rewrite (ln1000 (1 / (1/1000))) by lra.
    rewrite (Int_part_eq _ 3) by (replace (3 * ln 10 / ln 10) with 3 by (field; lra); lra). cbn [Z.eqb Pos.eqb Z.sub Z.add Z.opp Z.pos_sub Pos.pred_double].
    rewrite exp_3ln. f_equal; [f_equal|]; lra. }
  unfold step_size. replace (1 / (1/10)) with 10 by lra. rdec. cbn [negb Nat.eqb]. unfold update_inside. cbn [i_step i_lo i_hi dec_base]. 
  fold dec_base. change (i_step dec_base) with (ln (1 / (1/1000)) / (4 - 1)). rewrite dec_step. replace (1 / (1/10)) with 10 by lra. rdec.
  unfold bind, il_del, modify, il_insert, ret, mk_ival, with_il, del_at, ins_at, num_pts.
  rewrite (ln100 (1 / 10 / (1 / 1000))) by lra. rewrite (ceil_eq _ 2) by (replace (2 * ln 10 / ln 10) with 2 by (field; lra); lra).
  cbn [Z.leb Z.compare Pos.compare Pos.compare_cont Z.add Pos.add Pos.succ rl_il rl_pos rl_lin rl_lo rl_hi rl_base rl_npts rl_cum firstn skipn app dec_base i_lo i_hi].
  rdec. unfold merge. cbn [rl_il length merge_loop nth_error i_step rl_npts rl_cum rl_pos rl_lin rl_lo rl_hi rl_base i_n i_lo i_hi]. rdec.
  reflexivity.
Qed.

(** The request for the first decade is then taken to be fulfilled. *)
Lemma dec_ignored : update (1/1000) (1/100) 20 dec2 = (dec2, Ok tt).
Proof.
  pose proof ln10 as L10. unfold update, dec2. cbn [rl_lin rl_pos rl_lo rl_hi rl_il first_such i_lo i_hi].
  rewrite (Rmax_left (1/1000) (1/1000)), (Rmin_left (1/100) 1) by lra. rdec. cbn [Z.eqb Pos.eqb andb].
  assert (i_locate (Ival (1/1000) (1/10) 3 ((1/10 - 1/1000) / (3 - 1)) 0 true) (1/1000) = (0%Z, 1/1000, 101/2000)) as ->.
  { unfold i_locate. cbn [i_lin i_lo i_step i_n i_fac]. rewrite (Int_part_eq _ 0) by lra. cbn. f_equal; [f_equal|]; lra. }
  assert (i_locate (Ival (1/1000) (1/10) 3 ((1/10 - 1/1000) / (3 - 1)) 0 true) (1/100) = (0%Z, 1/1000, 101/2000)) as ->.
  { unfold i_locate. cbn [i_lin i_lo i_step i_n i_fac]. rewrite (Int_part_eq _ 0) by lra. cbn. f_equal; [f_equal|]; lra. }
  unfold step_size. replace (1 / 100 / (1 / 1000)) with 10 by lra. rdec. cbn [negb Nat.eqb].
  unfold update_inside. cbn [i_step]. set (L := ln (101 / 2000 / (1 / 1000))).
  assert (2 <= L) as HL. { apply Rle_trans with (ln 10); [lra|]. left. apply ln_increasing; lra. }
  set (st := ln 10 / (20 - 1)). assert (1/10 <= st) as Hst by (unfold st; lra).
  unfold num_pts. fold L. pose proof (ceil_bounds (L / st)) as [C1 C2]. rewrite plus_IZR. set (c := IZR (ceil (L / st))) in *.
  assert (L / st <= 10 * L). { apply Rmult_le_reg_r with st; [lra|]. unfold Rdiv. rewrite Rmult_assoc, Rinv_l by lra. nra. }
  assert (0 < L / st) by (apply Rdiv_lt_0_compat; lra).
  replace (Rleb ((1 / 10 - 1 / 1000) / (3 - 1)) (L / (c + 1 - 1))) with true; [reflexivity|]. symmetry. apply Rleb_spec.
  replace (c + 1 - 1) with c by lra. apply Rmult_le_reg_r with c; [lra|]. replace (L / c * c) with L by (field; lra). nra.
Qed.

(** ** Grids *)

(** A grid evaluated at all its points, by either method. *)
Lemma basic_sums : forall f lo hi n lin peak m, (2 <= n)%Z -> lo < hi -> (lin = false -> 0 < lo) -> lm_nmax m <> Some O ->
  exists g, new_bgrid lo hi n lin peak = Ok g /\
  forall evaluate, evaluate = stepfunc \/ evaluate = vecfunc ->
  exists g' m' r, evaluate f g m = (g', m', Ok tt) /\
  let xs := gpoints lin lo hi n in
  StronglySorted Rlt xs /\ hd_error xs = Some lo /\ last xs 0 = hi /\
  trapzd g' = Ok (trapezoid f xs) /\ logtrapzd g' = Ok r
  /\ (forall top, (forall x, In x xs -> f x <= top) ->
      trapezoid (fun x => exp (f x)) xs <= exp r <= trapezoid (fun x => exp (f x)) xs + exp (top - 725) * (hi - lo))
  /\ ((forall x y, In x xs -> In y xs -> f x - f y <= 725) -> exp r = trapezoid (fun x => exp (f x)) xs).
Proof.
  intros f lo hi n lin peak m Hn Hlh H0 Hm. unfold new_bgrid. replace (Z.leb n 1) with false by (symmetry; apply Z.leb_gt; lia).
  replace (negb lin && Rleb (lo * hi) 0) with false.
  2:{ symmetry. destruct lin; auto. specialize (H0 eq_refl). cbn. apply Rleb_false. assert (0 < lo * hi) by (apply Rmult_lt_0_compat; lra). lra. }
  eexists. split; [reflexivity|]. intros ev Hev. set (g := BGrid _ _ _ _ _ _ _ _).
  assert (exists g' m', ev f g m = (g', m', Ok tt) /\ holds f lin lo hi n g') as (g' & m' & E & H).
  { destruct Hev as [-> | ->].
    - destruct (stepfunc_holds f g m Hm) as (g' & m' & E & H & _); auto. eauto.
    - destruct (vecfunc_holds f g m Hm) as (g' & m' & E & H); auto. eauto. }
  destruct (logtrapzd_holds f lin lo hi n g' Hn H0 Hlh H) as (r & M & Er & (xm & Hx & Ex) & HM & EE).
  exists g', m', r. split; [exact E|]. cbv zeta. destruct (gpoints_last lin lo hi n Hn H0 Hlh) as (l & El & La).
  pose proof (gpoints_sorted lin lo hi n Hn H0 Hlh) as S. split; [exact S|]. split; [now rewrite El|]. split; [now rewrite El|].
  split; [now apply trapzd_holds|]. split; [exact Er|]. split.
  - intros top Ht. rewrite EE. rewrite El in *. pose proof (floor_bounds f M top lo l S) as FB. rewrite La in FB. apply FB. rewrite <- Ex. auto.
  - intros Hc. rewrite EE. apply floor_exact. intros y Hy. pose proof (Hc xm y Hx Hy). lra.
Qed.

Lemma glist_sum : forall f s, Forall (evaluated f) (G_glist s) ->
  grid_trapzd s = Ok (fold_right Rplus 0 (map (trap_of f) (G_glist s))).
Proof.
  intros f s F. unfold grid_trapzd. replace (fold_right Rplus 0 (map (trap_of f) (G_glist s))) with (0 + fold_right Rplus 0 (map (trap_of f) (G_glist s))) by lra.
  generalize 0 at 1 2. induction F as [|g l (lo & hi & n & lin & peak & g0 & m & m' & E0 & Hm & E) F IH]; intros acc; cbn [trapzd_sum map fold_right].
  - f_equal. lra.
  - unfold new_bgrid in E0. destruct (Z.leb_spec n 1) as [|Hn]; [discriminate|]. destruct (negb lin && Rleb (lo * hi) 0); [discriminate|].
    inversion E0 as [E1]. assert (g_step g0 = span (g_lin g0) (g_lo g0) (g_hi g0) / (IZR (g_n g0) - 1)) as Es by (rewrite <- E1; reflexivity).
    assert (g_absc g0 = None) as Ha by (rewrite <- E1; reflexivity). assert (2 <= g_n g0)%Z as Hn0 by (rewrite <- E1; cbn; lia). clear E1.
    destruct (stepfunc_holds f g0 m Hm Es Ha) as (g' & m2 & E' & H & _). rewrite E in E'. inversion E'; subst g' m2.
    pose proof H as [A B C D _ _ _].
    rewrite (trapzd_holds f _ _ _ _ g Hn0 H). rewrite IH. f_equal. unfold trap_of. rewrite A, B, C, D. lra.
Qed.

Lemma grid_sums : forall f lo hi n nmax dynrange sigpts nsig peak calls,
  (2 <= n)%Z -> lo < hi -> nmax <> Some O -> (2 <= sigpts)%Z -> (1 <= nsig)%Z ->
  exists s s1, new_grid lo hi n true nmax dynrange sigpts nsig peak = Ok s /\ firstpass f s = (s1, Ok tt) /\
  let s2 := refines calls s1 in
  let xs := all_points true hi (rl_il (G_ilist s2)) in
  StronglySorted Rlt xs /\ hd_error xs = Some lo /\ last xs 0 = hi /\ Z.of_nat (length xs) = G_tot s2
  /\ snd (refine None s2) = Ok tt
  /\ grid_trapzd s2 = Ok (trapezoid f xs)
  /\ (forall F, affine_between f xs -> (forall x, lo <= x <= hi -> derivable_pt_lim F x (f x)) ->
        grid_trapzd s2 = Ok (F hi - F lo))
  /\ (forall top, (forall x, In x xs -> f x <= top) -> exists r, grid_logtrapzd s2 = Ok r
        /\ trapezoid (fun x => exp (f x)) xs <= exp r <= trapezoid (fun x => exp (f x)) xs + exp (top - 725) * (hi - lo)
        /\ ((forall x y, In x xs -> In y xs -> f x - f y <= 725) -> exp r = trapezoid (fun x => exp (f x)) xs))
  /\ (forall k, (0 <= k < G_tot s2)%Z -> exists x w, grid_point (length (rl_il (G_ilist s2))) s2 k = Ok (x, w, Some (f x))
        /\ nth_error xs (Z.to_nat k) = Some x
        /\ match nth_error xs (Z.to_nat k + 1) with Some x' => w = x' - x | None => w = 0 end).
Proof.
  intros f lo hi n nmax dynrange sigpts nsig peak calls Hn Hlh Hm Hp Hs.
  destruct (firstpass_inv f lo hi n nmax dynrange sigpts nsig peak Hn Hlh Hm Hp Hs) as (s & s1 & E & E1 & I1).
  exists s, s1. split; [exact E|]. split; [exact E1|]. cbv zeta. destruct (refines_inv calls f lo hi n s1 Hn Hlh I1) as (I2 & _).
  destruct (grid_facts f lo hi n _ Hn Hlh I2) as (A & B & C & D & E2 & F & G). cbv zeta in *.
  repeat (split; [assumption|]). split; [apply (refine_inv f lo hi n _ None Hn Hlh I2); auto|]. split; [exact E2|]. split; [|split; auto].
  intros FF Aff De. rewrite E2. f_equal. destruct (all_points true hi (rl_il (G_ilist (refines calls s1)))) as [|x l]; [discriminate|].
  cbn in B. inversion B; subst x. rewrite (trap_exact f FF l lo A Aff); [now rewrite C|rewrite C; exact De].
Qed.

(** The line 3x+1 on [0,10] rises to a maximum at the end, near which the
    grid is refined. *)
Lemma line_grid : forall calls, exists s s1, new_grid 0 10 11 true None (Some 100000) 11 4 true = Ok s
  /\ firstpass (fun x => 3 * x + 1) s = (s1, Ok tt) /\ grid_trapzd (refines calls s1) = Ok 160.
Proof.
  intros calls. destruct (grid_sums (fun x => 3 * x + 1) 0 10 11 None (Some 100000) 11 4 true calls) as (s & s1 & E & E1 & H); try lia; try lra; try discriminate.
  exists s, s1. split; [exact E|]. split; [exact E1|]. cbv zeta in H. destruct H as (_ & _ & _ & _ & _ & _ & H & _).
  rewrite (H (fun x => 3/2 * x ^ 2 + x)).
  - f_equal. lra.
  - clear H. induction (all_points true 10 (rl_il (G_ilist (refines calls s1)))) as [|a l IH]; [exact I|]. destruct l as [|b l]; [exact I|].
    split; [intros x _; ring|exact IH].
  - intros x _. replace (3 * x + 1) with (3/2 * (INR 2 * x ^ 1) + 1) by (cbn [INR]; field).
    apply (derivable_pt_lim_plus (fun x => 3/2 * x ^ 2) id); [|apply derivable_pt_lim_id].
    apply (derivable_pt_lim_scal (fun x => x ^ 2)). apply (derivable_pt_lim_pow x 2).
Qed.

(** ** Peaks found by the two ways of evaluating *)

Definition hill (x : R) : R := - (x - 1) ^ 2.
Definition three : bgrid := BGrid 0 2 3 true true ((2 - 0) / (3 - 1)) None None.
Lemma three_new : new_bgrid 0 2 3 true true = Ok three. Proof. reflexivity. Qed.

Lemma hill_step : exists g' p, stepfunc hill three (new_lml None None) = (g', Lml None None [p], Ok tt) /\ l_i (snd p) = 1%Z /\ l_mean (snd p) = 1 /\ l_A (snd p) = 0.
Proof.
  unfold stepfunc, three. change (Z.to_nat _) with 3%nat. cbn [step_loop]. unfold absc_at. cbn [g_lin g_lo g_step Z.add Pos.add Pos.succ].
  set (y0 := hill (0 + 0 * ((2 - 0) / (3 - 1)))). set (y1 := hill (0 + 1 * ((2 - 0) / (3 - 1)))). set (y2 := hill (0 + 2 * ((2 - 0) / (3 - 1)))).
  assert (y0 = -1) as E0 by (unfold y0, hill; lra). assert (y1 = 0) as E1 by (unfold y1, hill; lra). assert (y2 = -1) as E2 by (unfold y2, hill; lra).
  clearbody y0 y1 y2. subst. unfold reports. cbn [Z.eqb Pos.eqb g_n Z.sub Z.add Z.opp Z.pos_sub Pos.pred_double andb].
  unfold IsPeak. rdec. cbn [andb orb].
  destruct (PeakParams _ _ _ _ _ _) as [[A mu] sg] eqn:EP. cbn [app]. unfold report_all, for_each, lm_update, bind. cbn.
  eexists. eexists. split; [reflexivity|]. cbn. unfold PeakParams in EP. inversion EP. split; [reflexivity|].
  assert (0 + 2 * ((2 - 0) / (3 - 1)) - (0 + 0 * ((2 - 0) / (3 - 1))) = 2) as EW by lra.
  assert (0 + 1 * ((2 - 0) / (3 - 1)) - (0 + 0 * ((2 - 0) / (3 - 1))) = 1) as EV by lra. rewrite EW, EV. split; field.
Qed.

Lemma hill_vec : exists g', vecfunc hill three (new_lml None None) = (g', new_lml None None, Ok tt).
Proof. eexists. reflexivity. Qed.

(** ** Refining with a dynamic range when there is no peak *)

Lemma flat_refine : exists s s1, new_grid 0 2 3 true None (Some 100000) 11 4 true = Ok s
  /\ firstpass (fun _ => 0) s = (s1, Ok tt) /\ snd (refine None s1) = Ok tt /\ refine (Some 10) s1 = (s1, Err IndexError).
Proof.
  unfold new_grid, new_bgrid, new_rlist. cbn [Z.leb Z.compare Pos.compare Pos.compare_cont negb andb]. rdec.
  destruct (firstpass_inv (fun _ => 0) 0 2 3 None (Some 100000) 11 4 true) as (s0 & s1 & E & E1 & I); try lia; try lra; try discriminate.
  unfold new_grid, new_bgrid, new_rlist in E. cbn [Z.leb Z.compare Pos.compare Pos.compare_cont negb andb] in E.
  replace (Reqb 0 2) with false in E by (symmetry; apply Reqb_false; lra). replace (Rltb 0 2) with true in E by (symmetry; apply Rltb_spec; lra).
  exists s0, s1. split; [exact E|]. split; [exact E1|]. split; [apply (refine_inv (fun _ => 0) 0 2 3 s1 None); auto; try lia; lra|].
  assert (lm_list (G_lml s1) = []) as El.
  { inversion E as [E']. clear E. subst s0. unfold firstpass, stepfunc in E1. cbn [G_base g_n] in E1. change (Z.to_nat 3) with 3%nat in E1. cbn [step_loop] in E1.
    unfold reports in E1. cbn [g_n Z.eqb Pos.eqb Z.add Pos.add Pos.succ Z.sub Z.opp Z.pos_sub Pos.pred_double andb] in E1.
    unfold IsPeak in E1. replace (Rltb 0 0) with false in E1 by (symmetry; apply Rltb_false; lra). cbn in E1. inversion E1. reflexivity. }
  unfold refine. rewrite (gi_func _ _ _ _ _ I). replace (Reqb 10 0) with false by (symmetry; apply Reqb_false; lra).
  unfold limitRange. rewrite El. destruct s1. reflexivity.
Qed.

(** ** Numbering the points of a list *)

Lemma lists_numbered : forall lo hi n lin reqs, (2 <= n)%Z -> lo <> hi -> (lin = false -> 0 < lo /\ 0 < hi) ->
  Forall (fun r => (1 <= snd r)%Z) reqs ->
  exists s, new_rlist lo hi n lin = Ok s /\
  let s' := updates reqs s in
  forall k, (0 <= k < rl_npts s')%Z ->
  exists i j a, nlocate (length (rl_il s')) k s' = Ok (i, j, a) /\ nth_error (rl_il s') i = Some a /\ (0 <= j < i_n a)%Z
    /\ nth_error (all_points lin (Rmax lo hi) (rl_il s')) (Z.to_nat k) = Some (spaced lin (i_lo a) (i_hi a) (i_n a) j).
Proof.
  intros lo hi n lin reqs Hn Hlh H0 F. destruct (new_inv lo hi n lin Hn Hlh H0) as (s & E & I & L & P & H1 & H2 & H3).
  exists s. split; [exact E|]. cbv zeta. destruct (updates_inv reqs s I F) as (I' & (F1 & F2 & F3 & F4 & F5) & _).
  intros k Hk. destruct (nlocate_ok _ k I' Hk) as (i & j & a & E1 & E2 & E3 & _ & _ & E4). exists i, j, a.
  rewrite F2, F4, L, H2 in E4. auto.
Qed.

Lemma outside_raises : forall fuel s, (forall x, x < rl_lo s \/ rl_hi s < x -> locate fuel x s = Err ValueError)
  /\ (forall k, (k < 0 \/ rl_npts s <= k)%Z -> nlocate fuel k s = Err ValueError).
Proof.
  intros fuel s. split.
  - intros x H. unfold locate. replace (Rltb x (rl_lo s) || Rltb (rl_hi s) x) with true; [reflexivity|]. symmetry.
    apply orb_true_iff. destruct H as [H|H]; [left|right]; apply Rltb_spec; auto.
  - intros k H. unfold nlocate. replace (Z.ltb k 0 || Z.ltb (rl_npts s - 1) k) with true; [reflexivity|]. symmetry.
    apply orb_true_iff. destruct H as [H|H]; [left|right]; apply Z.ltb_lt; lia.
Qed.
