(** Properties of the peak list, the interval list and the refined grid. *)

From Coq Require Import ZArith List Bool Arith Reals Sorted Lra Lia.
From Verif Require Import Exn Instances RefModel RefSpec RefCases.
From Verif Require RefLemmas5 RefLemmas7 RefLemmas8.
Import ListNotations.
Local Open Scope R_scope.

(** C18 *)
Theorem C18_peak_list_holds_the_best : forall L (h : list (R * L)) nmax range,
  nmax <> Some O -> (forall r, range = Some r -> 1 < r) ->
  exists l, report_seq h (new_lml nmax range) = (Lml nmax (option_map ln range) l, Ok tt)
    /\ best_of nmax (option_map ln range) h l.
Proof. exact peaks_best. Qed.
Print Assumptions C18_peak_list_holds_the_best.

Example C18_example : exists l, report_seq [(1, 10%nat); (3, 11%nat); (2, 12%nat)] (new_lml (Some 2%nat) None) = (Lml (Some 2%nat) None l, Ok tt)
  /\ l = [(3, 11%nat); (2, 12%nat)].
Proof.
  eexists. unfold report_seq, for_each, lm_update, new_lml, bind. cbn [lm_list lm_nmax lm_dyn length Nat.eqb fst snd bisect Nat.ltb Nat.leb ins_at firstn skipn app rev Nat.div Nat.divmod Nat.add nth_error].
  rdec. cbn. rdec. cbn. rdec. cbn. split; reflexivity.
Qed.

(** A range of 1 asks for the highest peaks only; nothing is dropped. *)
Theorem C18_range_one_refuted : exists (h : list (R * nat)) m,
  report_seq h (new_lml None (Some 1)) = (m, Ok tt)
  /\ exists a b, In a (lm_list m) /\ In b (lm_list m) /\ ln 1 < fst a - fst b.
Proof.
  exists [(5, 0%nat); (0, 1%nat)]. unfold report_seq, for_each, lm_update, new_lml, bind.
  cbn [lm_list lm_nmax lm_dyn length Nat.eqb fst snd bisect Nat.ltb Nat.leb ins_at firstn skipn app rev Nat.div Nat.divmod Nat.add nth_error].
  rewrite ln_1. rdec. cbn. rdec. cbn. eexists. split; [reflexivity|].
  exists (5, 0%nat), (0, 1%nat). cbn. split; [auto|]. split; [auto|]. lra.
Qed.
Print Assumptions C18_range_one_refuted.

(** A list for no peaks raises at the first report. *)
Theorem C18_list_for_no_peaks_raises : forall L q (lab : L) range,
  lm_update q lab (new_lml (Some O) range) = (new_lml (Some O) range, Err IndexError).
Proof. reflexivity. Qed.
Print Assumptions C18_list_for_no_peaks_raises.

Theorem C18_limit_range_keeps_those_in_range : forall L nmax dyn p (l : list (R * L)) r, 1 <= r ->
  StronglySorted (fun a b => fst b <= fst a) (p :: l) ->
  limitRange r (Lml nmax dyn (p :: l)) = (Lml nmax dyn (filter (fun x => Rleb (fst p - fst x) (ln r)) (p :: l)), Ok tt).
Proof. exact limit_keeps. Qed.
Print Assumptions C18_limit_range_keeps_those_in_range.

(** C19 *)
Theorem C19_updates_keep_a_tiling : forall lo hi n lin reqs, (2 <= n)%Z -> lo <> hi -> (lin = false -> 0 < lo /\ 0 < hi) ->
  Forall (fun r => (1 <= snd r)%Z) reqs ->
  exists s, new_rlist lo hi n lin = Ok s /\
  let s' := updates reqs s in
  let a := Rmin lo hi in let b := Rmax lo hi in
  let xs := all_points lin b (rl_il s') in
  tiling a b (rl_il s') /\ rl_npts s' = count_points (rl_il s')
  /\ StronglySorted Rlt xs /\ hd_error xs = Some a /\ last xs 0 = b /\ Z.of_nat (length xs) = rl_npts s'.
Proof. exact lists_tile. Qed.
Print Assumptions C19_updates_keep_a_tiling.

(** One update of a logarithmic list, computed. *)
Example C19_example : new_rlist (1/1000) 1 4 false = Ok dec /\ update (1/10) 1 20 dec = (dec2, Ok tt) /\ rl_npts dec2 = 22%Z.
Proof. exact (conj dec_new (conj dec_refined eq_refl)). Qed.

(** An update asking for no points at all raises after the interval it
    touches has been removed: part of the range is no longer covered. *)
Theorem C19_zero_points_refuted : exists s lo hi, new_rlist 0 10 11 true = Ok s /\
  let '(s', r) := update lo hi 0 s in r = Err ValueError /\ ~ tiling 0 10 (rl_il s').
Proof.
  exists ten, 2, 3. split; [exact ten_new|]. destruct ten_zero as (a & E & A & B). rewrite E. split; [reflexivity|].
  cbn. intros (_ & _ & _ & H). lra.
Qed.
Print Assumptions C19_zero_points_refuted.

(** A list made with lo > hi refuses every update. *)
Theorem C19_reversed_lists_refuse_updates : forall lo hi n lin s, hi < lo -> new_rlist lo hi n lin = Ok s ->
  forall a b m, update a b m s = (s, Err ValueError).
Proof. exact reversed_refuse. Qed.
Print Assumptions C19_reversed_lists_refuse_updates.

(** C20 *)
Theorem C20_locate_finds_the_interval : forall s x, rl_lo s < rl_hi s -> tiling (rl_lo s) (rl_hi s) (rl_il s) -> rl_lo s <= x <= rl_hi s ->
  exists a, locate (length (rl_il s)) x s = Ok a /\ In a (rl_il s) /\ i_lo a <= x <= i_hi a /\ (x < rl_hi s -> x < i_hi a).
Proof. exact RefLemmas5.locate_ok. Qed.
Print Assumptions C20_locate_finds_the_interval.

Theorem C20_nlocate_finds_the_point : forall lo hi n lin reqs, (2 <= n)%Z -> lo <> hi -> (lin = false -> 0 < lo /\ 0 < hi) ->
  Forall (fun r => (1 <= snd r)%Z) reqs ->
  exists s, new_rlist lo hi n lin = Ok s /\
  let s' := updates reqs s in
  forall k, (0 <= k < rl_npts s')%Z ->
  exists i j a, nlocate (length (rl_il s')) k s' = Ok (i, j, a) /\ nth_error (rl_il s') i = Some a /\ (0 <= j < i_n a)%Z
    /\ nth_error (all_points lin (Rmax lo hi) (rl_il s')) (Z.to_nat k) = Some (spaced lin (i_lo a) (i_hi a) (i_n a) j).
Proof. exact lists_numbered. Qed.
Print Assumptions C20_nlocate_finds_the_point.

Theorem C20_outside_raises : forall fuel s, (forall x, x < rl_lo s \/ rl_hi s < x -> locate fuel x s = Err ValueError)
  /\ (forall k, (k < 0 \/ rl_npts s <= k)%Z -> nlocate fuel k s = Err ValueError).
Proof. exact outside_raises. Qed.
Print Assumptions C20_outside_raises.

Example C20_example : rl_lo dec2 < rl_hi dec2 /\ tiling (rl_lo dec2) (rl_hi dec2) (rl_il dec2) /\ length (rl_il dec2) = 2%nat.
Proof. cbn. repeat split; try lra; lia. Qed.

(** C21 *)
Theorem C21_basic_grid_sums : forall f lo hi n lin peak m, (2 <= n)%Z -> lo < hi -> (lin = false -> 0 < lo) -> lm_nmax m <> Some O ->
  exists g, new_bgrid lo hi n lin peak = Ok g /\
  forall evaluate, evaluate = stepfunc \/ evaluate = vecfunc ->
  exists g' m' r, evaluate f g m = (g', m', Ok tt) /\
  let xs := gpoints lin lo hi n in
  StronglySorted Rlt xs /\ hd_error xs = Some lo /\ last xs 0 = hi /\
  trapzd g' = Ok (trapezoid f xs) /\ logtrapzd g' = Ok r
  /\ (forall top, (forall x, In x xs -> f x <= top) ->
      trapezoid (fun x => exp (f x)) xs <= exp r <= trapezoid (fun x => exp (f x)) xs + exp (top - 725) * (hi - lo))
  /\ ((forall x y, In x xs -> In y xs -> f x - f y <= 725) -> exp r = trapezoid (fun x => exp (f x)) xs).
Proof. exact basic_sums. Qed.
Print Assumptions C21_basic_grid_sums.

Theorem C21_integral_is_the_sum_over_grids : forall f s, Forall (evaluated f) (G_glist s) ->
  grid_trapzd s = Ok (fold_right Rplus 0 (map (trap_of f) (G_glist s))).
Proof. exact glist_sum. Qed.
Print Assumptions C21_integral_is_the_sum_over_grids.

Theorem C21_refined_grid_sums : forall f lo hi n nmax dynrange sigpts nsig peak calls,
  (2 <= n)%Z -> lo < hi -> nmax <> Some O -> (2 <= sigpts)%Z -> (1 <= nsig)%Z ->
  exists s s1, new_grid lo hi n true nmax dynrange sigpts nsig peak = Ok s /\ firstpass f s = (s1, Ok tt) /\
  let s2 := refines calls s1 in
  let xs := all_points true hi (rl_il (G_ilist s2)) in
  StronglySorted Rlt xs /\ hd_error xs = Some lo /\ last xs 0 = hi /\ Z.of_nat (length xs) = G_tot s2
  /\ snd (refine None s2) = Ok tt
  /\ grid_trapzd s2 = Ok (trapezoid f xs)
  /\ (forall F, affine_between f xs -> (forall x, lo <= x <= hi -> derivable_pt_lim F x (f x)) ->
        grid_trapzd s2 = Ok (F hi - F lo))
  /\ (forall top, (forall x, In x xs -> f x <= top) -> exists r, grid_logtrapzd s2 = Ok r
        /\ trapezoid (fun x => exp (f x)) xs <= exp r <= trapezoid (fun x => exp (f x)) xs + exp (top - 725) * (hi - lo)
        /\ ((forall x y, In x xs -> In y xs -> f x - f y <= 725) -> exp r = trapezoid (fun x => exp (f x)) xs))
  /\ (forall k, (0 <= k < G_tot s2)%Z -> exists x w, grid_point (length (rl_il (G_ilist s2))) s2 k = Ok (x, w, Some (f x))
        /\ nth_error xs (Z.to_nat k) = Some x
        /\ match nth_error xs (Z.to_nat k + 1) with Some x' => w = x' - x | None => w = 0 end).
Proof. exact grid_sums. Qed.
Print Assumptions C21_refined_grid_sums.

Example C21_example : forall calls, exists s s1, new_grid 0 10 11 true None (Some 100000) 11 4 true = Ok s
  /\ firstpass (fun x => 3 * x + 1) s = (s1, Ok tt) /\ grid_trapzd (refines calls s1) = Ok 160.
Proof. exact line_grid. Qed.

(** C55 *)
Theorem C55_linear_lists_never_get_coarser : forall lo hi n reqs, (2 <= n)%Z -> lo <> hi -> Forall (fun r => (1 <= snd r)%Z) reqs ->
  exists s, new_rlist lo hi n true = Ok s /\
  forall more, Forall (fun r => (1 <= snd r)%Z) more ->
  let s1 := updates reqs s in let s2 := updates more s1 in
  forall b x, In b (rl_il s2) -> i_lo b <= x < i_hi b ->
    exists a, In a (rl_il s1) /\ i_lo a <= x < i_hi a /\ i_step b <= i_step a.
Proof. exact lin_no_coarser. Qed.
Print Assumptions C55_linear_lists_never_get_coarser.

Theorem C55_linear_requests_are_met : forall lo hi n reqs, (2 <= n)%Z -> lo < hi -> Forall (fun r => (1 <= snd r)%Z) reqs ->
  exists s, new_rlist lo hi n true = Ok s /\
  forall a b m, (2 <= m)%Z -> Rmax a lo < Rmin b hi ->
  let want := (Rmin b hi - Rmax a lo) / (IZR m - 1) in
  exists s2, update a b m (updates reqs s) = (s2, Ok tt) /\
    ((hi - lo) / (IZR n - 1) < 5 * want ->
     forall iv x, In iv (rl_il s2) -> i_lo iv <= x < i_hi iv -> Rmax a lo <= x < Rmin b hi -> i_step iv <= want).
Proof. exact lin_density. Qed.
Print Assumptions C55_linear_requests_are_met.

Example C55_example : Rmax (5/2) 0 < Rmin (9/2) 10 /\ (10 - 0) / (11 - 1) < 5 * ((Rmin (9/2) 10 - Rmax (5/2) 0) / (IZR 5 - 1)).
Proof. rewrite Rmin_left, Rmax_left by lra. lra. Qed.

(** In a logarithmic list a request can be taken for fulfilled although the
    whole interval around it has three points: 20 points asked for between
    0.001 and 0.01, after 20 between 0.1 and 1. *)
Theorem C55_log_requests_refuted : exists s s1, new_rlist (1/1000) 1 4 false = Ok s /\ update (1/10) 1 20 s = (s1, Ok tt)
  /\ update (1/1000) (1/100) 20 s1 = (s1, Ok tt)
  /\ exists a, In a (rl_il s1) /\ i_lo a <= 1/1000 /\ 1/100 <= i_hi a /\ i_n a = 3%Z.
Proof.
  exists dec, dec2. split; [exact dec_new|]. split; [exact dec_refined|]. split; [exact dec_ignored|].
  eexists. split; [left; reflexivity|]. cbn. split; [lra|]. split; [lra|reflexivity].
Qed.
Print Assumptions C55_log_requests_refuted.

(** C56 *)
Theorem C56_peak_of_a_gaussian : forall L mu sg x0 x1 x2, 0 < sg -> x0 < x1 < x2 -> 2 * (x1 - x0) ^ 2 <> (x2 - x0) ^ 2 ->
  let y x := L - (x - mu) ^ 2 / (2 * sg ^ 2) in
  IsPeak (y x0) (y x1) (y x2) = true ->
  PeakParams x0 x1 x2 (y x0) (y x1) (y x2) = (L, mu, sg).
Proof. exact RefLemmas8.gauss_peak. Qed.
Print Assumptions C56_peak_of_a_gaussian.

Theorem C56_peak_near_the_middle_point : forall x0 h y0 y1 y2, 0 < h -> IsPeak y0 y1 y2 = true ->
  let '(_, mean, sig) := PeakParams x0 (x0 + h) (x0 + 2 * h) y0 y1 y2 in
  x0 + h / 2 <= mean <= x0 + 3 * h / 2 /\ 0 < sig.
Proof. exact RefLemmas7.peak_lin. Qed.
Print Assumptions C56_peak_near_the_middle_point.

Example C56_example : IsPeak (0 - (0 - 3/2) ^ 2 / (2 * 1 ^ 2)) (0 - (1 - 3/2) ^ 2 / (2 * 1 ^ 2)) (0 - (3 - 3/2) ^ 2 / (2 * 1 ^ 2)) = true
  /\ 2 * (1 - 0) ^ 2 <> (3 - 0) ^ 2.
Proof. unfold IsPeak. rdec. split; [reflexivity|lra]. Qed.

(** C57 *)
Theorem C57_vecfunc_records_no_first_peak_refuted : exists f g g1 g2 p,
  new_bgrid 0 2 3 true true = Ok g
  /\ stepfunc f g (new_lml None None) = (g1, Lml None None [p], Ok tt)
  /\ l_i (snd p) = 1%Z /\ l_mean (snd p) = 1 /\ l_A (snd p) = 0
  /\ vecfunc f g (new_lml None None) = (g2, new_lml None None, Ok tt).
Proof.
  destruct hill_step as (g1 & p & E & A & B & C). destruct hill_vec as (g2 & E2). exists hill, three, g1, g2, p.
  exact (conj three_new (conj E (conj A (conj B (conj C E2))))).
Qed.
Print Assumptions C57_vecfunc_records_no_first_peak_refuted.

(** C58 *)
Theorem C58_refine_without_peaks_refuted : exists f s s1, new_grid 0 2 3 true None (Some 100000) 11 4 true = Ok s
  /\ firstpass f s = (s1, Ok tt) /\ snd (refine None s1) = Ok tt /\ refine (Some 10) s1 = (s1, Err IndexError).
Proof. exists (fun _ => 0). exact flat_refine. Qed.
Print Assumptions C58_refine_without_peaks_refuted.
