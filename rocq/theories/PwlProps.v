(** Properties of piecewise linear densities and of hazard points. *)

From Coq Require Import ZArith List Bool Arith Reals Lra Sorting.Sorted.
From Coquelicot Require Import Coquelicot.
From Verif Require Import Exn CountSpec McModel McSpec PwlModel PwlSpec.
From Verif Require PwlLemmas4 PwlLemmas6 PwlCases McCases.
Import ListNotations.
Open Scope R_scope.

(** ** C34: the regions cover the values above the cutoff *)

(** Regions are index ranges in increasing order with at most end points in
    common.  They consist of the intervals with an end above the cutoff, and
    end in points that are not above it or are the ends of the domain. *)
Theorem C34_regions_cover_the_values : forall d vals logvals cut, values_ok logvals cut vals -> domain_ok d (length vals) ->
  exists p o, new_pwl d vals SLin logvals cut = Ok (p, o) /\
  in_turn 0 (map (fun r => fst (fst r)) (w_regions p)) /\
  (forall l h a b, In (l, h, a, b) (w_regions p) ->
     (h < length vals)%nat /\ a = nth l (places d (length vals)) 0 /\ b = nth h (places d (length vals)) 0 /\
     (l = 0%nat \/ ~ big logvals cut vals l) /\ (h = (length vals - 1)%nat \/ ~ big logvals cut vals h) /\
     forall k, (l < k < h)%nat -> big logvals cut vals k) /\
  forall j, (j + 1 < length vals)%nat ->
    ((exists l h a b, In (l, h, a, b) (w_regions p) /\ (l <= j < h)%nat) <-> big logvals cut vals j \/ big logvals cut vals (j + 1)).
Proof. exact PwlLemmas6.covers. Qed.
Print Assumptions C34_regions_cover_the_values.
(** The weights are positive, sum to one, and are the areas over the intervals
    as fractions of the total. *)
Theorem C34_weights_are_areas : forall d vals logvals cut, values_ok logvals cut vals -> domain_ok d (length vals) ->
  let a := places d (length vals) in
  let js := intervals logvals cut vals in
  let tot := total logvals cut vals a in
  exists p o, new_pwl d vals SLin logvals cut = Ok (p, o) /\ g_absc (w_grid p) = a /\ w_nintvls p = length js /\
  w_intvls p = map (fun j => (nth j a 0, nth (j + 1) a 0)) js /\
  w_wts p = map (fun j => area logvals cut vals a j / tot) js /\
  List.Forall (fun x => 0 < x) (w_wts p) /\ sumR (w_wts p) = 1 /\ 0 < tot /\
  w_vals p = map (fun k => shown logvals cut vals k / tot) (seq 0 (length vals)) /\
  o_items o = seq 0 (length js) /\ o_weights o = w_wts p.
Proof. exact PwlLemmas6.weighs. Qed.
Print Assumptions C34_weights_are_areas.
Example C34_six_values : values_ok false (1/10) PwlCases.v6 /\ domain_ok (Ends 0 5) 6 /\ intervals false (1/10) PwlCases.v6 = [0; 3; 4]%nat /\
  exists p o, new_pwl (Ends 0 5) PwlCases.v6 SLin false (1/10) = Ok (p, o) /\ in_use (Ends 0 5) PwlCases.v6 false (1/10) p o /\ w_wts p = [1/6; 1/3; 1/2].
Proof. split; [exact PwlCases.v6_ok|]. split; [cbn; lra|]. split; [exact PwlCases.v6_intervals|exact PwlCases.v6_made]. Qed.
(** A single value makes an object without intervals, so the weights do not sum
    to one. *)
Theorem C34_single_value_refuted : exists lo hi v cut p o, lo < hi /\ 0 < v /\ 0 < cut < 1 /\ new_pwl (Ends lo hi) [v] SLin false cut = Ok (p, o) /\ sumR (w_wts p) <> 1.
Proof.
  destruct PwlCases.one_value as [p [o [E W]]]. exists 0, 1, 1, (1/10), p, o. split; [lra|]. split; [lra|]. split; [lra|]. split; [exact E|]. rewrite W. unfold sumR. cbn. lra.
Qed.
Print Assumptions C34_single_value_refuted.
(** Values that are all zero are not accepted. *)
Theorem C34_all_zero_raises : forall d step logvals vals cut g, abscissas d step (length vals) = Ok g -> logvals = false -> vals <> [] -> List.Forall (fun v => v = 0) vals ->
  new_pwl d vals step logvals cut = Err IndexError.
Proof. exact PwlLemmas6.zeros_raise. Qed.
Print Assumptions C34_all_zero_raises.
Example C34_two_zeros : exists g, abscissas (Ends 0 1) SLin (length [0; 0]) = Ok g /\ List.Forall (fun v => v = 0) [0; 0].
Proof. eexists. split; [reflexivity|]. repeat constructor. Qed.

(** ** C35: samples have the advertised distribution *)

(** Over one interval, the part of the area up to the sample is u. *)
Theorem C35_inverse_transform : forall lo hi p q u, lo < hi -> 0 < p + q -> 0 <= u <= 1 ->
  lo <= invert (lo, hi) (p, q) u <= hi /\ is_RInt (line lo hi p q) lo (invert (lo, hi) (p, q) u) (u * ((p + q) / 2 * (hi - lo))).
Proof. exact PwlCases.one_interval. Qed.
Print Assumptions C35_inverse_transform.
Example C35_invert : invert (0, 2) (1, 3) (3/8) = 1.
Proof. exact PwlCases.invert_example. Qed.
(** The chance of a sample up to y, with the interval taken by weight and u
    uniform, is the integral of the density up to y. *)
Theorem C35_samples_follow_the_density : forall d vals logvals cut p o y, values_ok logvals cut vals -> domain_ok d (length vals) -> new_pwl d vals SLin logvals cut = Ok (p, o) ->
  nth 0 (places d (length vals)) 0 <= y -> is_RInt (density logvals cut vals (places d (length vals))) (nth 0 (places d (length vals)) 0) y (chance p y).
Proof. exact PwlCases.distribution. Qed.
Print Assumptions C35_samples_follow_the_density.
(** sample() uses up numbers of numpy.random: the last two words make u. *)
Theorem C35_sample : forall logvals cut vals d C p fuel o (w : world C) o1 w1 r, values_ok logvals cut vals -> domain_ok d (length vals) ->
  in_use d vals logvals cut p o -> good (np_rk (w_np C w)) -> sample_one C fuel p (o, w) = ((o1, w1), r) ->
  in_use d vals logvals cut p o1 /\
  (r = Err OutOfFuel \/ exists ys a b j x, r = Ok x /\ outputs (np_rk (w_np C w)) (ys ++ [a; b]) (np_rk (w_np C w1)) /\ good (np_rk (w_np C w1)) /\
     fits logvals cut vals (places d (length vals)) j (IZR (2 ^ 26 * (a / 2 ^ 5) + b / 2 ^ 6) / 2 ^ 53) x).
Proof. intros logvals cut vals d C p fuel o w o1 w1 r OK DO. exact (PwlLemmas4.sample_one_is logvals cut vals OK d DO C p fuel o w o1 w1 r). Qed.
Print Assumptions C35_sample.
(** sample(n): the k-th sample takes the k-th pair of words. *)
Theorem C35_samples : forall logvals cut vals d C p fuel m o (w : world C) o1 w1 r, values_ok logvals cut vals -> domain_ok d (length vals) ->
  in_use d vals logvals cut p o -> good (np_rk (w_np C w)) -> (1 <= m)%Z -> sample_many C fuel m p (o, w) = ((o1, w1), r) ->
  in_use d vals logvals cut p o1 /\
  (r = Err OutOfFuel \/ exists ys ws is xs, r = Ok xs /\ Z.of_nat (length xs) = m /\ length is = length xs /\ length ws = (2 * length xs)%nat /\
     outputs (np_rk (w_np C w)) (ys ++ ws) (np_rk (w_np C w1)) /\ good (np_rk (w_np C w1)) /\
     forall k, (k < length xs)%nat -> fits logvals cut vals (places d (length vals)) (nth k is 0%nat)
       (IZR (2 ^ 26 * (nth (2 * k) ws 0%Z / 2 ^ 5) + nth (2 * k + 1) ws 0%Z / 2 ^ 6) / 2 ^ 53) (nth k xs 0)).
Proof. intros logvals cut vals d C p fuel m o w o1 w1 r OK DO. exact (PwlLemmas4.sample_many_is logvals cut vals OK d DO C p fuel m o w o1 w1 r). Qed.
Print Assumptions C35_samples.
Example C35_state : good (np_rk (w_np unit (World unit (NpState McCases.g0 (0%Z, 0)) McCases.g0 tt))).
Proof. exact McCases.g0_good. Qed.

(** ** C36: the density can be evaluated *)

(** On an even grid, pdf(x) is the height of the line over the interval with x
    in it, and 0 outside the regions.  At the upper end of the domain it fails
    if the last interval is used. *)
Theorem C36_pdf_interpolates : forall lo hi vals logvals cut p o, values_ok logvals cut vals -> lo < hi -> new_pwl (Ends lo hi) vals SLin logvals cut = Ok (p, o) ->
  let a := places (Ends lo hi) (length vals) in
  (forall x j, In j (intervals logvals cut vals) -> between a j x -> x <> hi -> pdf1 p x = Ok (height logvals cut vals a j x) /\ 0 <= height logvals cut vals a j x) /\
  (forall x, (forall j, In j (intervals logvals cut vals) -> ~ between a j x) -> pdf1 p x = Ok 0) /\
  (In (length vals - 2)%nat (intervals logvals cut vals) -> pdf1 p hi = Err IndexError).
Proof. exact PwlCases.evaluates. Qed.
Print Assumptions C36_pdf_interpolates.
Example C36_at_seven_halves : In 3%nat (intervals false (1/10) PwlCases.v6) /\ between (places (Ends 0 5) 6) 3 (7/2) /\ height false (1/10) PwlCases.v6 (places (Ends 0 5) 6) 3 (7/2) = 1/3.
Proof. split; [rewrite PwlCases.v6_intervals; cbn; tauto|]. split; [rewrite PwlCases.v6_places; unfold between; cbn; lra|exact PwlCases.v6_height]. Qed.
(** What pdf returns integrates to the chance of a sample up to y, and to one
    over the domain. *)
Theorem C36_pdf_is_the_density_of_samples : forall lo hi vals logvals cut p o y, values_ok logvals cut vals -> lo < hi -> new_pwl (Ends lo hi) vals SLin logvals cut = Ok (p, o) -> lo <= y <= hi ->
  is_RInt (fun x => read (pdf1 p x)) lo y (chance p y) /\ chance p hi = 1.
Proof. exact PwlCases.integrates. Qed.
Print Assumptions C36_pdf_is_the_density_of_samples.
Theorem C36_upper_end_refuted : exists lo hi vals cut p o, values_ok false cut vals /\ lo < hi /\ new_pwl (Ends lo hi) vals SLin false cut = Ok (p, o) /\ pdf1 p hi = Err IndexError.
Proof.
  destruct PwlCases.v6_made as [p [o [E _]]]. exists 0, 5, PwlCases.v6, (1/10), p, o. split; [exact PwlCases.v6_ok|]. split; [lra|]. split; [exact E|].
  apply (PwlCases.evaluates 0 5 PwlCases.v6 false (1/10) p o PwlCases.v6_ok ltac:(lra) E). exact PwlCases.last_used.
Qed.
Print Assumptions C36_upper_end_refuted.
(** With abscissas given one by one it can be evaluated nowhere in the regions. *)
Theorem C36_given_abscissas_raise : forall a vals logvals cut p o x j, values_ok logvals cut vals -> domain_ok (Points a) (length vals) -> new_pwl (Points a) vals SLin logvals cut = Ok (p, o) ->
  In j (intervals logvals cut vals) -> between a j x -> pdf1 p x = Err NotImplementedError.
Proof. exact PwlCases.uneven. Qed.
Print Assumptions C36_given_abscissas_raise.
Theorem C36_given_abscissas_refuted : exists a vals cut p o x, values_ok false cut vals /\ domain_ok (Points a) (length vals) /\ new_pwl (Points a) vals SLin false cut = Ok (p, o) /\
  nth 0 a 0 < x < last a 0 /\ pdf1 p x = Err NotImplementedError.
Proof.
  assert (DO : domain_ok (Points [0; 1; 2; 3; 4; 5]) (length PwlCases.v6)). { split; [reflexivity|]. intros i I. cbn in I. do 5 (destruct i as [|i]; [cbn; lra|]). exfalso. Lia.lia. }
  destruct (PwlLemmas6.weighs (Points [0; 1; 2; 3; 4; 5]) PwlCases.v6 false (1/10) PwlCases.v6_ok DO) as [p [o [E _]]]. exists [0; 1; 2; 3; 4; 5], PwlCases.v6, (1/10), p, o, (7/2).
  split; [exact PwlCases.v6_ok|]. split; [exact DO|]. split; [exact E|]. split; [cbn; lra|].
  apply (PwlCases.uneven _ _ _ _ _ _ _ 3%nat PwlCases.v6_ok DO E); [rewrite PwlCases.v6_intervals; cbn; tauto|unfold between; cbn; lra].
Qed.
Print Assumptions C36_given_abscissas_refuted.

(** ** C53: hazard points *)

(** The points run along steps at the values in increasing order.  After the
    k-th value the height is the total weight of the n - k smallest values. *)
Theorem C53_heights : forall argsort vals weights lo hi, sorts argsort -> vals <> [] -> length weights = length vals ->
  (forall v, In v vals -> match lo with Some s => s <= v | None => True end /\ match hi with Some s => v <= s | None => True end) ->
  exists o pts, new_popn1 argsort vals weights NoErr = Ok o /\ haz_pts o lo hi = Ok pts /\
  let n := length vals in
  v_vals o = map (fun i => nth i vals 0) (argsort vals) /\ v_weights o = map (fun i => nth i weights 0) (argsort vals) /\
  h_bars pts = None /\ length (h_absc pts) = (2 * n + 2)%nat /\ length (h_ord pts) = (2 * n + 2)%nat /\
  nth 0 (h_ord pts) 0 = 1 /\ nth (2 * n + 1) (h_ord pts) 0 = 0 /\
  nth 0 (h_absc pts) 0 = match lo with Some s => s | None => nth 0 (v_vals o) 0 end /\
  nth (2 * n + 1) (h_absc pts) 0 = match hi with Some s => s | None => nth (n - 1) (v_vals o) 0 end /\
  forall k, (k < n)%nat ->
    nth (2 * k + 1) (h_absc pts) 0 = nth k (v_vals o) 0 /\ nth (2 * k + 2) (h_absc pts) 0 = nth k (v_vals o) 0 /\
    nth (2 * k + 1) (h_ord pts) 0 = nth (2 * k) (h_ord pts) 0 /\
    nth (2 * k + 2) (h_ord pts) 0 = sumR (firstn (n - k) (v_weights o)).
Proof. exact PwlLemmas6.haz_points. Qed.
Print Assumptions C53_heights.
(** So it is not the weight of the larger values: with values 2, 1, 3 of weights
    1/2, 1/4, 1/4 the height after 1 is 1 instead of 3/4. *)
Theorem C53_heights_refuted : exists argsort vals weights o pts k, sorts argsort /\ length weights = length vals /\ List.Forall (fun w => 0 < w) weights /\ sumR weights = 1 /\
  new_popn1 argsort vals weights NoErr = Ok o /\ haz_pts o None None = Ok pts /\ (k < length vals)%nat /\
  nth (2 * k + 2) (h_ord pts) 0 <> sumR (skipn (k + 1) (v_weights o)) / sumR (v_weights o).
Proof.
  destruct PwlCases.haz_wrong as [o [pts [E [H [S1 [_ [H0 H1]]]]]]]. exists McCases.asort, PwlCases.t3, PwlCases.m3, o, pts, 0%nat. split; [exact McCases.asort_sorts|]. split; [reflexivity|].
  split; [unfold PwlCases.m3; repeat (apply Forall_cons; [lra|]); constructor|]. split; [exact S1|]. split; [exact E|]. split; [exact H|]. split; [cbn; Lia.lia|]. cbn [Nat.mul Nat.add]. rewrite H0, H1. lra.
Qed.
Print Assumptions C53_heights_refuted.
(** Error bars are refused, when the object is made or when points are asked
    for. *)
Theorem C53_error_bars_raise : forall argsort vals weights err lo hi, sorts argsort -> (2 <= length vals)%nat -> length weights = length vals -> length err = length vals ->
  (exists o, new_popn1 argsort vals weights (ErrList err) = Ok o /\ haz_pts o lo hi = Err ValueError) /\
  new_popn1 argsort vals weights (ErrArray err) = Err ValueError.
Proof. exact PwlLemmas6.haz_errors. Qed.
Print Assumptions C53_error_bars_raise.
Example C53_three : sorts McCases.asort /\ (2 <= length PwlCases.t3)%nat /\ length PwlCases.m3 = length PwlCases.t3.
Proof. split; [exact McCases.asort_sorts|]. split; [cbn; Lia.lia|reflexivity]. Qed.
