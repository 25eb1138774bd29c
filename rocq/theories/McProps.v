(** Properties of the sampling code. *)

From Coq Require Import ZArith String List Bool Arith Reals Lia Lra Permutation.
From Coquelicot Require Import Coquelicot.
From Verif Require Import Exn CountSpec McModel McSpec McCases.
From Verif Require RefCases McLemmas McLemmas2 McLemmas3 McLemmas4 McLemmas5 McLemmas6 McLemmas7 McLemmas8 McLemmas11.
Import ListNotations.
Local Open Scope R_scope.

(** C29.  The 30-bit numbers that stand for item i are as many as the integer
    part of 2^30 times its share of the weights.  Drawing takes numbers from
    the generator, skips those that stand for no item, and gives the item of
    the first other one; unless one item has all the weight, which is then
    given without a random number. *)
Theorem C29_draws_in_proportion_to_weights : forall w, weights_ok w -> (Z.of_nat (length w) <= 2 ^ 30)%Z ->
  exists s words, init_sampler5tbl w = Some s /\
    (forall i, NoDup (words i) /\ List.Forall (fun j => (0 <= j < 2 ^ 30)%Z) (words i)) /\
    (forall i k j, In j (words i) -> In j (words k) -> i = k) /\
    (forall i, (i < length w)%nat -> INR (length (words i)) <= 2 ^ 30 * nth i w 0 / sumR w < INR (length (words i)) + 1) /\
    (forall i, (length w <= i)%nat -> words i = []) /\
    ((exists i, Z.of_nat (length (words i)) = (2 ^ 30)%Z /\ (forall fuel g, Dran fuel s g = (g, Ok i)) /\ forall fuel n g, Dran_array fuel s n g = (g, Ok (repeat i n))) \/
     ((forall fuel g g' y, good g -> rk_random g = (g', Ok y) ->
        (exists i, stands_for words y i /\ Dran (S fuel) s g = (g', Ok i)) \/
        ((forall i, ~ stands_for words y i) /\ Dran (S fuel) s g = Dran fuel s g')) /\
      forall fuel n g g' r, good g -> Dran_array fuel s n g = (g', r) ->
        good g' /\ (r = Err OutOfFuel \/ exists out ys, r = Ok out /\ length out = n /\ outputs g ys g' /\ stand_for words ys out))).
Proof. exact McLemmas4.draws_in_proportion. Qed.
Print Assumptions C29_draws_in_proportion_to_weights.

(** No index is outside the tables, and no item of zero weight is drawn. *)
Theorem C29_draws_have_positive_weight : forall w s, weights_ok w -> (Z.of_nat (length w) <= 2 ^ 30)%Z -> init_sampler5tbl w = Some s ->
  forall fuel g g' r, good g -> Dran fuel s g = (g', r) ->
  good g' /\ (exists ys, outputs g ys g') /\ (r = Err OutOfFuel \/ exists i, r = Ok i /\ (i < length w)%nat /\ 0 < nth i w 0).
Proof. exact McLemmas4.dran_positive. Qed.
Print Assumptions C29_draws_have_positive_weight.
Theorem C29_arrays_have_positive_weight : forall w s, weights_ok w -> (Z.of_nat (length w) <= 2 ^ 30)%Z -> init_sampler5tbl w = Some s ->
  forall fuel n g g' r, good g -> Dran_array fuel s n g = (g', r) ->
  good g' /\ (r = Err OutOfFuel \/ exists out ys, r = Ok out /\ length out = n /\ outputs g ys g' /\ List.Forall (fun i => (i < length w)%nat /\ 0 < nth i w 0) out).
Proof. exact McLemmas4.array_positive. Qed.
Print Assumptions C29_arrays_have_positive_weight.

(** With more than 2^30 items of equal weight every one rounds to nothing, and
    drawing uses tables that were never set. *)
Theorem C29_tables_refuted : exists w s, weights_ok w /\ init_sampler5tbl w = Some s /\ forall fuel g, Dran fuel s g = (g, Err BadMemory).
Proof.
  exists (repeat 1 (S McLemmas3.all30)). destruct (McLemmas4.too_many (S McLemmas3.all30)) as [s [E D]].
  { rewrite Nat2Z.inj_succ, McLemmas3.all30_Z. apply Z.lt_succ_diag_r. }
  exists s. split; [|split; [exact E|exact D]]. split.
  - apply Forall_forall. intros x X. apply repeat_spec in X. subst x. lra.
  - assert (K : forall m, 0 <= sumR (repeat 1 m)) by (intros m; apply McLemmas5.sumR_nonneg, Forall_forall; intros x X; apply repeat_spec in X; subst x; lra).
    cbn [repeat]. change (0 < 1 + sumR (repeat 1 McLemmas3.all30)). specialize (K McLemmas3.all30). lra.
Qed.
Print Assumptions C29_tables_refuted.

Example C29_example : good g0 /\ exists s (words : nat -> list Z), init_sampler5tbl w4 = Some s /\
  INR (length (words 0%nat)) = 3 * 2 ^ 27 /\ INR (length (words 1%nat)) = 2 ^ 28 /\ INR (length (words 3%nat)) = 2 ^ 27.
Proof.
  split; [exact g0_good|]. destruct (C29_draws_in_proportion_to_weights w4 w4_ok ltac:(cbn; lia)) as [s [words [E [_ [_ [P _]]]]]]. exists s, words. split; [exact E|].
  assert (K : forall i, (i < 4)%nat -> forall z : Z, 2 ^ 30 * nth i w4 0 / 8 = IZR z -> INR (length (words i)) = IZR z).
  { intros i I z Q. specialize (P i I). replace (sumR w4) with 8 in P by (unfold sumR, w4; cbn; lra). rewrite Q in P. rewrite INR_IZR_INZ in *. destruct P as [P1 P2].
    apply le_IZR in P1. rewrite <- plus_IZR in P2. apply lt_IZR in P2. f_equal. lia. }
  split; [|split].
  - rewrite (K 0%nat ltac:(lia) (3 * 2 ^ 27)%Z); cbn [nth w4]; [rewrite mult_IZR; simpl; lra|]. rewrite mult_IZR. simpl. lra.
  - rewrite (K 1%nat ltac:(lia) (2 ^ 28)%Z); cbn [nth w4]; simpl; lra.
  - rewrite (K 3%nat ltac:(lia) (2 ^ 27)%Z); cbn [nth w4]; simpl; lra.
Qed.

(** C30.  Where the array of indices has the ints that the code takes it to
    have, and n times every weight is below the sum of all. *)
Theorem C30_sample_is_right : forall argsort w n p idx C rand m fuel g c s' r,
  sorts argsort -> weights_ok w -> (1 <= n < length w)%nat -> List.Forall (fun x => INR n * x < sumR w) w ->
  prepared argsort false w n p idx -> rand_below rand m -> good g ->
  samplenr C rand m fuel p (g, c) = (s', r) ->
  r = Err OutOfFuel \/ exists tries s, r = Ok (tries, s) /\ (1 <= tries <= fuel)%nat /\ List.Forall (fun i => (i < length w)%nat) s /\ right_sample w n (members idx s).
Proof. exact McLemmas5.samplenr_right. Qed.
Print Assumptions C30_sample_is_right.
Theorem C30_sample_from_tables_is_right : forall argsort, sorts argsort -> forall w, weights_ok w -> forall n, (1 <= n < length w)%nat ->
  List.Forall (fun x => INR n * x < sumR w) w -> (Z.of_nat (length w) <= 2 ^ 30)%Z ->
  forall p idx, prepared argsort false w n p idx ->
  exists p', prepratiotables p = Ok p' /\ forall fuel g g' r, good g -> samplenr5 fuel p' g = (g', r) ->
  good g' /\ (r = Err OutOfFuel \/ exists tries t, r = Ok (tries, t) /\ (1 <= tries <= fuel)%nat /\ right_sample w n (map Z.of_nat t)).
Proof. exact McLemmas6.samplenr5_right. Qed.
Print Assumptions C30_sample_from_tables_is_right.

(** The documented maximum: with three items or more no sample is ever found
    unless rand() gives 0. *)
Theorem C30_limit_refuted : exists argsort w n p idx, sorts argsort /\ weights_ok w /\ max_subset (Popn false w w (length w) None) = Z.of_nat n /\ (1 <= n < length w)%nat /\
  prepared argsort false w n p idx /\
  forall C rand m fuel g c, good g -> (forall c, (0 < snd (rand c) < m)%Z) -> snd (samplenr C rand m fuel p (g, c)) = Err OutOfFuel.
Proof.
  assert (L1 : List.Forall (fun x => INR 3 * x <= sumR wlim) wlim) by (unfold wlim, sumR; cbn [fold_right INR]; repeat (apply Forall_cons; [lra|]); constructor).
  assert (L2 : Exists (fun x => INR 3 * x = sumR wlim) wlim) by (unfold wlim, sumR; cbn [fold_right INR]; apply Exists_cons_hd; lra).
  assert (L3 : (1 <= 3 < length wlim)%nat) by (cbn; lia).
  destruct (McLemmas6.limit_prepared_ok asort asort_sorts wlim wlim_ok 3 L3) as [p [idx PR]].
  exists asort, wlim, 3%nat, p, idx. split; [exact asort_sorts|]. split; [exact wlim_ok|]. split; [apply wlim_max|]. split; [exact L3|]. split; [exact PR|].
  intros C rand m fuel g c G R. destruct (McLemmas6.limit_stuck asort asort_sorts wlim wlim_ok 3 L3 L1 L2 p idx C rand m fuel g c PR ltac:(lia) G R) as [s' E]. now rewrite E.
Qed.
Print Assumptions C30_limit_refuted.
(** With two items, and a 0 from rand(), the sample has an index that is none. *)
Theorem C30_limit_index_refuted : exists argsort w n p idx, sorts argsort /\ weights_ok w /\ max_subset (Popn false w w (length w) None) = Z.of_nat n /\ (1 <= n < length w)%nat /\
  prepared argsort false w n p idx /\
  forall C rand m fuel g c, good g -> (0 < fuel)%nat -> snd (rand c) = 0%Z -> exists i, snd (samplenr C rand m fuel p (g, c)) = Ok (1%nat, [i; length w]).
Proof.
  assert (L1 : List.Forall (fun x => INR 2 * x <= sumR wtwo) wtwo) by (unfold wtwo, sumR; cbn [fold_right INR]; repeat (apply Forall_cons; [lra|]); constructor).
  assert (L2 : Exists (fun x => INR 2 * x = sumR wtwo) wtwo) by (unfold wtwo, sumR; cbn [fold_right INR]; apply Exists_cons_hd; lra).
  assert (L3 : (1 <= 2 < length wtwo)%nat) by (cbn; lia).
  destruct (McLemmas6.limit_prepared_ok asort asort_sorts wtwo wtwo_ok 2 L3) as [p [idx PR]].
  exists asort, wtwo, 2%nat, p, idx. split; [exact asort_sorts|]. split; [exact wtwo_ok|]. split; [apply wtwo_max|]. split; [exact L3|]. split; [exact PR|].
  intros C rand m fuel g c G F R. destruct (McLemmas6.limit_outside asort asort_sorts wtwo wtwo_ok 2 L3 L1 L2 p idx C rand m fuel g c PR eq_refl G F R) as [s' [i E]]. exists i. now rewrite E.
Qed.
Print Assumptions C30_limit_index_refuted.

Example C30_example : exists p idx, prepared asort false w4 2 p idx /\
  snd (samplenr Z still 16 1 p (g0, 12%Z)) = Ok (1%nat, [0; 1]%nat) /\ members idx [0; 1]%nat = [0; 2]%Z.
Proof.
  destruct (McLemmas5.prepared_ok asort asort_sorts w4 w4_ok 2 ltac:(unfold w4; cbn; lia) w4_strict) as [p [idx PR]].
  exists p, idx. split; [exact PR|]. destruct (w4_run p idx 12 PR) as [-> ->]. rewrite w4_12. now split.
Qed.

(** C31.  F turns the picks made with successive random numbers into the
    positions drawn: k different ones, every ordered selection from exactly
    one sequence of picks.  The pool of the caller stays as it was. *)
Theorem C31_equal_probability_sample : forall n k, exists F : list nat -> list nat,
  (forall picks, picks_ok n picks -> length picks = k -> selection n k (F picks)) /\
  (forall ps, selection n k ps -> exists picks, picks_ok n picks /\ length picks = k /\ F picks = ps /\
     forall picks', picks_ok n picks' -> length picks' = k -> F picks' = ps -> picks' = picks) /\
  ((1 <= k <= n)%nat -> forall C (rand : C -> C * Z) m c rs c', rand_below rand m -> rands rand c rs c' -> length rs = k ->
     picks_ok n (picks_from m n rs) /\
     (forall pool, length pool = n -> equalprob C rand m (Z.of_nat k) pool c = (c', Ok (map (fun q => nth q pool 0%Z) (F (picks_from m n rs)), pool))) /\
     (forall pool, (n <= length pool)%nat -> exists pool', equalprobi C rand m (Z.of_nat k) (Z.of_nat n) pool c = (c', Ok (map Z.of_nat (F (picks_from m n rs)), pool')) /\
        length pool' = length pool /\ skipn n pool' = skipn n pool)).
Proof. exact McLemmas7.equal_places. Qed.
Print Assumptions C31_equal_probability_sample.
(** The numbers r below m that give pick q of n are m/n, up to less than one. *)
Theorem C31_picks_are_shared_evenly : forall m n q, (0 < m)%Z -> (q < n)%nat -> exists l, NoDup l /\
  (forall r, In r l <-> (0 <= r < m)%Z /\ Z.to_nat (Z.of_nat n * r / m) = q) /\ (m - Z.of_nat n < Z.of_nat n * Z.of_nat (length l) < m + Z.of_nat n)%Z.
Proof. exact McLemmas7.pick_share. Qed.
Print Assumptions C31_picks_are_shared_evenly.
Theorem C31_bad_sizes_are_refused : forall C (rand : C -> C * Z) m k pool c, (k <= 0 \/ Z.of_nat (length pool) < k)%Z -> equalprob C rand m k pool c = (c, Err ValueError).
Proof. exact McLemmas7.equal_refused. Qed.
Print Assumptions C31_bad_sizes_are_refused.

Example C31_example : rand_below lcg 32768 /\ (exists c', equalprob Z lcg 32768 3 [50; 60; 70; 80; 90]%Z 1%Z = (c', Ok ([70; 50; 80]%Z, [50; 60; 70; 80; 90]%Z))) /\
  (exists c', equalprobi Z lcg 32768 3 5 (repeat 9%Z 6) 1%Z = (c', Ok ([2; 0; 3]%Z, [4; 1; 4; 3; 4; 9]%Z))).
Proof. split; [exact lcg_below|]. split; eexists; vm_compute; reflexivity. Qed.

(** C32.  With numbers exactly uniform between 0 and 1: the mean of 1 when
    the sample has item x and 0 otherwise.  It is n times the weight's share
    among the runs that return within t tries, and in the limit of all runs. *)
Theorem C32_inclusion_is_proportional_to_size : forall argsort w n p idx,
  sorts argsort -> weights_ok w -> (1 <= n)%nat -> List.Forall (fun x => INR n * x < sumR w) w -> prepared argsort false w n p idx ->
  (forall t k x, (x < length w)%nat -> (t * n <= k)%nat ->
     mean k (fun us => includes idx x (trial p t us)) = INR n * nth x w 0 / sumR w * mean k (fun us => returns (trial p t us))) /\
  is_lim_seq (fun t => mean (t * n) (fun us => returns (trial p t us))) 1 /\
  (forall x, (x < length w)%nat -> is_lim_seq (fun t => mean (t * n) (fun us => includes idx x (trial p t us))) (INR n * nth x w 0 / sumR w)).
Proof. exact McLemmas11.inclusion. Qed.
Print Assumptions C32_inclusion_is_proportional_to_size.

(** Where npy_intp has 64 bits: an item with half of the weight is drawn a
    quarter of the time. *)
Theorem C32_indices_of_64_bits_refuted : exists argsort w n p idx x, sorts argsort /\ weights_ok w /\ (1 <= n)%nat /\ List.Forall (fun x => INR n * x < sumR w) w /\
  prepared argsort true w n p idx /\ (x < length w)%nat /\ INR n * nth x w 0 / sumR w = 1/2 /\
  forall t, (1 <= t)%nat -> mean (t * n) (fun us => includes idx x (trial p t us)) = 1/4.
Proof.
  destruct w3_ready as [p [idx PR]]. exists asort, w3, 1%nat, p, idx, 1%nat. split; [exact asort_sorts|]. split; [exact w3_ok|]. split; [lia|]. split.
  { unfold w3, sumR. cbn [fold_right INR]. repeat (apply Forall_cons; [lra|]). constructor. }
  split; [exact PR|]. split; [cbn; lia|]. split; [unfold sumR, w3; cbn [INR nth fold_right]; field|]. intros t T. now apply w3_trial.
Qed.
Print Assumptions C32_indices_of_64_bits_refuted.

Example C32_example : exists p idx, prepared asort false w4 2 p idx /\
  is_lim_seq (fun t => mean (t * 2) (fun us => includes idx 0 (trial p t us))) (3/4) /\
  is_lim_seq (fun t => mean (t * 2) (fun us => includes idx 3 (trial p t us))) (1/4).
Proof.
  destruct (McLemmas5.prepared_ok asort asort_sorts w4 w4_ok 2 ltac:(unfold w4; cbn; lia) w4_strict) as [p [idx PR]]. exists p, idx. split; [exact PR|].
  destruct (C32_inclusion_is_proportional_to_size asort w4 2 p idx asort_sorts w4_ok ltac:(lia) w4_strict PR) as [_ [_ L]]. split.
  - replace (3/4) with (INR 2 * nth 0 w4 0 / sumR w4) by (unfold sumR, w4; cbn [INR nth fold_right]; field). apply L. cbn. lia.
  - replace (1/4) with (INR 2 * nth 3 w4 0 / sumR w4) by (unfold sumR, w4; cbn [INR nth fold_right]; field). apply L. cbn. lia.
Qed.

(** C33.  What sample returns, and the state of numpy.random afterwards,
    depend on nothing outside the object but that state. *)
Theorem C33_sample_depends_on_numpy_state_only : forall A C C' fuel nsamp (o : @popn A) (w : world C) (w' : world C') o1 w1 r o1' w1' r',
  w_np C w = w_np C' w' -> popn_sample C fuel nsamp (o, w) = ((o1, w1), r) -> popn_sample C' fuel nsamp (o, w') = ((o1', w1'), r') ->
  o1 = o1' /\ r = r' /\ w_np C w1 = w_np C' w1'.
Proof. exact (@McLemmas8.sample_same). Qed.
Print Assumptions C33_sample_depends_on_numpy_state_only.
(** The numbers used are the next ones of numpy.random, and its state moves on
    past them. *)
Theorem C33_sample_moves_numpy_state_on : forall A C fuel nsamp (o : @popn A) (w : world C) o1 w1 r, usable o -> good (np_rk (w_np C w)) -> (1 <= nsamp)%Z ->
  popn_sample C fuel nsamp (o, w) = ((o1, w1), r) ->
  usable o1 /\ o_items o1 = o_items o /\ o_weights o1 = o_weights o /\
  (r = Err OutOfFuel \/
   exists out idx ys, r = Ok out /\ Z.of_nat (length out) = nsamp /\ List.Forall2 (fun i a => nth_error (o_items o) i = Some a) idx out /\
     List.Forall (fun i => 0 < nth i (o_weights o) 0) idx /\
     outputs (np_rk (w_np C w)) ys (np_rk (w_np C w1)) /\ good (np_rk (w_np C w1)) /\ np_extra (w_np C w1) = np_extra (w_np C w)).
Proof. exact (@McLemmas8.sample_draws). Qed.
Print Assumptions C33_sample_moves_numpy_state_on.
Theorem C33_subset_of_everything : forall A C (o : @popn A) (w : world C), subset_pps C (o_npopn o) (o, w) = ((o, w), Ok (o_items o)).
Proof. exact (@McLemmas8.subset_all). Qed.
Print Assumptions C33_subset_of_everything.
Theorem C33_subset_fails_otherwise : forall A C nsamp (o : @popn A) (w : world C), nsamp <> o_npopn o -> subset_pps C nsamp (o, w) = ((o, w), Err TypeError).
Proof. exact (@McLemmas8.subset_fails). Qed.
Print Assumptions C33_subset_fails_otherwise.

Theorem C33_subset_pps_refuted : exists (o : @popn string) (n : nat), usable o /\ (0 < Z.of_nat n <= max_subset o)%Z /\
  forall C (w : world C), subset_pps C n (o, w) = ((o, w), Err TypeError).
Proof.
  exists letters, 2%nat. split; [apply letters_usable|]. split.
  - unfold max_subset, letters, w4, rsum. cbn [o_weights fold_left]. rewrite (Rmax_right 0 3), (Rmax_left 3 2), (Rmax_left 3 2), (Rmax_left 3 1) by lra.
    unfold to_int. RefCases.rdec. rewrite (RefCases.Int_part_eq _ 2); [lia|]. simpl. lra.
  - intros C w. apply C33_subset_fails_otherwise. discriminate.
Qed.
Print Assumptions C33_subset_pps_refuted.
(** What subset_pps would call depends on the generator of the C library. *)
Theorem C33_samplenr_reproducible_refuted : exists p g c c', exists argsort w n idx, sorts argsort /\ weights_ok w /\ prepared argsort false w n p idx /\ good g /\
  snd (samplenr Z still 16 1 p (g, c)) = Ok (1%nat, [0; 1]%nat) /\ snd (samplenr Z still 16 1 p (g, c')) = Ok (1%nat, [0; 2]%nat).
Proof.
  destruct (McLemmas5.prepared_ok asort asort_sorts w4 w4_ok 2 ltac:(unfold w4; cbn; lia) w4_strict) as [p [idx PR]].
  exists p, g0, 12%Z, 15%Z, asort, w4, 2%nat, idx. split; [exact asort_sorts|]. split; [exact w4_ok|]. split; [exact PR|]. split; [exact g0_good|].
  split; [destruct (w4_run p idx 12 PR) as [_ ->]; now rewrite w4_12|destruct (w4_run p idx 15 PR) as [_ ->]; now rewrite w4_15].
Qed.
Print Assumptions C33_samplenr_reproducible_refuted.

Example C33_example : exists o1 w1 r, popn_sample Z 10 1 (letters, World Z (NpState g0 (0%Z, 0)) (Rk [] 0) 0%Z) = ((o1, w1), r) /\ usable o1 /\ o_items o1 = ["a"; "b"; "c"; "d"]%string.
Proof.
  destruct (popn_sample Z 10 1 (letters, World Z (NpState g0 (0%Z, 0)) (Rk [] 0) 0%Z)) as [[o1 w1] r] eqn:E. exists o1, w1, r. split; [reflexivity|].
  apply C33_sample_moves_numpy_state_on in E; [|apply letters_usable|exact g0_good|lia]. split; [apply E|]. destruct E as [_ [E _]]. exact E.
Qed.

(** C60.  prepwts gives the weights in decreasing order, the positions they
    came from, and their sum. *)
Theorem C60_weights_in_decreasing_order : forall argsort w p0, sorts argsort -> w <> [] ->
  exists p1 order sorted, prepwts argsort false p0 w = Ok (p1, (map Z.of_nat order, sorted, sumR w)) /\
    Permutation order (seq 0 (length w)) /\ sorted = map (fun i => nth i w 0) order /\
    (forall i j, (i < j < length w)%nat -> nth j sorted 0 <= nth i sorted 0).
Proof. exact McLemmas6.prepwts_order. Qed.
Print Assumptions C60_weights_in_decreasing_order.
(** Where npy_intp has 64 bits it reads half of the array, and of that every
    other element is zero. *)
Theorem C60_indices_of_64_bits_refuted : exists argsort w, sorts argsort /\ weights_ok w /\
  forall p0, exists p1 idx sorted tot, prepwts argsort true p0 w = Ok (p1, (idx, sorted, tot)) /\
    tot <> sumR w /\ ~ Permutation sorted w /\ sorted <> map (fun i => nth (Z.to_nat i) w 0) idx.
Proof.
  exists asort, w3. split; [exact asort_sorts|]. split; [exact w3_ok|]. intros p0. eexists. eexists. eexists. eexists. split; [apply w3_prep|].
  split; [unfold cumsum, sumR, w3; cbn [cumsum_from last fold_right]; lra|]. split.
  - intros P. apply McLemmas5.sumR_perm in P; unfold sumR, w3 in P; cbn in P; lra.
  - unfold w3. cbn. intros K. injection K as K. lra.
Qed.
Print Assumptions C60_indices_of_64_bits_refuted.

Example C60_example : exists p1, prepwts asort false (Pps Unset None None) w4 = Ok (p1, ([0; 2; 1; 3]%Z, [3; 2; 2; 1], sumR w4)).
Proof.
  destruct (McLemmas5.prepared_ok asort asort_sorts w4 w4_ok 2 ltac:(unfold w4; cbn; lia) w4_strict) as [p [idx _]].
  rewrite (McLemmas5.prepwts_is asort asort_sorts w4 2) by (unfold w4; cbn; lia). rewrite w4_order, w4_sorted. eexists. reflexivity.
Qed.

(** C61.  The generator: every number is a tempered word of the sequence that
    starts with the 624 words of the state and goes on by the recurrence of
    the Mersenne Twister; in order, from the position of the state. *)
Theorem C61_generator_is_the_twister : forall g, good g ->
  exists x, (forall i, (i < 624)%nat -> x i = nth i (rk_key g) 0%Z) /\ twisted x /\
    forall n, exists ys g', outputs g ys g' /\ length ys = n /\ good g' /\
      forall k, (k < n)%nat -> nth k ys 0%Z = tempered (x (Z.to_nat (rk_pos g) + k)%nat) /\ (0 <= nth k ys 0 < 2 ^ 32)%Z.
Proof. exact McLemmas.generator_is_twister. Qed.
Print Assumptions C61_generator_is_the_twister.
(** Integers up to max: the low k bits of the first random number for which
    these do not exceed max. *)
Theorem C61_interval : forall (wide : bool) max fuel g g' r, good g -> (0 < max < 2 ^ (if wide then 64 else 32))%Z ->
  rk_interval wide max fuel g = (g', r) -> r <> Err OutOfFuel ->
  exists k ys rejected l, (2 ^ (k - 1) <= max < 2 ^ k)%Z /\ (0 < k)%Z /\
    outputs g ys g' /\ longs wide ys (rejected ++ [l]) /\ List.Forall (fun u => (max < u mod 2 ^ k)%Z) rejected /\
    r = Ok (l mod 2 ^ k)%Z /\ (0 <= l mod 2 ^ k <= max)%Z /\ good g'.
Proof. exact McLemmas2.interval_is. Qed.
Print Assumptions C61_interval.
(** Doubles: 27 bits of one number and 26 of the next. *)
Theorem C61_double : forall g, good g -> exists g' a b u, outputs g [a; b] g' /\ good g' /\ rk_double g = (g', Ok u) /\
  u = IZR (2 ^ 26 * (a / 2 ^ 5) + b / 2 ^ 6) / 2 ^ 53 /\ 0 <= u < 1.
Proof. exact McLemmas2.double_is. Qed.
Print Assumptions C61_double.
(** set_rng_state takes any position; the next number is then read from
    outside the array. *)
Theorem C61_state_check_refuted : exists key pos, length key = 624%nat /\
  forall C (w : world C), exists w', set_rng_state C [AStr "MT19937"; AKey key; AInt pos] w = (w', Ok tt) /\ snd (on_loc C rk_random w') = Err BadMemory.
Proof.
  exists (repeat 0%Z 624), 700%Z. split; [apply repeat_length|]. intros C w. eexists. split; [reflexivity|]. vm_compute. reflexivity.
Qed.
Print Assumptions C61_state_check_refuted.

Example C61_example : good (Rk (map Z.of_nat (seq 1 624)) 623) /\ exists g', outputs (Rk (map Z.of_nat (seq 1 624)) 623) [150999088; 596004846]%Z g'.
Proof.
  split.
  - split; [reflexivity|]. split; [|cbn; lia]. apply Forall_forall. intros z Z. apply in_map_iff in Z. destruct Z as [i [<- I]]. apply in_seq in I. lia.
  - eexists. eapply outputs_cons; [vm_compute; reflexivity|]. eapply outputs_cons; [vm_compute; reflexivity|]. apply outputs_nil.
Qed.
