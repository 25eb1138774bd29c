(** Theorems on product-limit estimates: sandbox/asurv/_asurvkm.f and KM.py.

    [fuel] bounds how far memory is read: PLEST1 reads beyond the detections until
    it finds a value that differs.  In the theorems some place w after the arrays
    holds a value greater than all the data. *)

From Coq Require Import List Bool Arith ZArith Reals Lra Lia Permutation.
From Verif Require Import Exn Instances McModel BaModel KmModel KmSpec KmLemmas7 KmLemmas8 KmLemmas9 KmCases KmLemmas10.
Import ListNotations.
Open Scope R_scope.

(** KMESTM with lower limits (indicators not negative) gives the product-limit
    estimate: its points in order, the probability of greater values at each with
    Greenwood's error, the mean and its error.  NU is smaller than the number of
    points by the number of limits that were taken for detections. *)
Theorem C89_lower_limits ind x fuel m_u m_c m_s m_v w :
  length ind = length x -> (forall i, In i ind -> (0 <= i)%Z) ->
  let found := kept true ind x in
  let limits := kept false ind x in
  let p := length (points found limits) in
  found <> [] -> (length x < w)%nat -> (forall t, In t x -> t < m_u w) -> (w + 2 <= fuel)%nat ->
  (forall t, events found limits = [t] -> m_u 2%nat <> t) ->
  exists k, kmestm fuel (length x) (of_list 0%Z ind) (of_list 0 x) m_u m_c m_s m_v = Ok (Some k) /\
    k_nu k = (Z.of_nat p - Z.of_nat (length (filter (topmost found limits) limits)))%Z /\
    lists_all (points found limits) (k_zu k) p /\
    (forall i, (1 <= i <= p)%nat -> k_s k i = survival found limits (k_zu k i) /\ k_v k i = greenwood found limits (k_zu k i)) /\
    k_mean k = mean found limits /\ k_error k = sqrt (mean_var found limits) /\
    k_nc k = Z.of_nat (length limits) /\ Permutation limits (map (k_zc k) (seq 1 (length limits))) /\
    (forall i j, (1 <= i <= j)%nat -> (j <= length limits)%nat -> k_zc k i <= k_zc k j).
Proof. exact (lower_l ind x fuel m_u m_c m_s m_v w). Qed.
Print Assumptions C89_lower_limits.
(** Detections 1 and 3, a lower limit 2 *)
Example C89_lower_limits_case : exists k, kmestm 6 3 (of_list 0%Z [0; 0; 1]%Z) (of_list 0 [3; 1; 2]) (km_mem 3) (fun _ => 0) (fun _ => 0) (fun _ => 0) = Ok (Some k) /\
  k_nu k = 2%Z /\ k_zu k 1%nat = 1 /\ k_zu k 2%nat = 3 /\ k_nc k = 1%Z /\ k_zc k 1%nat = 2.
Proof.
  assert (P : points [3; 1] [2] = [3; 1]).
  { unfold points, events, topmost, data. cbn [app filter forallb]. km_dec. apply nodup_fixed_point. km_nodup. }
  assert (T : filter (topmost [3; 1] [2]) [2] = []) by (unfold topmost, data; cbn [app filter forallb]; km_dec; easy).
  destruct (C89_lower_limits [0; 0; 1]%Z [3; 1; 2] 6 (km_mem 3) (fun _ => 0) (fun _ => 0) (fun _ => 0) 4) as (k & A1 & A2 & A3 & _ & _ & _ & A4 & A5 & _).
  - easy.
  - cbn [In]. intros i [<-|[<-|[<-|[]]]]; lia.
  - easy.
  - cbn [length]. lia.
  - unfold km_mem. cbn [Nat.leb In]. intros t [<-|[<-|[<-|[]]]]; lra.
  - lia.
  - change (kept true [0; 0; 1]%Z [3; 1; 2]) with [3; 1]. change (kept false [0; 0; 1]%Z [3; 1; 2]) with [2]. unfold events. rewrite T. discriminate.
  - change (kept true [0; 0; 1]%Z [3; 1; 2]) with [3; 1] in *. change (kept false [0; 0; 1]%Z [3; 1; 2]) with [2] in *. rewrite P, T in *. cbn [length] in *.
    exists k. split; [exact A1|]. split; [easy|].
    assert (L : lists_all [1; 3] (k_zu k) 2). { destruct A3 as [B1 B2]. split; [exact B1|]. intros t. rewrite <- B2. cbn [In]. tauto. }
    destruct (lists_two 1 3 (k_zu k) ltac:(lra) L) as [Z1 Z2]. split; [exact Z1|]. split; [exact Z2|]. split; [easy|].
    cbn [seq map] in A5. apply Permutation_length_1 in A5. now rewrite <- A5.
Qed.

(** KMESTM with upper limits (indicators not positive, one negative) gives the
    estimate for the values with their signs changed, turned round: the
    probability of values greater than z is that of values less than -z there. *)
Theorem C89_upper_limits ind x fuel m_u m_c m_s m_v w :
  length ind = length x -> (forall i, In i ind -> (i <= 0)%Z) -> (exists i, In i ind /\ (i < 0)%Z) ->
  let found := map Ropp (kept true ind x) in
  let limits := map Ropp (kept false ind x) in
  let p := length (points found limits) in
  let ch := length (filter (topmost found limits) limits) in
  found <> [] -> (length x < w)%nat -> (forall t, In t x -> - t < m_u w) -> (w + 2 <= fuel)%nat ->
  (forall t, events found limits = [t] -> m_u 2%nat <> t /\ m_u 2%nat <> - t) ->
  exists k, kmestm fuel (length x) (of_list 0%Z ind) (of_list 0 x) m_u m_c m_s m_v = Ok (Some k) /\
    k_nu k = (Z.of_nat p - Z.of_nat ch)%Z /\
    lists_all (map Ropp (points found limits)) (k_zu k) p /\
    (forall i, (1 <= i <= p)%nat -> k_s k i = below found limits (- k_zu k i) /\ k_v k i = greenwood_before found limits (- k_zu k i)) /\
    k_mean k = - mean found limits /\ k_error k = sqrt (mean_var found limits) /\
    k_nc k = Z.of_nat (length limits) /\
    (ch = 0%nat -> Permutation (kept false ind x) (map (k_zc k) (seq 1 (length limits))) /\
      (forall i j, (1 <= i <= j)%nat -> (j <= length limits)%nat -> k_zc k i <= k_zc k j)) /\
    (ch = length limits -> Permutation limits (map (k_zc k) (seq 1 (length limits)))).
Proof. exact (upper_l ind x fuel m_u m_c m_s m_v w). Qed.
Print Assumptions C89_upper_limits.
(** Detections 1 and 3, an upper limit 2: values exceed 1 with probability 1/3 *)
Example C89_upper_limits_case : exists k, kmestm 6 3 (of_list 0%Z [0; 0; -1]%Z) (of_list 0 [1; 3; 2]) (km_mem 3) (fun _ => 0) (fun _ => 0) (fun _ => 0) = Ok (Some k) /\
  k_nu k = 2%Z /\ k_zu k 1%nat = 1 /\ k_s k 1%nat = 1 / 3 /\ k_zc k 1%nat = 2.
Proof.
  destruct (C89_upper_limits [0; 0; -1]%Z [1; 3; 2] 6 (km_mem 3) (fun _ => 0) (fun _ => 0) (fun _ => 0) 4) as (k & A1 & A2 & A3 & A4 & _ & _ & _ & A5 & _).
  - easy.
  - cbn [In]. intros i [<-|[<-|[<-|[]]]]; lia.
  - exists (-1)%Z. cbn [In]. split; [tauto | lia].
  - easy.
  - cbn [length]. lia.
  - unfold km_mem. cbn [Nat.leb In]. intros t [<-|[<-|[<-|[]]]]; lra.
  - lia.
  - change (map Ropp (kept true [0; 0; -1]%Z [1; 3; 2])) with [-1; -3]. change (map Ropp (kept false [0; 0; -1]%Z [1; 3; 2])) with [-2]. rewrite u_events. discriminate.
  - change (map Ropp (kept true [0; 0; -1]%Z [1; 3; 2])) with [-1; -3] in *. change (map Ropp (kept false [0; 0; -1]%Z [1; 3; 2])) with [-2] in *.
    rewrite u_points, u_top in *. cbn [length map] in *. exists k. split; [exact A1|]. split; [easy|].
    assert (L : lists_all [1; 3] (k_zu k) 2).
    { destruct A3 as [B1 B2]. split; [exact B1|]. intros t. rewrite <- B2. cbn [In]. split; intros [H|[H|[]]]; [left | right; left | left | right; left]; lra. }
    destruct (lists_two 1 3 (k_zu k) ltac:(lra) L) as [Z1 Z2]. split; [exact Z1|].
    destruct (A4 1%nat ltac:(lia)) as [S1 _]. rewrite S1, Z1. split; [exact u_below1|].
    destruct (A5 eq_refl) as [A6 _]. cbn [seq map] in A6. apply Permutation_length_1 in A6. now rewrite <- A6.
Qed.

(** Lower and upper limits together are refused (IERR is -1). *)
Theorem C89_mixed_limits ind x i j fuel m_u m_c m_s m_v : length ind = length x -> In i ind -> In j ind -> (0 < i)%Z -> (j < 0)%Z ->
  kmestm fuel (length x) (of_list 0%Z ind) (of_list 0 x) m_u m_c m_s m_v = Ok None.
Proof. exact (mixed_l ind x i j fuel m_u m_c m_s m_v). Qed.
Print Assumptions C89_mixed_limits.
Example C89_mixed_limits_case : kmestm 0 3 (of_list 0%Z [1; 0; -1]%Z) (of_list 0 [1; 3; 2]) (km_mem 3) (fun _ => 0) (fun _ => 0) (fun _ => 0) = Ok None.
Proof. apply (C89_mixed_limits [1; 0; -1]%Z [1; 3; 2] 1 (-1)); cbn [length In]; try easy; tauto. Qed.

(** Data that are all lower limits make PLEST1 read U(0). *)
Theorem C89_only_limits ind x fuel m_u m_c m_s m_v : length ind = length x -> (forall i, In i ind -> (0 < i)%Z) -> x <> [] ->
  kmestm fuel (length x) (of_list 0%Z ind) (of_list 0 x) m_u m_c m_s m_v = Err BadMemory.
Proof. exact (only_limits_l ind x fuel m_u m_c m_s m_v). Qed.
Print Assumptions C89_only_limits.
Example C89_only_limits_case : kmestm 9 2 (of_list 0%Z [1; 1]%Z) (of_list 0 [5; 4]) (km_mem 2) (fun _ => 0) (fun _ => 0) (fun _ => 0) = Err BadMemory.
Proof. apply (C89_only_limits [1; 1]%Z [5; 4]); [easy | cbn [In]; intros i [<-|[<-|[]]]; lia | easy]. Qed.

(** If every lower limit is less than some detection, NU is the number of
    different detections and they are all given. *)
Theorem C90_detections ind x fuel m_u m_c m_s m_v w :
  length ind = length x -> (forall i, In i ind -> (0 <= i)%Z) ->
  let found := kept true ind x in
  found <> [] -> (forall c, In c (kept false ind x) -> exists t, In t found /\ c < t) ->
  (length x < w)%nat -> (forall t, In t x -> t < m_u w) -> (w + 2 <= fuel)%nat ->
  (forall t, found = [t] -> m_u 2%nat <> t) ->
  exists k n, kmestm fuel (length x) (of_list 0%Z ind) (of_list 0 x) m_u m_c m_s m_v = Ok (Some k) /\
    k_nu k = Z.of_nat n /\ lists_all found (k_zu k) n.
Proof. exact (detected_l ind x fuel m_u m_c m_s m_v w). Qed.
Print Assumptions C90_detections.
Example C90_detections_case : exists k n, kmestm 6 3 (of_list 0%Z [0; 0; 1]%Z) (of_list 0 [3; 3; 2]) (km_mem 3) (fun _ => 0) (fun _ => 0) (fun _ => 0) = Ok (Some k) /\
  k_nu k = Z.of_nat n /\ lists_all [3; 3] (k_zu k) n.
Proof.
  apply (C90_detections [0; 0; 1]%Z [3; 3; 2] 6 (km_mem 3) (fun _ => 0) (fun _ => 0) (fun _ => 0) 4); try easy.
  - cbn [In]. intros i [<-|[<-|[<-|[]]]]; lia.
  - change (kept false [0; 0; 1]%Z [3; 3; 2]) with [2]. cbn [In]. intros c [<-|[]]. exists 3. split; [now left | lra].
  - cbn [length]. lia.
  - unfold km_mem. cbn [Nat.leb In]. intros t [<-|[<-|[<-|[]]]]; lra.
Qed.

(** Without that condition it is false: with a detection 1 and two lower limits 2
    no detection is left in the result. *)
Theorem C90_detections_refuted : exists ind x fuel m k t,
  (forall i, In i ind -> (0 <= i)%Z) /\ length ind = length x /\
  kmestm fuel (length x) (of_list 0%Z ind) (of_list 0 x) m (fun _ => 0) (fun _ => 0) (fun _ => 0) = Ok (Some k) /\
  In t (kept true ind x) /\ forall i, (1 <= Z.of_nat i <= k_nu k)%Z -> k_zu k i <> t.
Proof. exact tied_l. Qed.
Print Assumptions C90_detections_refuted.

(** With upper limits the detections at the wrong end are left out: of detections
    2 and 3 and an upper limit 1 the result has 1 and 2 as detections, and the
    limit is given as -1. *)
Theorem C90_upper_detections_refuted : exists ind x fuel m k t c,
  (forall i, In i ind -> (i <= 0)%Z) /\ length ind = length x /\
  kmestm fuel (length x) (of_list 0%Z ind) (of_list 0 x) m (fun _ => 0) (fun _ => 0) (fun _ => 0) = Ok (Some k) /\
  In t (kept true ind x) /\ (forall i, (1 <= Z.of_nat i <= k_nu k)%Z -> k_zu k i <> t) /\
  kept false ind x = [c] /\ k_nc k = 1%Z /\ k_zu k 1%nat = c /\ k_zc k 1%nat <> c.
Proof. exact wrong_end_l. Qed.
Print Assumptions C90_upper_detections_refuted.

(** A single detection is lost if it equals what the array held before: for a
    detection 0 and a limit -1 NU is 0, and KM fails. *)
Theorem C90_zero_detection_refuted : exists dd l fuel far, (forall c, In c l -> exists t, In t dd /\ c < t) /\
  (exists k, kmestm fuel (length (dd ++ l)) (of_list 0%Z (repeat 0%Z (length dd) ++ repeat 1%Z (length l))) (of_list 0 (dd ++ l))
    (fun i => if (i <=? length (dd ++ l))%nat then 0 else far i) (fun _ => 0) (fun _ => 0) (fun _ => 0) = Ok (Some k) /\ k_nu k = 0%Z) /\
  dd <> [] /\ new_km fuel far (Some dd) (Some l) None None None = Err IndexError.
Proof. exact zero_l. Qed.
Print Assumptions C90_zero_detection_refuted.

(** KMDIF adds up the steps of any curve in each bin. *)
Theorem C91_bins iu s zu ntot start binsiz lstep m : (1 <= iu)%nat -> (1 <= lstep)%nat -> (forall i, (1 <= i < iu)%nat -> zu i <= zu (i + 1)%nat) -> 0 < binsiz ->
  exists bs bl diff, kmdif iu s zu ntot start binsiz lstep m = Ok (bs, bl, diff) /\
   forall j, (1 <= j <= lstep)%nat -> bs j = start + binsiz * (INR j - 1) /\ bl j = start + binsiz * INR j /\
     diff j = ntot * total (map (fun i => if (i =? 1)%nat then 1 - s 1%nat else Rabs (s i - s (i - 1)%nat)) (within zu (bs j) (bl j) iu)).
Proof. exact (dif_l iu s zu ntot start binsiz lstep m). Qed.
Print Assumptions C91_bins.
Example C91_bins_case : exists bs bl diff, kmdif 2 (fun i => 1 / 2 - 1 / 2 * (INR i - 1)) INR 4 0 (3 / 2) 2 (fun _ => 0) = Ok (bs, bl, diff) /\ diff 1%nat = 2 /\ diff 2%nat = 2.
Proof.
  destruct (C91_bins 2 (fun i => 1 / 2 - 1 / 2 * (INR i - 1)) INR 4 0 (3 / 2) 2 (fun _ => 0)) as (bs & bl & diff & A & B); try lia; try lra.
  { intros i Hi. rewrite plus_INR. simpl. lra. }
  exists bs, bl, diff. split; [exact A|]. destruct (B 1%nat ltac:(lia)) as (B1 & B2 & B3). destruct (B 2%nat ltac:(lia)) as (C1 & C2 & C3). simpl in B1, B2, C1, C2.
  rewrite B3, C3, B1, B2, C1, C2. unfold within, total. cbn [seq filter]. replace (INR 1) with 1 by easy. replace (INR 2) with 2 by (simpl; lra). km_dec. cbn [andb map fold_right Nat.eqb Nat.sub].
  replace (INR 1) with 1 by easy. replace (INR 2) with 2 by (simpl; lra). split; [lra|]. rewrite Rabs_left; lra.
Qed.

(** From the estimate for lower limits these are the expected numbers of values. *)
Theorem C91_estimate found limits z p s ntot start binsiz lstep m : found <> [] -> lists_all (points found limits) z p -> (1 <= lstep)%nat -> 0 < binsiz ->
  (forall i, (1 <= i <= p)%nat -> s i = survival found limits (z i)) ->
  exists bs bl diff, kmdif p s z ntot start binsiz lstep m = Ok (bs, bl, diff) /\
   forall j, (1 <= j <= lstep)%nat -> bs j = start + binsiz * (INR j - 1) /\ bl j = start + binsiz * INR j /\
     diff j = ntot * total (map (prob found limits) (filter (fun u => Rle_b (bs j) u && Rlt_b u (bl j)) (points found limits))).
Proof. exact (dif_estimate_l found limits z p s ntot start binsiz lstep m). Qed.
Print Assumptions C91_estimate.
Example C91_estimate_case : exists bs bl diff,
  kmdif 2 (fun i => survival [1; 3] [2] (2 * INR i - 1)) (fun i => 2 * INR i - 1) 3 2 2 1 (fun _ => 0) = Ok (bs, bl, diff) /\ diff 1%nat = 2.
Proof.
  destruct (C91_estimate [1; 3] [2] (fun i => 2 * INR i - 1) 2 (fun i => survival [1; 3] [2] (2 * INR i - 1)) 3 2 2 1 (fun _ => 0)) as (bs & bl & diff & A & B); try easy; try lia; try lra.
  - rewrite a_points. split.
    + intros i Hi. rewrite plus_INR. simpl. lra.
    + intros t. cbn [In]. split.
      * intros [<-|[<-|[]]]; [exists 1%nat | exists 2%nat]; (split; [lia | simpl; lra]).
      * intros [i [Hi <-]]. assert (i = 1 \/ i = 2)%nat as [-> | ->] by lia; simpl; [left | right; left]; lra.
  - exists bs, bl, diff. split; [exact A|]. destruct (B 1%nat ltac:(lia)) as (B1 & B2 & B3). simpl in B1, B2. rewrite B3, B1, B2, a_points. cbn [filter]. km_dec.
    unfold total. cbn [andb map fold_right]. rewrite a_prob3. lra.
Qed.

(** KMDIF changes the place after the end of DIFF. *)
Theorem C91_past_end_refuted : exists iu s zu ntot start binsiz lstep m bs bl diff, 0 < binsiz /\
  kmdif iu s zu ntot start binsiz lstep m = Ok (bs, bl, diff) /\ diff (lstep + 1)%nat <> m (lstep + 1)%nat.
Proof. exact dif_past_l. Qed.
Print Assumptions C91_past_end_refuted.

(** QUART finds where the curve has the heights 3/4, 1/2 and 1/4, if no two of
    them are in the same gap. *)
Theorem C92_crossings u s iu : (forall i, (1 <= i < iu)%nat -> s (i + 1)%nat < s i) -> (3 < iu)%nat -> s 1%nat < 1 -> s iu <= 1 / 4 ->
  (forall k, (1 <= k < iu)%nat -> ~ (s (k + 1)%nat <= 1 / 2 /\ 3 / 4 <= s k) /\ ~ (s (k + 1)%nat <= 1 / 4 /\ 1 / 2 <= s k)) ->
  exists a b c, quart u s iu = (a, b, c) /\ crossing u s iu (3 / 4) a /\ crossing u s iu (1 / 2) b /\ crossing u s iu (1 / 4) c.
Proof. exact (quart_ok u s iu). Qed.
Print Assumptions C92_crossings.
Example C92_crossings_case : exists a b c, quart INR (fun i => 1 - INR i / 5) 5 = (a, b, c) /\ crossing INR (fun i => 1 - INR i / 5) 5 (1 / 2) b.
Proof.
  destruct (C92_crossings INR (fun i => 1 - INR i / 5) 5) as (a & b & c & A & B & C & D); try lia; try (simpl; lra).
  - intros i Hi. rewrite plus_INR. simpl. lra.
  - intros k Hk. rewrite plus_INR. simpl. split; lra.
  - now exists a, b, c.
Qed.

(** Otherwise it can give 0. *)
Theorem C92_same_gap_refuted : exists u s iu a b c, (3 < iu)%nat /\ (forall i, (1 <= i < iu)%nat -> u i < u (i + 1)%nat) /\ (forall i, (1 <= i < iu)%nat -> s (i + 1)%nat < s i) /\
  s 1%nat < 1 /\ s iu = 0 /\ quart u s iu = (a, b, c) /\ ~ crossing u s iu (1 / 2) b.
Proof. exact quart_l. Qed.
Print Assumptions C92_same_gap_refuted.

(** KM(dtxns=dd, ulims=l): the estimate that takes l for lower limits.  The
    weights are those of the next values, and their sum is the first value of the
    curve. *)
Theorem C93_object dd l fuel far w : dd <> [] -> (length dd + length l < w)%nat -> (forall t, In t (dd ++ l) -> t < far w) -> (w + 2 <= fuel)%nat ->
  (forall t, events dd l = [t] -> if (length dd + length l =? 1)%nat then far 2%nat <> t else t <> 0) ->
  let p := length (points dd l) in
  let ch := length (filter (topmost dd l) l) in
  (p = ch -> new_km fuel far (Some dd) (Some l) None None None = Err IndexError) /\
  ((ch < p)%nat -> exists k z, new_km fuel far (Some dd) (Some l) None None None = Ok k /\ lists_all (points dd l) z p /\
    km_nu k = Z.of_nat (p - ch) /\ km_uncens k = map z (seq 1 (p - ch)) /\
    km_cdf k = map (fun i => survival dd l (z i)) (seq 1 (p - ch)) /\ km_err k = map (fun i => greenwood dd l (z i)) (seq 1 (p - ch)) /\
    km_mean k = mean dd l /\ km_std k = sqrt (mean_var dd l) /\ km_ntot k = (length dd + length l)%nat /\
    km_nc k = Z.of_nat (length l) /\ Permutation l (km_cens k) /\
    (forall i j, (i <= j < length l)%nat -> nth i (km_cens k) 0 <= nth j (km_cens k) 0) /\
    total (km_wts k) = survival dd l (z 1%nat) /\
    (forall i, (1 <= i < p - ch)%nat -> nth (i - 1) (km_wts k) 0 = prob dd l (z (i + 1)%nat)) /\ km_sums k = cumsum 0 (km_wts k)).
Proof. exact (new_km_ok dd l fuel far w). Qed.
Print Assumptions C93_object.
Example C93_object_case : exists k, new_km 6 km_far (Some [1; 3]) (Some [2]) None None None = Ok k /\
  km_uncens k = [1; 3] /\ km_cdf k = [2 / 3; 0] /\ km_mean k = 7 / 3 /\ total (km_wts k) = 2 / 3.
Proof.
  destruct (C93_object [1; 3] [2] 6 km_far 4) as [_ R].
  - easy.
  - cbn [length]. lia.
  - unfold km_far. cbn [app In]. intros t [<-|[<-|[<-|[]]]]; lra.
  - lia.
  - rewrite a_events. discriminate.
  - rewrite a_points, a_top in R. cbn [length Nat.sub] in R. destruct (R ltac:(lia)) as (k & z & A1 & A2 & _ & A4 & A5 & _ & A6 & _ & _ & _ & _ & _ & A7 & _).
    destruct (lists_two 1 3 z ltac:(lra) A2) as [Z1 Z2]. exists k. rewrite A4, A5, A6, A7. cbn [map seq]. rewrite Z1, Z2, a_surv1, a_surv3, a_mean. easy.
Qed.

(** The weights of KM need not have the sum 1. *)
Theorem C93_weights_refuted : exists fuel far dd l k, new_km fuel far (Some dd) (Some l) None None None = Ok k /\
  total (map (prob dd l) (points dd l)) = 1 /\ total (km_wts k) <> 1.
Proof. exact wts_l. Qed.
Print Assumptions C93_weights_refuted.

(** KM.diff gives kmdif the sums of the weights for the curve: a bin that contains
    all of the data, which are detections, need not have their number. *)
Theorem C91_km_diff_refuted : exists fuel far dd k start w m bs bl diff, new_km fuel far (Some dd) (Some []) None None None = Ok k /\
  km_diff k 1 start w m = Ok (bs, bl, diff) /\ (forall t, In t dd -> bs 1%nat <= t < bl 1%nat) /\ diff 1%nat <> INR (length dd).
Proof. exact diff_l. Qed.
Print Assumptions C91_km_diff_refuted.

(** The ulims of KM are not treated as upper limits. *)
Theorem C93_ulims_refuted : exists fuel far dd l k, new_km fuel far (Some dd) (Some l) None None None = Ok k /\
  lists_all (map Ropp (points (map Ropp dd) (map Ropp l))) (of_list 0 (km_uncens k)) (length (km_uncens k)) /\
  nth 0 (km_cdf k) 0 <> below (map Ropp dd) (map Ropp l) (- nth 0 (km_uncens k) 0).
Proof. exact ulims_l. Qed.
Print Assumptions C93_ulims_refuted.

(** KM fails with llims. *)
Theorem C93_llims_refuted : exists dd l, dd <> [] /\ forall fuel far, new_km fuel far (Some dd) None (Some l) None None = Err NameError.
Proof. exact llims_l. Qed.
Print Assumptions C93_llims_refuted.

(** KM fails for some detections and limits. *)
Theorem C93_index_refuted : exists fuel far dd l, dd <> [] /\ new_km fuel far (Some dd) (Some l) None None None = Err IndexError.
Proof. exact index_l. Qed.
Print Assumptions C93_index_refuted.

