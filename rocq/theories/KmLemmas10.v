(** The statements about KMESTM, KMDIF, QUART and KM.py *)

From Coq Require Import List Bool Arith ZArith Reals Lra Lia Permutation.
From Verif Require Import Exn Instances McModel BaModel KmModel KmSpec KmLemmas KmLemmas2 KmLemmas3 KmLemmas4 KmLemmas5 KmLemmas6 KmLemmas7 KmLemmas8 KmLemmas9 KmCases.
Import ListNotations.
Open Scope R_scope.

Lemma map_one l : map (Rmult 1) l = l.
Proof. rewrite <- (map_id l) at 2. apply map_ext. intros. lra. Qed.
Lemma map_opp l : map (Rmult (-1)) l = map Ropp l.
Proof. apply map_ext. intros. lra. Qed.

Lemma lower_l ind x fuel m_u m_c m_s m_v w :
  length ind = length x -> (forall i, In i ind -> (0 <= i)%Z) ->
  let found := kept true ind x in
  let limits := kept false ind x in
  let p := length (points found limits) in
  found <> [] -> (length x < w)%nat -> (forall t, In t x -> t < m_u w) -> (w + 2 <= fuel)%nat ->
  (forall t, events found limits = [t] -> m_u 2%nat <> t) ->
  exists k, kmestm fuel (length x) (of_list 0%Z ind) (of_list 0 x) m_u m_c m_s m_v = Ok (Some k) /\
    k_nu k = (Z.of_nat p - Z.of_nat (length (filter (topmost found limits) limits)))%Z /\
    lists_all (points found limits) (k_zu k) p /\
    (forall i, (1 <= i <= p)%nat -> k_s k i = survival found limits (k_zu k i) /\ k_v k i = greenwood found limits (k_zu k i)) /\
    k_mean k = mean found limits /\ k_error k = sqrt (mean_var found limits) /\
    k_nc k = Z.of_nat (length limits) /\ Permutation limits (map (k_zc k) (seq 1 (length limits))) /\
    (forall i j, (1 <= i <= j)%nat -> (j <= length limits)%nat -> k_zc k i <= k_zc k j).
Proof.
  intros EL HS found limits p HF Hw Hwu Hfu Hone.
  assert (R := kmestm_ok 1 ind x fuel m_u m_c m_s m_v w EL (or_introl (conj eq_refl HS))). cbv zeta in R. rewrite !map_one in R.
  fold found limits p in R. destruct R as (k & A1 & A2 & A3 & A4 & A5 & A6 & A7 & c & A8 & A9 & A10); try easy.
  { intros t Ht. specialize (Hone t Ht). split; [easy | lra]. }
  exists k. split; [exact A1|]. split; [exact A2|]. split; [exact A4|]. split; [exact A5|]. split; [lra|]. split; [exact A7|]. split; [exact A3|].
  cbn [Z.eqb Pos.eqb] in A10. rewrite A10. split; [exact A9|]. intros i j Hi Hj. now apply A8.
Qed.

Lemma upper_l ind x fuel m_u m_c m_s m_v w :
  length ind = length x -> (forall i, In i ind -> (i <= 0)%Z) -> (exists i, In i ind /\ (i < 0)%Z) ->
  let found := map Ropp (kept true ind x) in
  let limits := map Ropp (kept false ind x) in
  let p := length (points found limits) in
  let ch := length (filter (topmost found limits) limits) in
  found <> [] -> (length x < w)%nat -> (forall t, In t x -> - t < m_u w) -> (w + 2 <= fuel)%nat ->
  (forall t, events found limits = [t] -> m_u 2%nat <> t /\ m_u 2%nat <> - t) ->
  exists k, kmestm fuel (length x) (of_list 0%Z ind) (of_list 0 x) m_u m_c m_s m_v = Ok (Some k) /\
    k_nu k = (Z.of_nat p - Z.of_nat ch)%Z /\
    lists_all (map Ropp (points found limits)) (k_zu k) p /\
    (forall i, (1 <= i <= p)%nat -> k_s k i = below found limits (- k_zu k i) /\ k_v k i = greenwood_before found limits (- k_zu k i)) /\
    k_mean k = - mean found limits /\ k_error k = sqrt (mean_var found limits) /\
    k_nc k = Z.of_nat (length limits) /\
    (ch = 0%nat -> Permutation (kept false ind x) (map (k_zc k) (seq 1 (length limits))) /\
      (forall i j, (1 <= i <= j)%nat -> (j <= length limits)%nat -> k_zc k i <= k_zc k j)) /\
    (ch = length limits -> Permutation limits (map (k_zc k) (seq 1 (length limits)))).
Proof.
  intros EL HS HX found limits p ch HF Hw Hwu Hfu Hone.
  assert (R := kmestm_ok (-1) ind x fuel m_u m_c m_s m_v w EL (or_intror (conj eq_refl (conj HS HX)))). cbv zeta in R. rewrite !map_opp, !kept_map in R.
  fold found limits p in R. destruct R as (k & A1 & A2 & A3 & A4 & A5 & A6 & A7 & c & A8 & A9 & A10); try easy.
  { intros t Ht. apply in_map_iff in Ht. destruct Ht as [t' [<- Ht]]. now apply Hwu. }
  { intros t Ht. destruct (Hone t Ht) as [H1 H2]. split; [easy | lra]. }
  exists k. split; [exact A1|]. split; [exact A2|]. split; [exact A4|]. split; [exact A5|]. split; [lra|]. split; [exact A7|]. split; [exact A3|].
  cbn [Z.eqb Pos.eqb] in A10. fold ch in A10. split.
  - intros C0. rewrite C0, Nat.sub_0_r in A10. split.
    + rewrite A10. assert (E : map (turn (length limits) c) (seq 1 (length limits)) = rev (map Ropp (map c (seq 1 (length limits))))).
      { apply nth_ext with 0 0; [now rewrite rev_length, !map_length|]. intros i Hi. rewrite map_length, seq_length in Hi.
        rewrite nth_seq by easy. rewrite turn_ok by lia. rewrite rev_nth by (now rewrite !map_length, seq_length). rewrite !map_length, seq_length.
        rewrite map_map, nth_seq by lia. f_equal. f_equal. lia. }
      rewrite E, <- Permutation_rev, <- A9. unfold limits. rewrite map_map. 
      replace (map (fun t => - - t) (kept false ind x)) with (kept false ind x); [easy|]. rewrite <- (map_id (kept false ind x)) at 1. apply map_ext. intros. lra.
    + intros i j Hi Hj. rewrite A10, !turn_ok by lia. assert (X := A8 (length limits + 1 - j)%nat (length limits + 1 - i)%nat ltac:(lia) ltac:(lia)). lra.
  - intros CL. rewrite CL, Nat.sub_diag in A10. rewrite A10. etransitivity; [exact A9|]. apply Permutation_refl'. apply map_ext_in. intros i Hi. apply in_seq in Hi.
    symmetry. apply turn_beyond. lia.
Qed.

Lemma mixed_l ind x i j fuel m_u m_c m_s m_v : length ind = length x -> In i ind -> In j ind -> (0 < i)%Z -> (j < 0)%Z ->
  kmestm fuel (length x) (of_list 0%Z ind) (of_list 0 x) m_u m_c m_s m_v = Ok None.
Proof. intros EL Hi Hj Pi Pj. unfold kmestm. rewrite <- EL. now rewrite (sign_none ind i j Hi Hj Pi Pj). Qed.

(** All the detections *)
Lemma detected_l ind x fuel m_u m_c m_s m_v w :
  length ind = length x -> (forall i, In i ind -> (0 <= i)%Z) ->
  let found := kept true ind x in
  found <> [] -> (forall c, In c (kept false ind x) -> exists t, In t found /\ c < t) ->
  (length x < w)%nat -> (forall t, In t x -> t < m_u w) -> (w + 2 <= fuel)%nat ->
  (forall t, found = [t] -> m_u 2%nat <> t) ->
  exists k n, kmestm fuel (length x) (of_list 0%Z ind) (of_list 0 x) m_u m_c m_s m_v = Ok (Some k) /\
    k_nu k = Z.of_nat n /\ lists_all found (k_zu k) n.
Proof.
  intros EL HS found HF HT Hw Hwu Hfu Hone.
  assert (NT : filter (topmost found (kept false ind x)) (kept false ind x) = []).
  { assert (G : forall l, (forall y, In y l -> topmost found (kept false ind x) y = false) -> filter (topmost found (kept false ind x)) l = []).
    { induction l as [|y l IH]; intros H; [easy|]. cbn [filter]. rewrite (H y (or_introl eq_refl)), IH; [easy|]. intros z Hz. apply H. now right. }
    apply G. intros c Hc. destruct (topmost _ _ c) eqn:E; [|easy]. rewrite topmost_true in E. destruct (HT c Hc) as (t & T1 & T2).
    assert (X := E t). unfold data in X. rewrite in_app_iff in X. specialize (X (or_introl T1)). lra. }
  assert (EV : events found (kept false ind x) = found) by (unfold events; rewrite NT; apply app_nil_r).
  destruct (lower_l ind x fuel m_u m_c m_s m_v w EL HS HF Hw Hwu Hfu) as (k & A1 & A2 & A3 & _).
  { fold found. rewrite EV. exact Hone. }
  fold found in A2, A3. rewrite NT in A2. exists k, (length (points found (kept false ind x))). split; [exact A1|]. split; [cbn [length] in A2; lia|].
  destruct A3 as [B1 B2]. split; [exact B1|]. intros t. rewrite <- B2. rewrite point_event, EV. easy.
Qed.

(** Two limits at the top: no detection is reported *)
Lemma tied_l : exists ind x fuel m k t,
  (forall i, In i ind -> (0 <= i)%Z) /\ length ind = length x /\
  kmestm fuel (length x) (of_list 0%Z ind) (of_list 0 x) m (fun _ => 0) (fun _ => 0) (fun _ => 0) = Ok (Some k) /\
  In t (kept true ind x) /\ forall i, (1 <= Z.of_nat i <= k_nu k)%Z -> k_zu k i <> t.
Proof.
  assert (K1 : kept true [0; 1; 1]%Z [1; 2; 2] = [1]) by easy. assert (K2 : kept false [0; 1; 1]%Z [1; 2; 2] = [2; 2]) by easy.
  destruct (lower_l [0; 1; 1]%Z [1; 2; 2] 6 (km_mem 3) (fun _ => 0) (fun _ => 0) (fun _ => 0) 4) as (k & A1 & A2 & _).
  - easy.
  - cbn [In]. intros i [<-|[<-|[<-|[]]]]; lia.
  - now rewrite K1.
  - cbn [length]. lia.
  - unfold km_mem. cbn [Nat.leb In]. intros t [<-|[<-|[<-|[]]]]; lra.
  - lia.
  - rewrite K1, K2. intros t E. unfold events in E. rewrite b_top in E. discriminate E.
  - rewrite K1, K2, b_top, b_points in A2. exists [0; 1; 1]%Z, [1; 2; 2], 6%nat, (km_mem 3), k, 1.
    split; [cbn [In]; intros i [<-|[<-|[<-|[]]]]; lia|]. split; [easy|]. split; [exact A1|]. split; [rewrite K1; now left|].
    intros i Hi. cbn [length] in A2. lia.
Qed.

(** Upper limits: the point of a limit is reported and a detection is not, and
    the limit has the wrong sign *)
Lemma wrong_end_l : exists ind x fuel m k t c,
  (forall i, In i ind -> (i <= 0)%Z) /\ length ind = length x /\
  kmestm fuel (length x) (of_list 0%Z ind) (of_list 0 x) m (fun _ => 0) (fun _ => 0) (fun _ => 0) = Ok (Some k) /\
  In t (kept true ind x) /\ (forall i, (1 <= Z.of_nat i <= k_nu k)%Z -> k_zu k i <> t) /\
  kept false ind x = [c] /\ k_nc k = 1%Z /\ k_zu k 1%nat = c /\ k_zc k 1%nat <> c.
Proof.
  assert (K1 : kept true [0; 0; -1]%Z [2; 3; 1] = [2; 3]) by easy. assert (K2 : kept false [0; 0; -1]%Z [2; 3; 1] = [1]) by easy.
  assert (M1 : map Ropp [2; 3] = [-2; -3]) by easy. assert (M2 : map Ropp [1] = [-1]) by easy.
  destruct (upper_l [0; 0; -1]%Z [2; 3; 1] 6 (km_mem 3) (fun _ => 0) (fun _ => 0) (fun _ => 0) 4) as (k & A1 & A2 & A3 & _ & _ & _ & A4 & _ & A5).
  - easy.
  - cbn [In]. intros i [<-|[<-|[<-|[]]]]; lia.
  - exists (-1)%Z. cbn [In]. split; [tauto | lia].
  - now rewrite K1.
  - cbn [length]. lia.
  - unfold km_mem. cbn [Nat.leb In]. intros t [<-|[<-|[<-|[]]]]; lra.
  - lia.
  - rewrite K1, K2, M1, M2, c_events. discriminate.
  - rewrite K1, K2, M1, M2 in *. rewrite c_top, c_points in *. cbn [length map] in *.
    assert (I := lists_incr _ _ _ A3). destruct A3 as [_ B].
    assert (Z3 : k_zu k 3%nat = 3).
    { assert (X : In 3 [- -2; - -3; - -1]) by (cbn [In]; right; left; lra). apply B in X. destruct X as [i [Hi Ei]].
      assert (i = 1 \/ i = 2 \/ i = 3)%nat as D by lia.
      assert (Y : In (k_zu k 3%nat) [- -2; - -3; - -1]) by (apply B; exists 3%nat; split; [lia | easy]). cbn [In] in Y.
      assert (I1 := I 1%nat 3%nat ltac:(lia) ltac:(lia)). assert (I2 := I 2%nat 3%nat ltac:(lia) ltac:(lia)).
      destruct D as [-> | [-> | ->]]; [| | exact Ei]; destruct Y as [Y|[Y|[Y|[]]]]; lra. }
    assert (Z1 : k_zu k 1%nat = 1).
    { assert (X : In 1 [- -2; - -3; - -1]) by (cbn [In]; right; right; left; lra). apply B in X. destruct X as [i [Hi Ei]].
      assert (i = 1 \/ i = 2 \/ i = 3)%nat as D by lia.
      assert (Y : In (k_zu k 1%nat) [- -2; - -3; - -1]) by (apply B; exists 1%nat; split; [lia | easy]). cbn [In] in Y.
      assert (I1 := I 1%nat 3%nat ltac:(lia) ltac:(lia)). assert (I2 := I 1%nat 2%nat ltac:(lia) ltac:(lia)).
      destruct D as [-> | [-> | ->]]; [exact Ei | |]; destruct Y as [Y|[Y|[Y|[]]]]; lra. }
    exists [0; 0; -1]%Z, [2; 3; 1], 6%nat, (km_mem 3), k, 3, 1.
    split; [cbn [In]; intros i [<-|[<-|[<-|[]]]]; lia|]. split; [easy|]. split; [exact A1|]. split; [rewrite K1; right; now left|]. split.
    { intros i Hi. rewrite <- Z3. assert (X := I i 3%nat ltac:(lia) ltac:(lia)). lra. }
    split; [easy|]. split; [easy|]. split; [exact Z1|].
    specialize (A5 eq_refl). cbn [seq map] in A5. apply Permutation_length_1 in A5. rewrite <- A5. lra.
Qed.

(** Limits only *)
Lemma only_limits_l ind x fuel m_u m_c m_s m_v : length ind = length x -> (forall i, In i ind -> (0 < i)%Z) -> x <> [] ->
  kmestm fuel (length x) (of_list 0%Z ind) (of_list 0 x) m_u m_c m_s m_v = Err BadMemory.
Proof.
  intros EL HS HX. unfold kmestm. replace (xvar_sign (length x) (of_list 0%Z ind)) with (Some 1%Z).
  2:{ symmetry. rewrite <- EL. apply sign_some. left. split; [easy|]. intros i Hi. specialize (HS i Hi). lia. }
  set (n := length x) in *. set (xt0 := fun i => _).
  destruct (sort1_ok Z n (of_list 0%Z ind, xt0)) as (PP & _ & _). destruct (sort1 n (of_list 0%Z ind, xt0)) as [isave xt]. cbn [fst snd] in *.
  destruct (split_ok n isave xt m_u m_c) as (sp & SP & IU & _). rewrite SP.
  replace (x_iu sp) with 0%nat; [easy|]. rewrite IU. rewrite pick_kept. unfold kept. rewrite <- map_pairs, map_length.
  rewrite (count_perm _ _ _ _ (Permutation_sym PP)). rewrite map_pairs. rewrite <- EL, of_list_all.
  assert (G : forall l (g : list R), (forall i, In i l -> (0 < i)%Z) -> filter (fun p : Z * R => Bool.eqb (fst p =? 0)%Z true) (combine l g) = []).
  { induction l as [|i l IH]; intros g H; [easy|]. destruct g as [|y g]; [easy|]. cbn [combine filter fst].
    replace (i =? 0)%Z with false by (symmetry; apply Z.eqb_neq; specialize (H i (or_introl eq_refl)); lia). cbn [Bool.eqb]. apply IH. intros j Hj. apply H. now right. }
  now rewrite G.
Qed.

(** KMDIF *)
Lemma dif_l iu s zu ntot start binsiz lstep m : (1 <= iu)%nat -> (1 <= lstep)%nat -> (forall i, (1 <= i < iu)%nat -> zu i <= zu (i + 1)%nat) -> 0 < binsiz ->
  exists bs bl diff, kmdif iu s zu ntot start binsiz lstep m = Ok (bs, bl, diff) /\
   forall j, (1 <= j <= lstep)%nat -> bs j = start + binsiz * (INR j - 1) /\ bl j = start + binsiz * INR j /\
     diff j = ntot * total (map (fun i => if (i =? 1)%nat then 1 - s 1%nat else Rabs (s i - s (i - 1)%nat)) (within zu (bs j) (bl j) iu)).
Proof.
  intros H1 H2 H3 H4. destruct (kmdif_ok iu s zu ntot start binsiz lstep m) as (bs & bl & diff & A & B & C & _ & _); try easy.
  { intros i j Hi Hj. induction j as [|j IH]; [lia|]. destruct (Nat.eq_dec i (S j)) as [->|N]; [lra|].
    assert (X := H3 j ltac:(lia)). replace (j + 1)%nat with (S j) in X by lia. specialize (IH ltac:(lia) ltac:(lia)). lra. }
  exists bs, bl, diff. split; [exact A|]. intros j Hj. split; [apply B|]. split; [apply B|]. rewrite (C j Hj), Rmult_comm. easy.
Qed.
Lemma dif_estimate_l found limits z p s ntot start binsiz lstep m : found <> [] -> lists_all (points found limits) z p -> (1 <= lstep)%nat -> 0 < binsiz ->
  (forall i, (1 <= i <= p)%nat -> s i = survival found limits (z i)) ->
  exists bs bl diff, kmdif p s z ntot start binsiz lstep m = Ok (bs, bl, diff) /\
   forall j, (1 <= j <= lstep)%nat -> bs j = start + binsiz * (INR j - 1) /\ bl j = start + binsiz * INR j /\
     diff j = ntot * total (map (prob found limits) (filter (fun u => Rle_b (bs j) u && Rlt_b u (bl j)) (points found limits))).
Proof.
  intros HF HL H2 H4 Hs. assert (P := points_some found limits HF). assert (ND : NoDup (points found limits)) by apply NoDup_nodup.
  assert (E := lists_length _ _ _ ND HL).
  destruct (dif_l p s z ntot start binsiz lstep m) as (bs & bl & diff & A & B); try easy.
  { lia. }
  { intros i Hi. apply Rlt_le. now apply HL. }
  exists bs, bl, diff. split; [exact A|]. intros j Hj. destruct (B j Hj) as (B1 & B2 & B3). split; [exact B1|]. split; [exact B2|].
  rewrite B3. f_equal. apply (insum_prob found limits z p HL s (bs j) (bl j) Hs).
Qed.
Lemma dif_past_l : exists iu s zu ntot start binsiz lstep m bs bl diff, 0 < binsiz /\
  kmdif iu s zu ntot start binsiz lstep m = Ok (bs, bl, diff) /\ diff (lstep + 1)%nat <> m (lstep + 1)%nat.
Proof.
  destruct (kmdif_ok 1 (fun _ => 0) (fun _ => 1) 1 0 2 1 (fun _ => 7)) as (bs & bl & diff & A & _ & _ & B & _); try lia; try lra.
  { intros i j _ _. lra. }
  exists 1%nat, (fun _ => 0), (fun _ => 1), 1, 0, 2, 1%nat, (fun _ => 7), bs, bl, diff. split; [lra|]. split; [exact A|]. rewrite B. lra.
Qed.

(** QUART *)
Definition quart_s : mem := fun i => match i with 1%nat => 4 / 5 | 2%nat => 1 / 10 | 3%nat => 1 / 20 | _ => 0 end.
Lemma quart_l : exists u s iu a b c, (3 < iu)%nat /\ (forall i, (1 <= i < iu)%nat -> u i < u (i + 1)%nat) /\ (forall i, (1 <= i < iu)%nat -> s (i + 1)%nat < s i) /\
  s 1%nat < 1 /\ s iu = 0 /\ quart u s iu = (a, b, c) /\ ~ crossing u s iu (1 / 2) b.
Proof.
  exists INR, quart_s, 4%nat.
  assert (Q : exists a c, quart INR quart_s 4 = (a, 0, c)).
  { unfold quart, quart_one. cbn [Nat.leb Nat.sub quart_scan quart_s Nat.add].
    assert (T : forall a b, a <= b -> Rleb a b = true) by (intros; unfold Rleb; destruct (Rle_dec _ _); [easy | lra]).
    assert (F : forall a b, b < a -> Rleb a b = false) by (intros; unfold Rleb; destruct (Rle_dec _ _); [lra | easy]).
    assert (G : forall a b, b <= a -> Rltb a b = false) by (intros; unfold Rltb; destruct (Rlt_dec _ _); [lra | easy]).
    rewrite !G by lra. rewrite (T (3 / 4) (4 / 5)), (T (1 / 10) (3 / 4)) by lra. cbn [andb Nat.sub Nat.add quart_scan quart_s].
    rewrite (F (1 / 2) (1 / 10)), (F (1 / 2) (1 / 20)) by lra. cbn [andb Nat.sub Nat.add quart_scan quart_s]. 
    rewrite (F (1 / 4) (1 / 10)), (F (1 / 4) (1 / 20)) by lra. cbn [andb]. eexists _, _. reflexivity. }
  destruct Q as (a & c & Q). exists a, 0, c. split; [lia|]. split; [intros i Hi; rewrite plus_INR; simpl; lra|]. split.
  { intros i Hi. assert (i = 1 \/ i = 2 \/ i = 3)%nat as [-> | [-> | ->]] by lia; cbn; lra. }
  split; [cbn; lra|]. split; [easy|]. split; [exact Q|]. intros [[H _]|(k & K & K2 & K3)]; [cbn in H; lra|].
  assert (k = 1 \/ k = 2 \/ k = 3)%nat as [-> | [-> | ->]] by lia; cbn [Nat.add quart_s] in *; [|lra|lra].
  unfold on_line in K3. simpl in K3. lra.
Qed.

(** KM.py *)
Lemma km_of_d : exists k z, new_km 5 km_far (Some [1; 2]) (Some []) None None None = Ok k /\ lists_all [1; 2] z 2 /\
  km_nu k = 2%Z /\ km_uncens k = map z (seq 1 2) /\ total (km_wts k) = 1 / 2 /\ length (km_wts k) = 2%nat /\ km_sums k = cumsum 0 (km_wts k) /\
  nth 0 (km_wts k) 0 = 1 / 2 /\ km_ntot k = 2%nat.
Proof.
  destruct (new_km_ok [1; 2] [] 5 km_far 3) as [_ R].
  - easy.
  - cbn [length]. lia.
  - unfold km_far. cbn [app In]. intros t [<-|[<-|[]]]; lra.
  - lia.
  - rewrite d_events. discriminate.
  - rewrite d_points in R. cbn [filter length Nat.sub] in R. destruct (R ltac:(lia)) as (k & z & A1 & A2 & A3 & A4 & A5 & _ & _ & _ & A6 & _ & _ & _ & A7 & A8 & A9).
    destruct (lists_two 1 2 z ltac:(lra) A2) as [Z1 Z2]. exists k, z. split; [exact A1|]. split; [exact A2|]. split; [exact A3|]. split; [exact A4|].
    split; [rewrite A7, Z1; apply d_surv1|].
    assert (W : nth 0 (km_wts k) 0 = 1 / 2).
    { specialize (A8 1%nat ltac:(lia)). cbn [Nat.sub Nat.add] in A8. rewrite A8, Z2.
      assert (X := d_prob). rewrite d_points in X. unfold total in X. cbn [map fold_right] in X.
      assert (Y : prob [1; 2] [] 1 = 1 / 2).
      { unfold prob, survival_before, dead, at_risk. rewrite d_points, d_events. unfold data. cbn [app filter]. km_dec. unfold product. cbn [map fold_right]. simpl. lra. }
      lra. }
    split; [|split; [exact A9 | split; [exact W | exact A6]]].
    unfold new_km in A1. destruct (km_args _ _ _ _ _) as [[i x]|]; [|easy]. destruct (kmestm _ _ _ _ _ _ _ _) as [[o|]|]; try easy.
    destruct (km_weights _) as [wts|] eqn:W2; [|easy]. apply weights_total in W2. injection A1 as <-. cbn [km_wts km_cdf] in *. rewrite (proj2 W2), A5. easy.
Qed.
Lemma wts_l : exists fuel far dd l k, new_km fuel far (Some dd) (Some l) None None None = Ok k /\
  total (map (prob dd l) (points dd l)) = 1 /\ total (km_wts k) <> 1.
Proof. destruct km_of_d as (k & z & A & _ & _ & _ & B & _). exists 5%nat, km_far, [1; 2], [], k. split; [exact A|]. split; [apply d_prob|]. rewrite B. lra. Qed.
Lemma diff_l : exists fuel far dd k start w m bs bl diff, new_km fuel far (Some dd) (Some []) None None None = Ok k /\
  km_diff k 1 start w m = Ok (bs, bl, diff) /\ (forall t, In t dd -> bs 1%nat <= t < bl 1%nat) /\ diff 1%nat <> INR (length dd).
Proof.
  destruct km_of_d as (k & z & A & LS & NU & UN & B & LW & SU & W0 & NT). destruct (lists_two 1 2 z ltac:(lra) LS) as [Z1 Z2].
  assert (WW : km_wts k = [1 / 2; 0]).
  { destruct (km_wts k) as [|w0 [|w1 [|w2 ws]]]; try easy. cbn [nth] in W0. unfold total in B. cbn [fold_right] in B. f_equal; [exact W0|]. f_equal. lra. }
  assert (SS : km_sums k = [0 + 1 / 2; 0 + 1 / 2 + 0]) by (rewrite SU, WW; easy).
  exists 5%nat, km_far, [1; 2], k, (1 / 2), 2, (fun _ => 0).
  assert (D := kmdif_ok 2 (of_list 0 (km_sums k)) (of_list 0 (km_uncens k)) 2 (1 / 2) 2 1 (fun _ => 0) ltac:(lia) ltac:(lia)).
  destruct D as (bs & bl & diff & D1 & D2 & D3 & _).
  { rewrite UN. cbn [seq map]. rewrite Z1, Z2. intros i j Hi Hj. assert (i = 1 \/ i = 2)%nat as [-> | ->] by lia; assert (j = 1 \/ j = 2)%nat as [-> | ->] by lia; try lia; cbn; lra. }
  { lra. }
  exists bs, bl, diff. split; [exact A|]. split.
  { unfold km_diff. rewrite NT. replace (length (km_sums k)) with 2%nat by (rewrite SS; easy). replace (INR 2) with 2 by (simpl; lra). exact D1. }
  destruct (D2 1%nat) as [B1 B2]. simpl in B1, B2. split; [cbn [In]; intros t [<-|[<-|[]]]; lra|].
  rewrite (D3 1%nat ltac:(lia)). unfold insum, inbin. rewrite B1, B2, UN, SS. cbn [seq map filter of_list Nat.sub nth]. unfold of_list. cbn [Nat.sub nth]. rewrite Z1, Z2. km_dec. cbn [andb map].
  unfold dif_f. cbn [Nat.eqb Nat.sub nth]. unfold total. cbn [fold_right length]. replace (0 + 1 / 2 + 0 - (0 + 1 / 2)) with 0 by lra. rewrite Rabs_R0. simpl. lra.
Qed.
Lemma ulims_l : exists fuel far dd l k, new_km fuel far (Some dd) (Some l) None None None = Ok k /\
  lists_all (map Ropp (points (map Ropp dd) (map Ropp l))) (of_list 0 (km_uncens k)) (length (km_uncens k)) /\
  nth 0 (km_cdf k) 0 <> below (map Ropp dd) (map Ropp l) (- nth 0 (km_uncens k) 0).
Proof.
  destruct (new_km_ok [1; 3] [2] 6 km_far 4) as [_ R].
  - easy.
  - cbn [length]. lia.
  - unfold km_far. cbn [app In]. intros t [<-|[<-|[<-|[]]]]; lra.
  - lia.
  - rewrite a_events. discriminate.
  - rewrite a_points, a_top in R. cbn [length Nat.sub] in R. destruct (R ltac:(lia)) as (k & z & A1 & A2 & A3 & A4 & A5 & _).
    destruct (lists_two 1 3 z ltac:(lra) A2) as [Z1 Z2].
    exists 6%nat, km_far, [1; 3], [2], k. split; [exact A1|]. rewrite A4, A5. cbn [map seq nth length]. rewrite Z1, Z2. split.
    + replace [- (1); - (3)] with [-1; -3] by easy. replace [- (2)] with [-2] by easy. rewrite u_points. cbn [map]. split.
      * intros i Hi. assert (i = 1)%nat as -> by lia. cbn. lra.
      * intros t. cbn [In]. split.
        -- intros [<-|[<-|[]]]; [exists 1%nat | exists 2%nat]; (split; [lia | cbn; lra]).
        -- intros [i [Hi <-]]. assert (i = 1 \/ i = 2)%nat as [-> | ->] by lia; cbn; [left | right; left]; lra.
    + rewrite a_surv1. replace [- (1); - (3)] with [-1; -3] by easy. replace [- (2)] with [-2] by easy. replace (- (1)) with (-1) by easy. rewrite u_below1. lra.
Qed.
Lemma llims_l : exists dd l, dd <> [] /\ forall fuel far, new_km fuel far (Some dd) None (Some l) None None = Err NameError.
Proof. exists [1; 3], [2]. split; [easy|]. intros fuel far. easy. Qed.
Lemma index_l : exists fuel far dd l, dd <> [] /\ new_km fuel far (Some dd) (Some l) None None None = Err IndexError.
Proof.
  exists 6%nat, km_far, [1], [2; 2]. split; [easy|].
  apply (new_km_ok [1] [2; 2] 6 km_far 4).
  - easy.
  - cbn [length]. lia.
  - unfold km_far. cbn [app In]. intros t [<-|[<-|[<-|[]]]]; lra.
  - lia.
  - unfold events. rewrite b_top. discriminate.
  - rewrite b_points, b_top. easy.
Qed.

(** The only detection is 0, and so is the rest of the array *)
Ltac km_cmp := repeat (cbn -[IZR]; match goal with
  | |- context [Rltb ?a ?b] => first [ replace (Rltb a b) with true by (unfold Rltb; destruct (Rlt_dec a b); [easy | lra])
                                      | replace (Rltb a b) with false by (unfold Rltb; destruct (Rlt_dec a b); [lra | easy]) ]
  | |- context [Rleb ?a ?b] => first [ replace (Rleb a b) with true by (unfold Rleb; destruct (Rle_dec a b); [easy | lra])
                                      | replace (Rleb a b) with false by (unfold Rleb; destruct (Rle_dec a b); [lra | easy]) ]
  | |- context [Reqb ?a ?b] => first [ replace (Reqb a b) with true by (unfold Reqb; destruct (Req_EM_T a b); [easy | lra])
                                      | replace (Reqb a b) with false by (unfold Reqb; destruct (Req_EM_T a b); [lra | easy]) ]
  end).
Lemma zero_l : exists dd l fuel far, (forall c, In c l -> exists t, In t dd /\ c < t) /\
  (exists k, kmestm fuel (length (dd ++ l)) (of_list 0%Z (repeat 0%Z (length dd) ++ repeat 1%Z (length l))) (of_list 0 (dd ++ l))
    (fun i => if (i <=? length (dd ++ l))%nat then 0 else far i) (fun _ => 0) (fun _ => 0) (fun _ => 0) = Ok (Some k) /\ k_nu k = 0%Z) /\
  dd <> [] /\ new_km fuel far (Some dd) (Some l) None None None = Err IndexError.
Proof.
  exists [0], [-1], 6%nat, km_far. split; [cbn [In]; intros c [<-|[]]; exists 0; split; [now left | lra]|].
  assert (Z : exists k, kmestm 6 2 (of_list 0%Z [0; 1]%Z) (of_list 0 [0; -1]) (fun i => if (i <=? 2)%nat then 0 else 10) (fun _ => 0) (fun _ => 0) (fun _ => 0) = Ok (Some k) /\ k_nu k = 0%Z).
  { unfold kmestm, xvar_sign, of_list. km_cmp. eexists. split; reflexivity. }
  split; [exact Z|]. split; [easy|]. destruct Z as (k & Z1 & Z2). unfold new_km. cbn [km_args length repeat app]. unfold km_far. rewrite Z1, Z2. easy.
Qed.
