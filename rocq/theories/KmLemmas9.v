(** Lemmas on the estimate itself and on KM.py *)

From Coq Require Import List Bool Arith ZArith Reals Lra Lia Permutation.
From Verif Require Import Exn Instances McModel BaModel KmModel KmSpec KmLemmas KmLemmas2 KmLemmas3 KmLemmas4 KmLemmas5 KmLemmas6 KmLemmas7 KmLemmas8.
Import ListNotations.
Open Scope R_scope.

Lemma total_perm l l' : Permutation l l' -> total l = total l'.
Proof. unfold total. induction 1; cbn [fold_right]; lra. Qed.
Lemma product_nonneg l : (forall x, In x l -> 0 <= x) -> 0 <= product l.
Proof.
  unfold product. induction l as [|x l IH]; intros H; cbn [fold_right]; [lra|]. apply Rmult_le_pos; [apply H; now left|]. apply IH. intros y Hy. apply H. now right.
Qed.
Lemma lists_incr l z n : lists_all l z n -> forall i j, (1 <= i < j)%nat -> (j <= n)%nat -> z i < z j.
Proof.
  intros [A _] i j Hi Hj. induction j as [|j IH]; [lia|]. assert (X := A j). replace (j + 1)%nat with (S j) in X by lia.
  destruct (Nat.eq_dec i j) as [->|N]; [apply X; lia|]. specialize (IH ltac:(lia) ltac:(lia)). specialize (X ltac:(lia)). lra.
Qed.
Lemma lists_perm l z n : NoDup l -> lists_all l z n -> Permutation l (map z (seq 1 n)).
Proof.
  intros ND L. assert (M := lists_incr l z n L). destruct L as [A B].
  assert (ND2 : NoDup (map z (seq 1 n))).
  { apply NoDup_nth with 0. rewrite map_length, seq_length. intros i j Hi Hj E.
    rewrite !(nth_indep _ 0 (z 0%nat)) in E by (now rewrite map_length, seq_length). rewrite !map_nth, !seq_nth in E by easy.
    destruct (Nat.lt_trichotomy i j) as [L|[L|L]]; [|easy|].
    - assert (X := M (1 + i)%nat (1 + j)%nat ltac:(lia) ltac:(lia)). lra.
    - assert (X := M (1 + j)%nat (1 + i)%nat ltac:(lia) ltac:(lia)). lra. }
  apply NoDup_Permutation; [easy | easy|]. intros t. rewrite B, in_map_iff. split; intros [i [H1 H2]].
  - exists i. split; [easy | apply in_seq; lia].
  - exists i. apply in_seq in H2. split; [lia | easy].
Qed.

Section Drops.
Variables found limits : list R.
Let pts := points found limits.
Let risk := at_risk found limits.
Let d := dead found limits.
Lemma point_event t : In t pts <-> In t (events found limits).
Proof. unfold pts, points. apply nodup_In. Qed.
Lemma event_data t : In t (events found limits) -> In t (data found limits).
Proof. unfold events, data. rewrite !in_app_iff. intros [H|H]; [now left|]. apply filter_In in H. now right. Qed.
Lemma dead_risk t : d t <= risk t.
Proof.
  unfold d, risk, dead, at_risk. apply le_INR. unfold events, data. rewrite !filter_app, !app_length.
  assert (X : forall l, (length (filter (fun y => Req_b y t) l) <= length (filter (fun y => Rle_b t y) l))%nat).
  { induction l as [|y l IH]; [easy|]. cbn [filter]. destruct (Req_b y t) eqn:E.
    - apply Req_b_true in E. replace (Rle_b t y) with true by (symmetry; apply Rle_b_true; lra). cbn [length]. lia.
    - destruct (Rle_b t y); cbn [length]; lia. }
  assert (Y : forall l, (length (filter (fun y => Req_b y t) (filter (topmost found limits) l)) <= length (filter (fun y => Req_b y t) l))%nat).
  { induction l as [|y l IH]; [easy|]. cbn [filter]. destruct (topmost found limits y); cbn [filter]; destruct (Req_b y t); cbn [length]; lia. }
  assert (X1 := X found). assert (X2 := X limits). assert (X3 := Y limits). lia.
Qed.
Lemma risk_one t : In t pts -> 1 <= risk t.
Proof.
  intros H. apply point_event, event_data in H. unfold risk, at_risk. change 1 with (INR 1). apply le_INR.
  assert (X : In t (filter (fun y => Rle_b t y) (data found limits))) by (apply filter_In; split; [easy | apply Rle_b_true; lra]).
  destruct (filter _ (data found limits)); [easy | cbn [length]; lia].
Qed.
Lemma dead_one t : In t pts -> 1 <= d t.
Proof.
  intros H. apply point_event in H. unfold d, dead. change 1 with (INR 1). apply le_INR.
  assert (X : In t (filter (fun y => Req_b y t) (events found limits))) by (apply filter_In; split; [easy | now apply Req_b_true]).
  destruct (filter _ (events found limits)); [easy | cbn [length]; lia].
Qed.
Lemma frac t : In t pts -> 0 < d t / risk t <= 1.
Proof.
  intros H. assert (A := risk_one t H). assert (B := dead_one t H). assert (C := dead_risk t). split.
  - apply Rdiv_lt_0_compat; lra.
  - apply (Rmult_le_reg_r (risk t)); [lra|]. unfold Rdiv. rewrite Rmult_assoc, Rinv_l by lra. lra.
Qed.
Lemma before_nonneg t : 0 <= survival_before found limits t.
Proof.
  unfold survival_before. apply product_nonneg. intros x Hx. apply in_map_iff in Hx. destruct Hx as [u [<- Hu]]. apply filter_In in Hu.
  assert (X := frac u (proj1 Hu)). fold d risk. lra.
Qed.
Lemma split_at t : In t pts -> survival found limits t = survival_before found limits t * (1 - d t / risk t).
Proof.
  intros H. unfold survival, survival_before. fold pts. destruct (upto_below pts t) as (b & L & E). rewrite E.
  apply (below_prod (fun u => 1 - d u / risk u)); [apply NoDup_nodup | easy | easy|].
  intros x Hx. assert (P : In x (filter (fun y => Rlt_b y b) pts) <-> In x (filter (fun y => Rle_b y t) pts)) by (now rewrite E).
  rewrite !filter_In, Rlt_b_true, Rle_b_true in P. split.
  - intros Lx. assert (x <= t) by (apply P; now split). lra.
  - intros Lx. apply P. split; [easy | lra].
Qed.

Variable z : mem.
Variable n : nat.
Hypothesis HL : lists_all pts z n.
Lemma z_in i : (1 <= i <= n)%nat -> In (z i) pts.
Proof. intros Hi. apply HL. now exists i. Qed.
Lemma before_first : (1 <= n)%nat -> survival_before found limits (z 1%nat) = 1.
Proof.
  intros Hn. unfold survival_before. fold pts. rewrite below_none; [easy|]. intros x Hx. apply HL in Hx. destruct Hx as [i [Hi <-]].
  destruct (Nat.eq_dec i 1) as [->|N]; [lra|]. assert (X := lists_incr pts z n HL 1%nat i ltac:(lia) ltac:(lia)). lra.
Qed.
Lemma before_step i : (1 <= i < n)%nat -> survival_before found limits (z (i + 1)%nat) = survival found limits (z i).
Proof.
  intros Hi. unfold survival_before, survival. fold pts. f_equal. f_equal. apply filter_ext_in. intros x Hx. apply HL in Hx. destruct Hx as [k [Hk <-]].
  assert (M := lists_incr pts z n HL).
  destruct (Rlt_b (z k) (z (i + 1)%nat)) eqn:E1, (Rle_b (z k) (z i)) eqn:E2; try easy.
  - apply Rlt_b_true in E1. enough (Rle_b (z k) (z i) = true) by congruence. apply Rle_b_true.
    destruct (Nat.lt_trichotomy k i) as [K|[->|K]]; [specialize (M k i ltac:(lia) ltac:(lia)); lra | lra|].
    destruct (Nat.eq_dec k (i + 1)) as [->|N]; [lra|]. specialize (M (i + 1)%nat k ltac:(lia) ltac:(lia)). lra.
  - apply Rle_b_true in E2. enough (Rlt_b (z k) (z (i + 1)%nat) = true) by congruence. apply Rlt_b_true.
    assert (X := M i (i + 1)%nat ltac:(lia) ltac:(lia)). lra.
Qed.
Lemma drop_prob s i : (forall k, (1 <= k <= n)%nat -> s k = survival found limits (z k)) -> (1 <= i <= n)%nat -> dif_f s i = prob found limits (z i).
Proof.
  intros Hs Hi. unfold dif_f. assert (F := frac (z i) (z_in i Hi)). assert (B := before_nonneg (z i)). unfold prob. fold d risk.
  destruct (Nat.eqb_spec i 1) as [->|N].
  - rewrite Hs by lia. rewrite split_at by (apply z_in; lia). rewrite before_first by lia. lra.
  - rewrite !Hs by lia. rewrite (split_at (z i)) by (apply z_in; lia).
    assert (X := before_step (i - 1) ltac:(lia)). replace (i - 1 + 1)%nat with i in X by lia. rewrite <- X.
    rewrite Rabs_left1.
    + ring.
    + assert (0 <= survival_before found limits (z i) * (d (z i) / risk (z i))) by (apply Rmult_le_pos; lra). lra.
Qed.
Lemma insum_prob s a b : (forall k, (1 <= k <= n)%nat -> s k = survival found limits (z k)) ->
  total (map (dif_f s) (within z a b n)) = total (map (prob found limits) (filter (fun u => Rle_b a u && Rlt_b u b) pts)).
Proof.
  intros Hs. assert (P := lists_perm pts z n (NoDup_nodup _ _) HL).
  rewrite (total_perm _ _ (Permutation_map (prob found limits) (filter_perm _ (fun u => Rle_b a u && Rlt_b u b) _ _ P))).
  rewrite filter_map, map_map. unfold within. f_equal. apply map_ext_in. intros i Hi. apply filter_In in Hi. destruct Hi as [Hi _].
  apply in_seq in Hi. apply drop_prob; [easy | lia].
Qed.
Lemma surv_strict i : (1 <= i < n)%nat -> 0 < survival found limits (z i) -> survival found limits (z (i + 1)%nat) < survival found limits (z i).
Proof.
  intros Hi Hp. rewrite (split_at (z (i + 1)%nat)) by (apply z_in; lia). rewrite before_step by easy.
  assert (F := frac (z (i + 1)%nat) (z_in (i + 1)%nat ltac:(lia))).
  assert (X : 0 < survival found limits (z i) * (d (z (i + 1)%nat) / risk (z (i + 1)%nat))) by (apply Rmult_lt_0_compat; lra). lra.
Qed.
End Drops.

(** The arguments of KM.py *)
Lemma kept_marks (dd l : list R) : kept true (repeat 0%Z (length dd) ++ repeat 1%Z (length l)) (dd ++ l) = dd /\
  kept false (repeat 0%Z (length dd) ++ repeat 1%Z (length l)) (dd ++ l) = l.
Proof.
  unfold kept. induction dd as [|a dd [IH1 IH2]].
  - cbn [length repeat app]. induction l as [|b l [IH1 IH2]]; [now split|]. cbn [length repeat combine filter fst Z.eqb Bool.eqb map snd]. now rewrite IH1, IH2.
  - cbn [length repeat app combine filter fst Z.eqb Bool.eqb map snd]. rewrite IH1, IH2. now split.
Qed.

Lemma nth_seq (f : nat -> R) a n j e : (j < n)%nat -> nth j (map f (seq a n)) e = f (a + j)%nat.
Proof.
  intros H. rewrite (nth_indep _ e (f 0%nat)) by (now rewrite map_length, seq_length). rewrite map_nth, seq_nth by easy. easy.
Qed.
Lemma upto_map n m (f : mem) : (n <= m)%nat -> upto (Z.of_nat n) (to_list m f) = map f (seq 1 n).
Proof.
  intros H. unfold upto, to_list. replace (Z.of_nat n <? 0)%Z with false by (symmetry; apply Z.ltb_ge; lia). rewrite Nat2Z.id.
  replace m with (n + (m - n))%nat by lia. rewrite seq_app, map_app, firstn_app. rewrite map_length, seq_length, Nat.sub_diag. cbn [firstn].
  rewrite app_nil_r, firstn_all2; [easy|]. now rewrite map_length, seq_length.
Qed.
Lemma points_le found limits : (length (points found limits) <= length found + length limits)%nat.
Proof.
  transitivity (length (events found limits)).
  - apply NoDup_incl_length; [apply NoDup_nodup|]. intros t Ht. now apply point_event.
  - unfold events. rewrite app_length. assert (X := filter_length_le _ (topmost found limits) limits). lia.
Qed.
Lemma points_some found limits : found <> [] -> (1 <= length (points found limits))%nat.
Proof.
  intros H. destruct found as [|t f]; [easy|]. assert (X : In t (points (t :: f) limits)) by (apply point_event; now left).
  destruct (points (t :: f) limits); [easy | cbn [length]; lia].
Qed.

Lemma new_km_ok dd l fuel far w : dd <> [] -> (length dd + length l < w)%nat -> (forall t, In t (dd ++ l) -> t < far w) -> (w + 2 <= fuel)%nat ->
  (forall t, events dd l = [t] -> if (length dd + length l =? 1)%nat then far 2%nat <> t else t <> 0) ->
  let p := length (points dd l) in
  let ch := length (filter (topmost dd l) l) in
  (p = ch -> new_km fuel far (Some dd) (Some l) None None None = Err IndexError) /\
  ((ch < p)%nat -> exists k z, new_km fuel far (Some dd) (Some l) None None None = Ok k /\ lists_all (points dd l) z p /\
    km_nu k = Z.of_nat (p - ch) /\ km_uncens k = map z (seq 1 (p - ch)) /\
    km_cdf k = map (fun i => survival dd l (z i)) (seq 1 (p - ch)) /\ km_err k = map (fun i => greenwood dd l (z i)) (seq 1 (p - ch)) /\
    km_mean k = mean dd l /\ km_std k = sqrt (mean_var dd l) /\ km_ntot k = (length dd + length l)%nat /\
    km_nc k = Z.of_nat (length l) /\ Permutation l (km_cens k) /\
    (forall i j, (i <= j < length l)%nat -> nth i (km_cens k) 0 <= nth j (km_cens k) 0) /\
    total (km_wts k) = survival dd l (z 1%nat) /\
    (forall i, (1 <= i < p - ch)%nat -> nth (i - 1) (km_wts k) 0 = prob dd l (z (i + 1)%nat)) /\ km_sums k = cumsum 0 (km_wts k)).
Proof.
  intros HD Hw Hfar Hfu Hone p ch.
  set (ind := repeat 0%Z (length dd) ++ repeat 1%Z (length l)).
  assert (LI : length ind = length (dd ++ l)) by (unfold ind; rewrite !app_length, !repeat_length; easy).
  assert (SG : sign_is 1 ind).
  { left. split; [easy|]. intros i Hi. unfold ind in Hi. apply in_app_iff in Hi. destruct Hi as [Hi|Hi]; apply repeat_spec in Hi; lia. }
  assert (Y : map (Rmult 1) (dd ++ l) = dd ++ l) by (rewrite <- (map_id (dd ++ l)) at 2; apply map_ext; intros; lra).
  destruct (kept_marks dd l) as [K1 K2]. fold ind in K1, K2.
  assert (LN : length (dd ++ l) = (length dd + length l)%nat) by apply app_length.
  set (n := (length dd + length l)%nat) in *.
  set (m_u := fun i : nat => if (i <=? n)%nat then 0 else far i).
  assert (R := kmestm_ok 1 ind (dd ++ l) fuel m_u (fun _ => 0) (fun _ => 0) (fun _ => 0) w LI SG). cbv zeta in R. rewrite Y, K1, K2, LN in R.
  destruct R as (k & E & NU & NC & LS & SV & ME & ER & c & C1 & C2 & C3); try easy.
  { intros t Ht. unfold m_u. replace (w <=? n)%nat with false by (symmetry; apply Nat.leb_gt; lia). now apply Hfar. }
  { intros t Ht. specialize (Hone t Ht). unfold m_u. destruct (Nat.eqb_spec n 1) as [N1|N1].
    - rewrite N1. cbn [Nat.leb]. split; [easy | lra].
    - replace (2 <=? n)%nat with true; [split; lra|]. symmetry. apply Nat.leb_le. destruct dd; [easy|]. unfold n in *. cbn [length Nat.add] in *. lia. }
  fold p ch in NU. assert (PN : (p <= n)%nat) by apply points_le. assert (P1 : (1 <= p)%nat) by now apply points_some.
  replace (map (Rmult 1) (points dd l)) with (points dd l) in LS by (rewrite <- (map_id (points dd l)) at 1; apply map_ext; intros; lra). fold p in LS.
  unfold kindly in SV. cbn [Z.eqb Pos.eqb] in SV, C3. fold p in SV.
  unfold new_km. cbn [km_args]. fold ind. rewrite LN. fold m_u. rewrite E, NU. split.
  - intros EQ. replace (Z.of_nat p - Z.of_nat ch)%Z with (Z.of_nat 0) by lia. rewrite upto_map by lia. easy.
  - intros LT. replace (Z.of_nat p - Z.of_nat ch)%Z with (Z.of_nat (p - ch)) by lia. rewrite NC. rewrite !upto_map by lia.
    assert (CD : map (k_s k) (seq 1 (p - ch)) = map (fun i => survival dd l (k_zu k i)) (seq 1 (p - ch))).
    { apply map_ext_in. intros i Hi. apply in_seq in Hi. apply (SV i). lia. }
    assert (CE : map (k_v k) (seq 1 (p - ch)) = map (fun i => greenwood dd l (k_zu k i)) (seq 1 (p - ch))).
    { apply map_ext_in. intros i Hi. apply in_seq in Hi. apply (SV i). lia. }
    rewrite CD, CE. destruct (km_weights _) as [wts|er] eqn:W.
    2:{ unfold km_weights in W. destruct (rev _) eqn:RV; [|easy]. apply (f_equal (@length R)) in RV. rewrite rev_length, map_length, seq_length in RV. cbn [length] in RV. lia. }
    eexists _, (k_zu k). split; [reflexivity|]. cbn [km_nu km_uncens km_cdf km_err km_mean km_std km_ntot km_nc km_cens km_wts km_sums].
    rewrite ME, ER, C3. split; [exact LS|]. do 4 (split; [easy|]). split; [lra|]. do 3 (split; [easy|]). split; [exact C2|]. split.
    { intros i j Hij. rewrite !(nth_indep _ 0 (c 0%nat)) by (rewrite map_length, seq_length; lia). rewrite !map_nth, !seq_nth by lia. apply C1; lia. }
    destruct (weights_total _ _ W) as [T1 T2]. split; [|split; [|easy]].
    + rewrite T1. replace (p - ch)%nat with (S (p - ch - 1)) by lia. cbn [seq map nth]. easy.
    + intros i Hi. unfold km_weights in W. destruct (rev _) as [|la r]; [easy|]. injection W as <-.
      rewrite map_length, seq_length. rewrite app_nth1 by (rewrite map_length, seq_length; lia).
      rewrite nth_seq by lia. rewrite !nth_seq by lia. replace (1 + (0 + (i - 1)))%nat with i by lia. replace (1 + (0 + (i - 1) + 1))%nat with (i + 1)%nat by lia.
      rewrite (split_at dd l (k_zu k (i + 1)%nat)) by (apply (z_in dd l _ p LS); lia). rewrite (before_step dd l _ p LS i) by lia. unfold prob.
      rewrite (before_step dd l _ p LS i) by lia. ring.
Qed.
