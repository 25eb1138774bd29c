(** The product over sorted events is the product-limit estimate *)

From Coq Require Import List Bool Arith ZArith Reals Lra Lia Permutation.
From Verif Require Import Exn Instances McModel BaModel KmModel KmSpec KmLemmas.
Import ListNotations.
Open Scope R_scope.

Lemma Rle_b_true a b : Rle_b a b = true <-> a <= b.
Proof. unfold Rle_b. destruct (Rle_dec a b); split; easy. Qed.
Lemma Rlt_b_true a b : Rlt_b a b = true <-> a < b.
Proof. unfold Rlt_b. destruct (Rlt_dec a b); split; easy. Qed.
Lemma Req_b_true a b : Req_b a b = true <-> a = b.
Proof. unfold Req_b. destruct (Req_EM_T a b); split; easy. Qed.
Lemma Rle_b_iff a b : Rle_b a b = negb (Rlt_b b a).
Proof. unfold Rle_b, Rlt_b. destruct (Rle_dec a b), (Rlt_dec b a); try easy; lra. Qed.

Lemma filter_perm A (f : A -> bool) l l' : Permutation l l' -> Permutation (filter f l) (filter f l').
Proof.
  induction 1; cbn; auto.
  - destruct (f x); auto.
  - destruct (f x), (f y); auto. apply perm_swap.
  - etransitivity; eassumption.
Qed.
Lemma count_perm A (f : A -> bool) l l' : Permutation l l' -> length (filter f l) = length (filter f l').
Proof. intros H. apply Permutation_length. now apply filter_perm. Qed.
Lemma count_neg A (f : A -> bool) l : (length (filter f l) + length (filter (fun x => negb (f x)) l) = length l)%nat.
Proof. induction l as [|a l IH]; [easy|]. cbn. destruct (f a); cbn; lia. Qed.
Lemma count_ext A (f g : A -> bool) l : (forall x, In x l -> f x = g x) -> length (filter f l) = length (filter g l).
Proof. intros H. f_equal. now apply filter_ext_in. Qed.

(** Number of the first n elements with a property *)
Definition cnt (p : R -> bool) (m : mem) (n : nat) : nat := length (filter p (map m (seq 1 n))).
Lemma cnt_S p m n : cnt p m (S n) = (cnt p m n + if p (m (S n)) then 1 else 0)%nat.
Proof. unfold cnt. rewrite seq_S, map_app, filter_app, app_length. cbn. now destruct (p (m (S n))). Qed.
Lemma cnt_split p m n i : (i <= n)%nat -> (forall k, (1 <= k <= i)%nat -> p (m k) = true) ->
  (forall k, (i < k <= n)%nat -> p (m k) = false) -> cnt p m n = i.
Proof.
  intros Hi. revert n Hi.
  assert (Z : forall i, (forall k, (1 <= k <= i)%nat -> p (m k) = true) -> cnt p m i = i).
  { induction i0 as [|j IH]; intros H; [easy|]. rewrite cnt_S, IH by (intros; apply H; lia). rewrite H by lia. lia. }
  induction n as [|n IH]; intros Hn H1 H2.
  - replace i with 0%nat by lia. easy.
  - destruct (Nat.eq_dec i (S n)) as [->|N]; [now apply Z|].
    rewrite cnt_S, IH; [|lia|easy|intros; apply H2; lia]. rewrite H2 by lia. lia.
Qed.
Lemma cnt_le p m n : (cnt p m n <= n)%nat.
Proof. unfold cnt. etransitivity; [apply filter_length_le|]. rewrite map_length, seq_length. lia. Qed.

(** Sums and products over the points below another one *)
Lemma below_in (l : list R) (a b : R) : (forall x, In x l -> (x < b <-> x < a \/ x = a)) ->
  ~ In a l -> filter (fun x => Rlt_b x b) l = filter (fun x => Rlt_b x a) l.
Proof.
  intros H N. apply filter_ext_in. intros x Hx. specialize (H x Hx).
  destruct (Rlt_b x b) eqn:E1, (Rlt_b x a) eqn:E2; try easy.
  - apply Rlt_b_true in E1. apply H in E1. destruct E1 as [E1| ->]; [apply Rlt_b_true in E1; congruence | easy].
  - apply Rlt_b_true in E2. assert (x < b) by tauto. apply Rlt_b_true in H0. congruence.
Qed.
Lemma below_sum (g : R -> R) (l : list R) (a b : R) : NoDup l -> In a l -> a < b ->
  (forall x, In x l -> (x < b <-> x < a \/ x = a)) ->
  total (map g (filter (fun x => Rlt_b x b) l)) = total (map g (filter (fun x => Rlt_b x a) l)) + g a.
Proof.
  induction l as [|x l IH]; intros ND I L H; [easy|]. inversion ND as [|? ? N1 N2]; subst.
  destruct (Req_EM_T x a) as [->|NE].
  - cbn [filter]. replace (Rlt_b a b) with true by (symmetry; now apply Rlt_b_true).
    replace (Rlt_b a a) with false by (unfold Rlt_b; destruct (Rlt_dec a a); [lra | easy]).
    rewrite (below_in l a b); [unfold total; cbn [map fold_right]; lra | | easy]. intros y Hy. apply H. now right.
  - destruct I as [I|I]; [easy|].
    assert (E : Rlt_b x b = Rlt_b x a).
    { destruct (H x (or_introl eq_refl)) as [F G]. unfold Rlt_b. destruct (Rlt_dec x b), (Rlt_dec x a); try easy; [destruct (F r); easy | exfalso; tauto]. }
    specialize (IH N2 I L ltac:(intros y Hy; apply H; now right)).
    cbn [filter]. rewrite E. destruct (Rlt_b x a); cbn [map total fold_right] in *; unfold total in *; rewrite IH; lra.
Qed.
Lemma below_prod (g : R -> R) (l : list R) (a b : R) : NoDup l -> In a l -> a < b ->
  (forall x, In x l -> (x < b <-> x < a \/ x = a)) ->
  product (map g (filter (fun x => Rlt_b x b) l)) = product (map g (filter (fun x => Rlt_b x a) l)) * g a.
Proof.
  induction l as [|x l IH]; intros ND I L H; [easy|]. inversion ND as [|? ? N1 N2]; subst.
  destruct (Req_EM_T x a) as [->|NE].
  - cbn [filter]. replace (Rlt_b a b) with true by (symmetry; now apply Rlt_b_true).
    replace (Rlt_b a a) with false by (unfold Rlt_b; destruct (Rlt_dec a a); [lra | easy]).
    rewrite (below_in l a b); [unfold product; cbn [map fold_right]; lra | | easy]. intros y Hy. apply H. now right.
  - destruct I as [I|I]; [easy|].
    assert (E : Rlt_b x b = Rlt_b x a).
    { destruct (H x (or_introl eq_refl)) as [F G]. unfold Rlt_b. destruct (Rlt_dec x b), (Rlt_dec x a); try easy; [destruct (F r); easy | exfalso; tauto]. }
    specialize (IH N2 I L ltac:(intros y Hy; apply H; now right)).
    cbn [filter]. rewrite E. destruct (Rlt_b x a); cbn [map product fold_right] in *; unfold product in *; rewrite IH; lra.
Qed.
Lemma upto_below (l : list R) (a : R) : exists b, a < b /\ filter (fun x => Rle_b x a) l = filter (fun x => Rlt_b x b) l.
Proof.
  assert (X : exists b, a < b /\ forall x, In x l -> x <= a \/ b <= x).
  { induction l as [|y l (b & L & H)]; [exists (a + 1); split; [lra | easy]|].
    destruct (Rle_dec y a) as [Y|Y].
    - exists b. split; [easy|]. intros x [<-|Hx]; [now left | auto].
    - exists (Rmin y b). split; [apply Rmin_glb_lt; lra|]. intros x [<-|Hx]; [right; apply Rmin_l|].
      destruct (H x Hx); [now left|]. right. assert (Z := Rmin_r y b). lra. }
  destruct X as (b & L & H). exists b. split; [easy|]. apply filter_ext_in. intros x Hx.
  unfold Rle_b, Rlt_b. destruct (Rle_dec x a), (Rlt_dec x b); try easy; [lra|]. destruct (H x Hx); lra.
Qed.
Lemma below_none (l : list R) (a : R) : (forall x, In x l -> a <= x) -> filter (fun x => Rlt_b x a) l = [].
Proof.
  intros H. induction l as [|x l IH]; [easy|]. cbn. unfold Rlt_b at 1. destruct (Rlt_dec x a) as [L|L].
  - assert (X := H x (or_introl eq_refl)). lra.
  - apply IH. intros y Hy. apply H. now right.
Qed.

Section Core.
Variables found limits : list R.
Variables u c : mem.
Variables nu nc : nat.
Hypothesis Hnu : (1 <= nu)%nat.
Hypothesis Hev : Permutation (events found limits) (map u (seq 1 nu)).
Hypothesis Hdat : Permutation (data found limits) (map u (seq 1 nu) ++ map c (seq 1 nc)).
Hypothesis Hu : incr u nu.
(** No limit reaches the last event *)
Hypothesis Hlast : forall k, (1 <= k <= nc)%nat -> c k < u nu.

Let pts := points found limits.
Let risk := at_risk found limits.
Let d := dead found limits.
Definition less (t : R) : nat := cnt (fun y => Rlt_b y t) u nu.
Definition lesseq (t : R) : nat := cnt (fun y => Rle_b y t) u nu.
Definition cless (t : R) : nat := cnt (fun y => Rlt_b y t) c nc.

Lemma pts_nodup : NoDup pts.
Proof. apply NoDup_nodup. Qed.
Lemma pts_in t : In t pts <-> exists i, (1 <= i <= nu)%nat /\ u i = t.
Proof.
  unfold pts, points. rewrite nodup_In. split.
  - intros H. apply (Permutation_in _ Hev) in H. apply in_map_iff in H. destruct H as [i [E Hi]]. apply in_seq in Hi. exists i. split; [lia | easy].
  - intros [i [Hi E]]. apply (Permutation_in _ (Permutation_sym Hev)). apply in_map_iff. exists i. split; [easy | apply in_seq; lia].
Qed.

Lemma risk_eq t : risk t + INR (less t) + INR (cless t) = INR (nu + nc).
Proof.
  unfold risk, at_risk. rewrite (count_perm _ _ _ _ Hdat), filter_app, app_length.
  rewrite (count_ext _ _ (fun y => negb (Rlt_b y t)) (map u (seq 1 nu))) by (intros; apply Rle_b_iff).
  rewrite (count_ext _ _ (fun y => negb (Rlt_b y t)) (map c (seq 1 nc))) by (intros; apply Rle_b_iff).
  unfold less, cless, cnt.
  assert (A := count_neg _ (fun y => Rlt_b y t) (map u (seq 1 nu))).
  assert (B := count_neg _ (fun y => Rlt_b y t) (map c (seq 1 nc))).
  rewrite map_length, seq_length in A, B. rewrite <- !plus_INR. f_equal. lia.
Qed.
Lemma dead_eq t : d t + INR (less t) = INR (lesseq t).
Proof.
  unfold d, dead. rewrite (count_perm _ _ _ _ Hev). fold (cnt (fun y => Req_b y t) u nu). rewrite <- plus_INR. f_equal.
  unfold less, lesseq. generalize nu. intros n. induction n as [|n IH]; [easy|]. rewrite !cnt_S.
  unfold Req_b at 2, Rlt_b at 2, Rle_b at 2.
  destruct (Req_EM_T (u (S n)) t), (Rlt_dec (u (S n)) t), (Rle_dec (u (S n)) t); try lia; exfalso; lra.
Qed.

Lemma less_first : less (u 1%nat) = 0%nat.
Proof.
  apply cnt_split; [lia | lia |]. intros k Hk. unfold Rlt_b. destruct (Rlt_dec _ _) as [L|L]; [|easy].
  assert (X := Hu 1%nat k ltac:(lia) ltac:(lia)). lra.
Qed.
Lemma less_step i : (1 <= i < nu)%nat -> u i < u (i + 1)%nat -> less (u (i + 1)%nat) = i.
Proof.
  intros Hi L. apply cnt_split; [lia | |].
  - intros k Hk. apply Rlt_b_true. assert (X := Hu k i ltac:(lia) ltac:(lia)). lra.
  - intros k Hk. unfold Rlt_b. destruct (Rlt_dec _ _) as [L2|L2]; [|easy]. assert (X := Hu (i + 1)%nat k ltac:(lia) ltac:(lia)). lra.
Qed.
(** The last of equal events *)
Definition final (i : nat) : Prop := i = nu \/ u i < u (i + 1)%nat.
Lemma lesseq_final i : (1 <= i <= nu)%nat -> final i -> lesseq (u i) = i.
Proof.
  intros Hi F. apply cnt_split; [lia | |].
  - intros k Hk. apply Rle_b_true. apply Hu; lia.
  - intros k Hk. destruct F as [->|F]; [lia|]. unfold Rle_b. destruct (Rle_dec _ _) as [L|L]; [|easy].
    assert (X := Hu (i + 1)%nat k ltac:(lia) ltac:(lia)). lra.
Qed.
Lemma less_lt i : (1 <= i <= nu)%nat -> (less (u i) < i)%nat.
Proof.
  intros Hi. induction i as [|i IH]; [lia|]. destruct (Nat.eq_dec i 0) as [->|N]; [rewrite less_first; lia|].
  assert (X := Hu i (S i) ltac:(lia) ltac:(lia)). destruct (Req_EM_T (u i) (u (S i))) as [E|E].
  - rewrite <- E. assert (Y := IH ltac:(lia)). lia.
  - replace (S i) with (i + 1)%nat in * by lia. rewrite less_step by (lia || lra). lia.
Qed.

(** Number at risk for the i-th of the sorted events when the earlier ones of
    the same value are gone *)
Definition left_ (i : nat) : R := INR (nu + nc) - INR (i + cless (u i)) + 1.
Lemma left_eq i : left_ i = risk (u i) - (INR i - 1 - INR (less (u i))).
Proof. unfold left_. assert (X := risk_eq (u i)). rewrite (plus_INR i). lra. Qed.
Lemma left_ge i : (1 <= i <= nu)%nat -> INR (nu - i) + 1 <= left_ i.
Proof.
  intros Hi. unfold left_. assert (X := cnt_le (fun y => Rlt_b y (u i)) c nc). fold (cless (u i)) in X. apply le_INR in X.
  rewrite minus_INR, !plus_INR by lia. lra.
Qed.
Lemma left_last : left_ nu = 1.
Proof.
  unfold left_. unfold cless. rewrite (cnt_split _ c nc nc); [rewrite !plus_INR; lra | lia | | lia].
  intros k Hk. apply Rlt_b_true. now apply Hlast.
Qed.
Lemma left_pos i : (1 <= i <= nu)%nat -> 1 <= left_ i.
Proof. intros Hi. assert (X := left_ge i Hi). assert (Y := pos_INR (nu - i)). lra. Qed.
Lemma left_two i : (1 <= i < nu)%nat -> 2 <= left_ i.
Proof. intros Hi. assert (X := left_ge i ltac:(lia)). assert (Y := le_INR 1 (nu - i)%nat ltac:(lia)). simpl in Y. lra. Qed.
Lemma risk_pos i : (1 <= i <= nu)%nat -> 1 <= risk (u i).
Proof.
  intros Hi. assert (X := left_pos i Hi). rewrite left_eq in X. assert (Y := less_lt i Hi). apply le_INR in Y. rewrite S_INR in Y. lra.
Qed.

(** The factors and their product *)
Fixpoint Q (i : nat) : R := match i with O => 1 | S k => Q k * ((left_ i - 1) / left_ i) end.
Fixpoint G (i : nat) : R := match i with O => 0 | S k => G k + 1 / ((left_ i - 1) * left_ i) end.

Definition seen (i : nat) : R := INR i - INR (less (u i)).

Lemma sep i : (1 <= i < nu)%nat -> u i < u (i + 1)%nat ->
  forall x, In x pts -> (x < u (i + 1)%nat <-> x < u i \/ x = u i).
Proof.
  intros Hi L x Hx. apply pts_in in Hx. destruct Hx as [k [Hk <-]]. split.
  - intros H. destruct (le_lt_dec k i) as [K|K]; [assert (X := Hu k i ltac:(lia) ltac:(lia)); lra|].
    assert (X := Hu (i + 1)%nat k ltac:(lia) ltac:(lia)). lra.
  - intros [H| ->]; lra.
Qed.
Lemma in_pts i : (1 <= i <= nu)%nat -> In (u i) pts.
Proof. intros Hi. apply pts_in. now exists i. Qed.
Lemma first_none : filter (fun x => Rlt_b x (u 1%nat)) pts = [].
Proof. apply below_none. intros x Hx. apply pts_in in Hx. destruct Hx as [k [Hk <-]]. apply Hu; lia. Qed.
Lemma seen_final i : (1 <= i <= nu)%nat -> final i -> seen i = d (u i).
Proof. intros Hi F. unfold seen. assert (X := dead_eq (u i)). rewrite (lesseq_final i Hi F) in X. lra. Qed.

Lemma seen_1 : seen 1%nat = 1.
Proof. unfold seen. rewrite less_first. simpl. lra. Qed.
Lemma seen_same i : u (S i) = u i -> seen (S i) = seen i + 1.
Proof. intros E. unfold seen. rewrite E, S_INR. lra. Qed.
Lemma seen_new i : (1 <= i < nu)%nat -> u i < u (S i) -> seen (S i) = 1.
Proof. intros Hi L. unfold seen. replace (S i) with (i + 1)%nat in * by lia. rewrite less_step by easy. rewrite plus_INR. simpl. lra. Qed.
Lemma left_seen i : left_ i = risk (u i) - seen i + 1.
Proof. rewrite left_eq. unfold seen. lra. Qed.

(** Induction over the sorted events *)
Lemma events_ind (P : nat -> Prop) : P 1%nat ->
  (forall i, (1 <= i < nu)%nat -> P i -> u (S i) = u i -> P (S i)) ->
  (forall i, (1 <= i < nu)%nat -> P i -> u i < u (S i) -> P (S i)) ->
  forall i, (1 <= i <= nu)%nat -> P i.
Proof.
  intros P1 Ps Pn i. induction i as [|i IH]; intros Hi; [lia|]. destruct (Nat.eq_dec i 0) as [->|N]; [easy|].
  assert (X := Hu i (S i) ltac:(lia) ltac:(lia)).
  destruct (Req_EM_T (u (S i)) (u i)) as [E|E]; [apply Ps; [lia | apply IH; lia | easy] | apply Pn; [lia | apply IH; lia | lra]].
Qed.

Lemma Q_eq i : (1 <= i <= nu)%nat -> Q i = survival_before found limits (u i) * ((risk (u i) - seen i) / risk (u i)).
Proof.
  revert i. apply events_ind.
  - unfold survival_before. fold pts. rewrite first_none. cbn [map product fold_right Q]. rewrite left_seen, seen_1.
    assert (X := risk_pos 1%nat ltac:(lia)). field. lra.
  - intros i Hi IH E. cbn [Q]. rewrite IH, left_seen, (seen_same i E), E.
    assert (X := risk_pos i ltac:(lia)). assert (Y := left_pos (S i) ltac:(lia)). rewrite left_seen, (seen_same i E), E in Y. field. lra.
  - intros i Hi IH L. cbn [Q]. rewrite IH, left_seen, (seen_new i Hi L).
    unfold survival_before. fold pts. replace (S i) with (i + 1)%nat in * by lia.
    rewrite (below_prod _ pts (u i) (u (i + 1)%nat) pts_nodup (in_pts i ltac:(lia)) L (sep i Hi L)).
    rewrite (seen_final i ltac:(lia) (or_intror L)). fold (d (u i)). fold (risk (u i)).
    assert (X := risk_pos i ltac:(lia)). assert (Y := risk_pos (i + 1)%nat ltac:(lia)). field. lra.
Qed.
Lemma survival_split t i : (1 <= i <= nu)%nat -> t = u i ->
  survival found limits t = survival_before found limits t * (1 - d t / risk t).
Proof.
  intros Hi ->. unfold survival, survival_before. fold pts. destruct (upto_below pts (u i)) as (b & L & E). rewrite E.
  apply (below_prod (fun x => 1 - d x / risk x) pts (u i) b pts_nodup (in_pts i Hi) L).
  intros x Hx. assert (X : In x (filter (fun x => Rle_b x (u i)) pts) <-> In x (filter (fun x => Rlt_b x b) pts)) by now rewrite E.
  rewrite !filter_In, Rle_b_true, Rlt_b_true in X. split; intros H.
  - assert (x <= u i) by tauto. lra.
  - assert (x <= u i) by lra. tauto.
Qed.
Lemma Q_final i : (1 <= i <= nu)%nat -> final i -> Q i = survival found limits (u i).
Proof.
  intros Hi F. rewrite (survival_split (u i) i Hi eq_refl), (Q_eq i Hi), (seen_final i Hi F).
  assert (X := risk_pos i Hi). fold (d (u i)). field. lra.
Qed.
Lemma Q_last : Q nu = 0.
Proof.
  assert (H : forall n, n = nu -> Q n = 0); [|now apply H].
  intros [|n] E; [lia|]. cbn [Q]. rewrite E, left_last. unfold Rdiv. ring.
Qed.
Lemma Q_nonneg i : (i <= nu)%nat -> 0 <= Q i.
Proof.
  induction i as [|i IH]; intros Hi; [cbn; lra|]. cbn [Q]. apply Rmult_le_pos; [apply IH; lia|].
  assert (X := left_pos (S i) ltac:(lia)). apply Rmult_le_pos; [lra|]. left. apply Rinv_0_lt_compat. lra.
Qed.

Let gterm x := d x / (risk x * (risk x - d x)).
Lemma G_eq i : (1 <= i <= nu)%nat -> (i < nu)%nat ->
  G i = total (map gterm (filter (fun x => Rlt_b x (u i)) pts)) + (1 / (risk (u i) - seen i) - 1 / risk (u i)).
Proof.
  revert i. apply (events_ind (fun i => (i < nu)%nat -> G i = total (map gterm (filter (fun x => Rlt_b x (u i)) pts)) + (1 / (risk (u i) - seen i) - 1 / risk (u i)))).
  - intros L. rewrite first_none. cbn [map total fold_right G]. assert (X := left_two 1%nat ltac:(lia)). rewrite left_seen, seen_1 in *.
    field. lra.
  - intros i Hi IH E L. cbn [G]. rewrite IH by lia. assert (X := left_two (S i) ltac:(lia)). assert (Y := left_two i ltac:(lia)).
    rewrite left_seen, (seen_same i E), E in *. try rewrite left_seen in Y. assert (Z := risk_pos i ltac:(lia)). field. lra.
  - intros i Hi IH L L2. cbn [G]. rewrite IH by lia. assert (X := left_two (S i) ltac:(lia)). assert (Y := left_two i ltac:(lia)).
    rewrite left_seen, (seen_new i Hi L) in *. try rewrite left_seen in Y.
    replace (S i) with (i + 1)%nat in * by lia.
    rewrite (below_sum gterm pts (u i) (u (i + 1)%nat) pts_nodup (in_pts i ltac:(lia)) L (sep i Hi L)).
    assert (Z := risk_pos i ltac:(lia)). change (gterm (u i)) with (d (u i) / (risk (u i) * (risk (u i) - d (u i)))). rewrite (seen_final i ltac:(lia) (or_intror L)) in *.
    field. lra.
Qed.
Lemma greenwood_final i : (1 <= i <= nu)%nat -> final i -> greenwood found limits (u i) = Q i * sqrt (G i).
Proof.
  intros Hi F. unfold greenwood. fold pts. rewrite (Q_final i Hi F).
  destruct (Nat.eq_dec i nu) as [E|N].
  - rewrite <- (Q_final i Hi F), E, Q_last. now rewrite !Rmult_0_l.
  - f_equal. f_equal. rewrite G_eq by lia. destruct (upto_below pts (u i)) as (b & L & E). rewrite E.
    change (fun u0 => dead found limits u0 / (at_risk found limits u0 * (at_risk found limits u0 - dead found limits u0))) with gterm.
    rewrite (below_sum gterm pts (u i) b pts_nodup (in_pts i Hi) L).
    + change (gterm (u i)) with (d (u i) / (risk (u i) * (risk (u i) - d (u i)))). rewrite (seen_final i Hi F). assert (Z := risk_pos i Hi). assert (Y := left_two i ltac:(lia)).
      rewrite left_seen, (seen_final i Hi F) in Y. field. lra.
    + intros x Hx. assert (X : In x (filter (fun x => Rle_b x (u i)) pts) <-> In x (filter (fun x => Rlt_b x b) pts)) by now rewrite E.
      rewrite !filter_In, Rle_b_true, Rlt_b_true in X. split; intros H.
      * assert (x <= u i) by tauto. lra.
      * assert (x <= u i) by lra. tauto.
Qed.

(** Sums over the events are sums over the points *)
Definition psum (h : R -> R) (i : nat) : R := total (map (fun k => h (u k) * (Q (k - 1) - Q k)) (seq 1 i)).
Lemma total_app a b : total (a ++ b) = total a + total b.
Proof. unfold total. induction a as [|x a IH]; cbn [app fold_right]; [lra|]. rewrite IH. lra. Qed.
Lemma psum_S h i : psum h (S i) = psum h i + h (u (S i)) * (Q i - Q (S i)).
Proof. unfold psum. rewrite seq_S, map_app, total_app. cbn [Nat.add map total fold_right]. rewrite Nat.sub_succ, Nat.sub_0_r. lra. Qed.
Lemma psum_eq h i : (1 <= i <= nu)%nat ->
  psum h i = total (map (fun x => h x * prob found limits x) (filter (fun x => Rlt_b x (u i)) pts))
             + h (u i) * (survival_before found limits (u i) * (seen i / risk (u i))).
Proof.
  revert i. apply events_ind.
  - rewrite first_none. rewrite psum_S. replace (psum h 0) with 0 by easy. cbn [map total fold_right].
    rewrite (Q_eq 1%nat) by lia. cbn [Q]. unfold survival_before. fold pts. rewrite first_none. cbn [map product fold_right].
    assert (X := risk_pos 1%nat ltac:(lia)). field. lra.
  - intros i Hi IH E. rewrite psum_S, IH, (Q_eq i) by lia. rewrite (Q_eq (S i)) by lia. rewrite E, (seen_same i E).
    assert (X := risk_pos i ltac:(lia)). field. lra.
  - intros i Hi IH L. rewrite psum_S, IH. rewrite (Q_eq (S i)) by lia. rewrite (seen_new i Hi L).
    replace (S i) with (i + 1)%nat in * by lia.
    rewrite (Q_final i ltac:(lia) (or_intror L)).
    rewrite (below_sum _ pts (u i) (u (i + 1)%nat) pts_nodup (in_pts i ltac:(lia)) L (sep i Hi L)).
    change (prob found limits (u i)) with (survival_before found limits (u i) * (d (u i) / risk (u i))). rewrite (seen_final i ltac:(lia) (or_intror L)).
    assert (B : survival_before found limits (u (i + 1)%nat) = survival found limits (u i)).
    { rewrite (survival_split (u i) i ltac:(lia) eq_refl). unfold survival_before. fold pts.
      apply (below_prod (fun x => 1 - d x / risk x) pts (u i) (u (i + 1)%nat) pts_nodup (in_pts i ltac:(lia)) L (sep i Hi L)). }
    rewrite B. assert (X := risk_pos (i + 1)%nat ltac:(lia)). assert (Y := risk_pos i ltac:(lia)). field. lra.
Qed.
Lemma before_next i : (1 <= i < nu)%nat -> u i < u (i + 1)%nat -> survival_before found limits (u (i + 1)%nat) = survival found limits (u i).
Proof.
  intros Hi L. rewrite (survival_split (u i) i ltac:(lia) eq_refl). unfold survival_before. fold pts.
  apply (below_prod (fun x => 1 - d x / risk x) pts (u i) (u (i + 1)%nat) pts_nodup (in_pts i ltac:(lia)) L (sep i Hi L)).
Qed.
(** All points *)
Lemma psum_all h : psum h nu = total (map (fun x => h x * prob found limits x) pts).
Proof.
  rewrite psum_eq by lia. rewrite (seen_final nu ltac:(lia) (or_introl eq_refl)).
  assert (E : pts = filter (fun x => Rle_b x (u nu)) pts).
  { assert (X : forall x, In x pts -> x <= u nu).
    { intros x Hx. apply pts_in in Hx. destruct Hx as [k [Hk <-]]. apply Hu; lia. }
    assert (K : forall l, (forall x, In x l -> x <= u nu) -> l = filter (fun x => Rle_b x (u nu)) l); [|now apply K].
    intros l. induction l as [|x l IH]; intros H; [easy|]. cbn [filter].
    replace (Rle_b x (u nu)) with true by (symmetry; apply Rle_b_true, H; now left).
    f_equal. apply IH. intros y Hy. apply H. now right. }
  destruct (upto_below pts (u nu)) as (b & L & E2). replace (map (fun x => h x * prob found limits x) pts) with (map (fun x => h x * prob found limits x) (filter (fun x => Rlt_b x b) pts))
    by (rewrite <- E2, <- E; easy).
  rewrite (below_sum _ pts (u nu) b pts_nodup (in_pts nu ltac:(lia)) L).
  - change (prob found limits (u nu)) with (survival_before found limits (u nu) * (d (u nu) / risk (u nu))). lra.
  - intros x Hx. assert (X : In x (filter (fun x => Rle_b x (u nu)) pts) <-> In x (filter (fun x => Rlt_b x b) pts)) by now rewrite E2.
    rewrite !filter_In, Rle_b_true, Rlt_b_true in X. split; intros H.
    + assert (x <= u nu) by tauto. lra.
    + assert (x <= u nu) by lra. tauto.
Qed.
(** The points below the next ones *)
Lemma psum_some h i : (1 <= i < nu)%nat -> u i < u (i + 1)%nat ->
  psum h i = total (map (fun x => h x * prob found limits x) (filter (fun x => Rlt_b x (u (i + 1)%nat)) pts)).
Proof.
  intros Hi L. rewrite psum_eq by lia. rewrite (seen_final i ltac:(lia) (or_intror L)).
  rewrite (below_sum _ pts (u i) (u (i + 1)%nat) pts_nodup (in_pts i ltac:(lia)) L (sep i Hi L)).
  change (prob found limits (u i)) with (survival_before found limits (u i) * (d (u i) / risk (u i))). lra.
Qed.
End Core.
