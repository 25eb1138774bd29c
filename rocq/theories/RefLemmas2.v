(** Intervals, and merging. *)

From Coq Require Import ZArith List Bool Arith Reals Lra Lia.
From Verif Require Import Exn Instances RefModel RefSpec RefLemmas CountLemmas2.
Import ListNotations.
Local Open Scope R_scope.

Definition span (lin : bool) (lo hi : R) : R := if lin then hi - lo else ln (hi / lo).

Lemma ln_ratio_pos : forall lo hi, 0 < lo -> lo < hi -> 0 < ln (hi / lo).
Proof.
  intros lo hi H0 H. rewrite <- ln_1. apply ln_increasing; [lra|]. apply (Rmult_lt_reg_r lo); [lra|].
  unfold Rdiv. rewrite Rmult_assoc, Rinv_l by lra. lra.
Qed.

Lemma span_pos : forall lin lo hi, (lin = false -> 0 < lo) -> lo < hi -> 0 < span lin lo hi.
Proof. intros [] lo hi H0 H; unfold span; [lra|]. apply ln_ratio_pos; auto. Qed.

Lemma ceil_bounds : forall x, x <= IZR (ceil x) < x + 1.
Proof. intros x. unfold ceil. rewrite opp_IZR. pose proof (Int_part_bounds (- x)). lra. Qed.

Lemma IZR_ge1 : forall n : Z, (2 <= n)%Z -> 1 <= IZR n - 1.
Proof. intros n H. apply IZR_le in H. lra. Qed.

Lemma num_pts_spec : forall lin lo hi step, 0 < span lin lo hi -> 0 < step ->
  (2 <= num_pts lin lo hi step)%Z /\ span lin lo hi / (IZR (num_pts lin lo hi step) - 1) <= step.
Proof.
  intros lin lo hi step Hs H. unfold num_pts. fold (span lin lo hi). set (q := span lin lo hi / step).
  assert (0 < q) as Hq by (unfold q; apply Rdiv_lt_0_compat; lra).
  pose proof (ceil_bounds q) as [C1 C2]. assert (0 < ceil q)%Z as Hc by (apply lt_IZR; lra). split; [lia|].
  rewrite plus_IZR. replace (IZR (ceil q) + 1 - 1) with (IZR (ceil q)) by lra.
  apply IZR_lt in Hc as Hc'. apply (Rmult_le_reg_r (IZR (ceil q))); [lra|].
  unfold Rdiv. rewrite Rmult_assoc, Rinv_l by lra. rewrite Rmult_1_r.
  replace (span lin lo hi) with (step * q) by (unfold q; field; lra). apply Rmult_le_compat_l; lra.
Qed.

Lemma num_pts_exact : forall lo hi step k, 0 < step -> hi - lo = IZR k * step ->
  num_pts true lo hi step = (k + 1)%Z.
Proof.
  intros lo hi step k H E. unfold num_pts. replace ((hi - lo) / step) with (IZR k) by (rewrite E; field; lra).
  pose proof (ceil_bounds (IZR k)) as [C1 C2]. rewrite <- plus_IZR in C2. apply le_IZR in C1. apply lt_IZR in C2. lia.
Qed.

(** A valid interval. *)
Definition okiv (a : ival) : Prop :=
  i_lo a < i_hi a /\ (2 <= i_n a)%Z /\ 0 < i_step a
  /\ (i_lin a = false -> 0 < i_lo a /\ i_fac a = exp (i_step a))
  /\ i_step a = span (i_lin a) (i_lo a) (i_hi a) / (IZR (i_n a) - 1).

Lemma okiv_steps : forall a, okiv a -> (IZR (i_n a) - 1) * i_step a = span (i_lin a) (i_lo a) (i_hi a).
Proof. intros a (_ & Hn & _ & _ & E). rewrite E. apply IZR_ge1 in Hn. field. lra. Qed.

Lemma mk_ival_ok : forall lo hi n, lo < hi -> (2 <= n)%Z ->
  exists a, mk_ival lo hi n true = Ok a /\ okiv a /\ i_lo a = lo /\ i_hi a = hi /\ i_n a = n /\ i_lin a = true
    /\ i_step a = (hi - lo) / (IZR n - 1).
Proof.
  intros lo hi n H Hn. unfold mk_ival. replace (Z.leb n 1) with false by (symmetry; apply Z.leb_gt; lia).
  eexists. split; [reflexivity|]. cbn. pose proof (IZR_ge1 n Hn). repeat split; auto; cbn; try discriminate.
  apply Rdiv_lt_0_compat; lra.
Qed.

Lemma okiv_lo : forall lin a, okiv a -> (lin = false -> 0 < i_lo a) -> 0 < span lin (i_lo a) (i_hi a).
Proof. intros lin a (H & _) H0. now apply span_pos. Qed.

(** Where [x] falls in an interval. *)
Lemma locate_in : forall a x, okiv a -> i_lo a <= x < i_hi a ->
  exists i l h, i_locate a x = (i, l, h) /\ (0 <= i < i_n a - 1)%Z /\ i_lo a <= l <= x /\ x < h <= i_hi a
    /\ (i_lin a = true -> l = i_lo a + IZR i * i_step a /\ h = l + i_step a).
Proof.
  intros a x OK Hx. pose proof (okiv_steps a OK) as Es. destruct OK as (Hlh & Hn & Hs & Hl & E).
  pose proof (IZR_ge1 _ Hn) as Hn'. unfold i_locate, span in *. destruct (i_lin a) eqn:El.
  - set (q := (x - i_lo a) / i_step a). pose proof (Int_part_bounds q) as [Q1 Q2]. set (i := Int_part q) in *.
    assert (x = i_lo a + q * i_step a) as Ex by (unfold q; field; lra).
    assert (0 <= q) as Q0. { unfold q. apply Rmult_le_pos; [lra|]. left. apply Rinv_0_lt_compat; auto. }
    assert (q < IZR (i_n a) - 1) as Q3. { apply (Rmult_lt_reg_r (i_step a)); auto. lra. }
    assert (0 <= i)%Z as I0 by (assert (-1 < i)%Z; [apply lt_IZR; lra|lia]).
    assert (i < i_n a - 1)%Z as I1 by (apply lt_IZR; rewrite minus_IZR; lra).
    replace (Z.eqb i (i_n a - 1)) with false by (symmetry; apply Z.eqb_neq; lia).
    exists i, (i_lo a + IZR i * i_step a), (i_lo a + IZR i * i_step a + i_step a).
    assert (0 <= IZR i) as I0' by (apply IZR_le in I0; lra).
    assert (IZR i + 1 <= IZR (i_n a) - 1) as I2. { rewrite <- plus_IZR, <- minus_IZR. apply IZR_le. lia. }
    assert (0 <= IZR i * i_step a) by (apply Rmult_le_pos; lra).
    assert (IZR i * i_step a <= q * i_step a) by (apply Rmult_le_compat_r; lra).
    assert (q * i_step a < (IZR i + 1) * i_step a) by (apply Rmult_lt_compat_r; lra).
    assert ((IZR i + 1) * i_step a <= (IZR (i_n a) - 1) * i_step a) by (apply Rmult_le_compat_r; lra).
    split; [reflexivity|]. repeat split; auto; lra.
  - destruct (Hl eq_refl) as [Hl0 Hf].
    assert (0 < x / i_lo a) as X0 by (apply Rdiv_lt_0_compat; lra).
    set (q := ln (x / i_lo a) / i_step a). pose proof (Int_part_bounds q) as [Q1 Q2]. set (i := Int_part q) in *.
    assert (ln (x / i_lo a) = q * i_step a) as Ex by (unfold q; field; lra).
    assert (x = i_lo a * exp (q * i_step a)) as Ex2. { rewrite <- Ex, exp_ln by auto. field. lra. }
    assert (i_hi a = i_lo a * exp ((IZR (i_n a) - 1) * i_step a)) as Eh.
    { rewrite Es, exp_ln by (apply Rdiv_lt_0_compat; lra). field. lra. }
    assert (0 <= ln (x / i_lo a)) as L0.
    { rewrite <- ln_1. destruct (Req_dec (i_lo a) x) as [<-|N].
      - unfold Rdiv. rewrite Rinv_r by lra. lra.
      - left. rewrite ln_1. apply ln_ratio_pos; lra. }
    assert (0 <= q) as Q0. { unfold q. apply Rmult_le_pos; [lra|]. left. apply Rinv_0_lt_compat; auto. }
    assert (q < IZR (i_n a) - 1) as Q3.
    { apply (Rmult_lt_reg_r (i_step a)); auto. apply exp_lt_inv. apply (Rmult_lt_reg_l (i_lo a)); auto. lra. }
    assert (0 <= i)%Z as I0 by (assert (-1 < i)%Z; [apply lt_IZR; lra|lia]).
    assert (i < i_n a - 1)%Z as I1 by (apply lt_IZR; rewrite minus_IZR; lra).
    replace (Z.eqb i (i_n a - 1)) with false by (symmetry; apply Z.eqb_neq; lia).
    exists i, (i_lo a * exp (IZR i * i_step a)), (i_lo a * exp (IZR i * i_step a) * i_fac a).
    assert (0 <= IZR i) as I0' by (apply IZR_le in I0; lra).
    assert (IZR i + 1 <= IZR (i_n a) - 1) as I2. { rewrite <- plus_IZR, <- minus_IZR. apply IZR_le. lia. }
    assert (forall u v, u <= v -> exp u <= exp v) as EL.
    { intros u v [H| ->]; [left; now apply exp_increasing|lra]. }
    assert (1 <= exp (IZR i * i_step a)). { rewrite <- exp_0. apply EL. apply Rmult_le_pos; lra. }
    assert (exp (IZR i * i_step a) <= exp (q * i_step a)) by (apply EL, Rmult_le_compat_r; lra).
    assert (exp (q * i_step a) < exp ((IZR i + 1) * i_step a)) by (apply exp_increasing, Rmult_lt_compat_r; lra).
    assert (exp ((IZR i + 1) * i_step a) <= exp ((IZR (i_n a) - 1) * i_step a)) by (apply EL, Rmult_le_compat_r; lra).
    assert (i_lo a * exp (IZR i * i_step a) * i_fac a = i_lo a * exp ((IZR i + 1) * i_step a)) as Ef.
    { rewrite Hf, Rmult_assoc, <- exp_plus. f_equal. f_equal. lra. }
    split; [reflexivity|]. rewrite Ef. split; [auto|]. split; [|split; [|discriminate]].
    + assert (i_lo a * 1 <= i_lo a * exp (IZR i * i_step a)) by (apply Rmult_le_compat_l; lra).
      assert (i_lo a * exp (IZR i * i_step a) <= i_lo a * exp (q * i_step a)) by (apply Rmult_le_compat_l; lra). lra.
    + assert (i_lo a * exp (q * i_step a) < i_lo a * exp ((IZR i + 1) * i_step a)) by (apply Rmult_lt_compat_l; lra).
      assert (i_lo a * exp ((IZR i + 1) * i_step a) <= i_lo a * exp ((IZR (i_n a) - 1) * i_step a)) by (apply Rmult_le_compat_l; lra). lra.
Qed.

Lemma locate_end : forall a, okiv a -> i_locate a (i_hi a) = ((i_n a - 1)%Z, i_hi a, i_hi a).
Proof.
  intros a OK. pose proof (okiv_steps a OK) as Es. destruct OK as (Hlh & Hn & Hs & Hl & E).
  assert (forall q, q = IZR (i_n a - 1) -> Int_part q = (i_n a - 1)%Z) as IP.
  { intros q ->. pose proof (Int_part_bounds (IZR (i_n a - 1))) as [A B]. rewrite <- plus_IZR in B.
    apply le_IZR in A. apply lt_IZR in B. lia. }
  unfold i_locate, span in *. destruct (i_lin a).
  - rewrite (IP ((i_hi a - i_lo a) / i_step a)).
    + rewrite Z.eqb_refl. rewrite minus_IZR. repeat f_equal; lra.
    + rewrite minus_IZR, <- Es. field. lra.
  - destruct (Hl eq_refl) as [Hl0 _]. rewrite (IP (ln (i_hi a / i_lo a) / i_step a)).
    + rewrite Z.eqb_refl. rewrite minus_IZR, Es, exp_ln by (apply Rdiv_lt_0_compat; lra).
      replace (i_lo a * (i_hi a / i_lo a)) with (i_hi a) by (field; lra). reflexivity.
    + rewrite minus_IZR, <- Es. field. lra.
Qed.

(** The upper end of a request, moved to a point of the interval. *)
Lemma locate_hi : forall a x, okiv a -> i_lo a < x <= i_hi a ->
  exists i l h, i_locate a x = (i, l, h) /\
  let hi := if negb (Reqb x l) then h else x in
  x <= hi <= i_hi a /\ (i_lin a = true -> exists j, (1 <= j <= i_n a - 1)%Z /\ hi = i_lo a + IZR j * i_step a).
Proof.
  intros a x OK Hx. destruct (Req_dec x (i_hi a)) as [->|N].
  - exists (i_n a - 1)%Z, (i_hi a), (i_hi a). rewrite locate_end by auto. split; [reflexivity|].
    replace (Reqb (i_hi a) (i_hi a)) with true by (symmetry; now apply Reqb_spec). cbn. split; [lra|].
    intros El. exists (i_n a - 1)%Z. pose proof (okiv_steps a OK) as Es. destruct OK as (_ & Hn & _).
    split; [lia|]. rewrite minus_IZR. unfold span in Es. rewrite El in Es. lra.
  - destruct (locate_in a x OK) as (i & l & h & E & Hi & Hl & Hh & HL); [lra|]. exists i, l, h. split; [auto|].
    destruct (Reqb x l) eqn:Ex; rb; cbn.
    + split; [lra|]. intros El. destruct (HL El) as [EL _]. exists i. split; [|congruence].
      split; [|lia]. assert (i <> 0%Z); [|lia]. intros ->. lra.
    + split; [lra|]. intros El. destruct (HL El) as [EL Eh]. exists (i + 1)%Z. split; [lia|]. rewrite plus_IZR. lra.
Qed.

(** ** Tilings *)

Lemma tiling_app : forall A B lo hi, tiling lo hi (A ++ B) <-> exists m, tiling lo m A /\ tiling m hi B.
Proof.
  induction A as [|a A IH]; intros B lo hi; cbn [app tiling].
  - split; [intros H; exists lo; auto|intros (m & -> & H); auto].
  - split.
    + intros (H1 & H2 & H3 & H4). apply IH in H4 as (m & H5 & H6). exists m. auto.
    + intros (m & (H1 & H2 & H3 & H4) & H5). repeat split; auto. apply IH. eauto.
Qed.

Lemma tiling_le : forall l lo hi, tiling lo hi l -> lo <= hi.
Proof. induction l as [|a l IH]; cbn; intros lo hi H; [lra|]. destruct H as (H1 & H2 & _ & H3). apply IH in H3. lra. Qed.

Lemma tiling_in : forall l lo hi a, tiling lo hi l -> In a l -> lo <= i_lo a /\ i_lo a < i_hi a /\ i_hi a <= hi.
Proof.
  induction l as [|b l IH]; cbn; intros lo hi a H HI; [contradiction|]. destruct H as (H1 & H2 & _ & H3).
  pose proof (tiling_le _ _ _ H3). destruct HI as [->|HI]; [lra|]. specialize (IH _ _ _ H3 HI). lra.
Qed.

Definition contains (a : ival) (x : R) : Prop := i_lo a <= x < i_hi a.

Lemma tiling_unique : forall l lo hi a b x, tiling lo hi l -> In a l -> In b l -> contains a x -> contains b x -> a = b.
Proof.
  unfold contains. induction l as [|c l IH]; cbn; intros lo hi a b x H Ha Hb Ca Cb; [contradiction|].
  destruct H as (H1 & H2 & _ & H3). destruct Ha as [->|Ha], Hb as [->|Hb]; auto.
  - pose proof (tiling_in _ _ _ _ H3 Hb). lra.
  - pose proof (tiling_in _ _ _ _ H3 Ha). lra.
  - eapply IH; eauto.
Qed.

(** The interval found by the loops at the start of update. *)
Lemma first_such_split : forall p l k i a, first_such p k l = Some (i, a) ->
  exists pre post, l = pre ++ a :: post /\ i = (k + length pre)%nat /\ p a = true.
Proof.
  induction l as [|b l IH]; cbn; intros k i a H; [discriminate|]. destruct (p b) eqn:E.
  - inversion H; subst. exists [], l. cbn. repeat split; auto.
  - apply IH in H as (pre & post & -> & -> & Hp). exists (b :: pre), post. cbn. repeat split; auto; lia.
Qed.

Lemma first_such_lo : forall l lo hi x k, tiling lo hi l -> lo <= x < hi ->
  exists i a, first_such (fun a => Rleb (i_lo a) x && Rltb x (i_hi a)) k l = Some (i, a).
Proof.
  induction l as [|b l IH]; cbn; intros lo hi x k H Hx; [lra|]. destruct H as (H1 & H2 & _ & H3).
  destruct (Rleb (i_lo b) x && Rltb x (i_hi b)) eqn:E; [eauto|]. eapply IH; eauto.
  apply andb_false_iff in E as [E|E]; rb; lra.
Qed.

Lemma first_such_hi : forall l lo hi x k, tiling lo hi l -> lo < x <= hi ->
  exists i a, first_such (fun a => Rltb (i_lo a) x && Rleb x (i_hi a)) k l = Some (i, a).
Proof.
  induction l as [|b l IH]; cbn; intros lo hi x k H Hx; [lra|]. destruct H as (H1 & H2 & _ & H3).
  destruct (Rltb (i_lo b) x && Rleb x (i_hi b)) eqn:E; [eauto|]. eapply IH; eauto.
  apply andb_false_iff in E as [E|E]; rb; lra.
Qed.

(** ** Merging *)

Fixpoint cums (acc : Z) (l : list ival) : list Z :=
  match l with
  | [] => []
  | a :: l' => (acc + (i_n a - 1))%Z :: cums (acc + (i_n a - 1))%Z l'
  end.
(** The cumulative counts kept with a list of intervals. *)
Definition cum_of (l : list ival) : list Z := removelast (cums 0 l) ++ [count_points l].

Lemma steps_app : forall A B, steps_in (A ++ B) = (steps_in A + steps_in B)%Z.
Proof. induction A as [|a A IH]; intros B; [reflexivity|]. unfold steps_in in *. cbn. rewrite IH. lia. Qed.
Lemma steps_cons : forall a B, steps_in (a :: B) = (i_n a - 1 + steps_in B)%Z.
Proof. reflexivity. Qed.
Lemma cums_app : forall A B acc, cums acc (A ++ B) = cums acc A ++ cums (acc + steps_in A) B.
Proof.
  induction A as [|a A IH]; intros B acc; cbn [app cums].
  - f_equal. unfold steps_in. cbn. lia.
  - rewrite IH, steps_cons. do 2 f_equal. f_equal. lia.
Qed.
Lemma cums_len : forall l acc, length (cums acc l) = length l.
Proof. induction l; intros; cbn; auto. Qed.

(** What merging keeps. *)
Definition merged (l l' : list ival) : Prop :=
  (forall lo hi, tiling lo hi l -> tiling lo hi l')
  /\ Forall (fun a => okiv a /\ i_lin a = true) l'
  /\ steps_in l' = steps_in l
  /\ (forall b x, In b l' -> contains b x -> exists a, In a l /\ contains a x /\ i_step a = i_step b)
  /\ (forall b, In b l' -> exists a, In a l /\ i_lo a = i_lo b /\ i_step a = i_step b).

Lemma merged_refl : forall l, Forall (fun a => okiv a /\ i_lin a = true) l -> merged l l.
Proof. intros l H. unfold merged. repeat split; auto; intros; eauto. Qed.

Lemma merged_trans : forall a b c, merged a b -> merged b c -> merged a c.
Proof.
  intros a b c (T1 & F1 & S1 & P1 & L1) (T2 & F2 & S2 & P2 & L2). unfold merged.
  split; [auto|]. split; [auto|]. split; [congruence|]. split.
  - intros x y Hx Cx. destruct (P2 x y Hx Cx) as (u & Hu & Cu & Eu). destruct (P1 u y Hu Cu) as (v & Hv & Cv & Ev).
    exists v. refine (conj Hv (conj _ _)); [solve [auto | congruence]|congruence].
  - intros x Hx. destruct (L2 x Hx) as (u & Hu & Cu & Eu). destruct (L1 u Hu) as (v & Hv & Cv & Ev).
    exists v. refine (conj Hv (conj _ _)); [solve [auto | congruence]|congruence].
Qed.

Fixpoint adjacent_differ (l : list ival) : Prop :=
  match l with
  | a :: (b :: _) as l' => i_step a <> i_step b /\ adjacent_differ l'
  | _ => True
  end.

Lemma adj_app : forall A a b, adjacent_differ (A ++ [a]) -> i_step a <> i_step b -> adjacent_differ (A ++ [a; b]).
Proof.
  induction A as [|c A IH]; intros a b H N; cbn [app] in *.
  - cbn. auto.
  - destruct A as [|d A]; cbn [app] in *.
    + destruct H as [H _]. cbn. auto.
    + destruct H as [H1 H2]. split; [exact H1|]. apply (IH a b); auto.
Qed.

Lemma adj_swap : forall A a b, adjacent_differ (A ++ [a]) -> i_step a = i_step b -> adjacent_differ (A ++ [b]).
Proof.
  induction A as [|c A IH]; intros a b H E; cbn [app] in *; [exact I|].
  destruct A as [|d A]; cbn [app] in *.
  - destruct H as [H _]. cbn. split; auto. congruence.
  - destruct H as [H1 H2]. split; auto. eapply IH; eauto.
Qed.

Lemma merge_pair : forall pre a b q iv, okiv a -> okiv b -> i_lin a = true -> i_lin b = true ->
  i_step a = i_step b -> i_lo iv = i_lo a -> i_hi iv = i_hi b -> i_n iv = (i_n a + i_n b - 1)%Z ->
  i_lin iv = true -> okiv iv -> i_hi a = i_lo b ->
  Forall (fun a => okiv a /\ i_lin a = true) (pre ++ a :: b :: q) ->
  merged (pre ++ a :: b :: q) (pre ++ iv :: q) /\ i_step iv = i_step a.
Proof.
  intros pre a b q iv Oa Ob La Lb Es Elo Ehi En Lv Ov Adj F.
  assert (i_step iv = i_step a) as Estep.
  { pose proof (okiv_steps a Oa) as Ea. pose proof (okiv_steps b Ob) as Eb. pose proof (okiv_steps iv Ov) as Ev.
    unfold span in *. rewrite La in Ea. rewrite Lb in Eb. rewrite Lv in Ev. rewrite Elo, Ehi, En in Ev.
    rewrite minus_IZR, plus_IZR in Ev. rewrite <- Es in Eb.
    assert (2 <= i_n a)%Z as Na by apply Oa. assert (2 <= i_n b)%Z as Nb by apply Ob.
    apply IZR_ge1 in Na, Nb. apply (Rmult_eq_reg_l (IZR (i_n a) + IZR (i_n b) - 1 - 1)); lra. }
  split; auto. unfold merged. apply Forall_app in F as [F1 F2]. inversion F2 as [|? ? _ F3]; subst. inversion F3 as [|? ? _ F4]; subst.
  assert (i_lo a < i_hi a) by apply Oa. assert (i_lo b < i_hi b) by apply Ob. refine (conj _ (conj _ (conj _ (conj _ _)))).
  - intros lo hi H1. apply tiling_app in H1 as (m & H1 & H2). apply tiling_app. exists m. split; auto.
    cbn in *. destruct H2 as (A1 & A2 & A3 & A4 & A5 & A6 & A7). rewrite Elo, Ehi, En. repeat split; auto; [lra|lia].
  - apply Forall_app. split; auto.
  - rewrite !steps_app, !steps_cons. lia.
  - intros c x Hc Cx. apply in_app_or in Hc as [Hc|[<-|Hc]].
    + exists c. repeat split; try apply Cx. apply in_or_app; auto.
    + unfold contains in *. destruct (Rlt_dec x (i_hi a)).
      * exists a. split; [apply in_or_app; right; left; auto|]. split; [lra|auto].
      * exists b. split; [apply in_or_app; right; right; left; auto|]. split; [lra|congruence].
    + exists c. repeat split; try apply Cx. apply in_or_app. right. right. right. auto.
  - intros c Hc. apply in_app_or in Hc as [Hc|[<-|Hc]].
    + exists c. repeat split; auto. apply in_or_app; auto.
    + exists a. repeat split; auto. apply in_or_app; right; left; auto.
    + exists c. repeat split; auto. apply in_or_app. right. right. right. auto.
Qed.

Lemma cum_of_snoc : forall A a, cum_of (A ++ [a]) = cums 0 A ++ [count_points (A ++ [a])].
Proof. intros. unfold cum_of. rewrite cums_app. cbn [cums]. rewrite removelast_last. reflexivity. Qed.

Lemma set_last : forall (A : list Z) x y, set_at (length (A ++ [x]) - 1) y (A ++ [x]) = A ++ [y].
Proof.
  intros. unfold set_at. rewrite app_length. cbn [length]. replace (length A + 1 - 1)%nat with (length A) by lia.
  rewrite firstn_app, Nat.sub_diag, firstn_all, skipn_all2 by (rewrite app_length; cbn; lia). cbn. rewrite app_nil_r. reflexivity.
Qed.

Lemma del_at_app : forall {A} (l : list A) x r, del_at (length l) (l ++ x :: r) = l ++ r.
Proof.
  intros. unfold del_at. rewrite firstn_app, Nat.sub_diag, firstn_all. cbn [firstn]. rewrite app_nil_r. f_equal.
  rewrite skipn_app, skipn_all2 by lia. replace (S (length l) - length l)%nat with 1%nat by lia. reflexivity.
Qed.
Lemma ins_at_app : forall {A} (l : list A) x r, ins_at (length l) x (l ++ r) = l ++ x :: r.
Proof.
  intros. unfold ins_at. rewrite firstn_app, Nat.sub_diag, firstn_all. cbn [firstn]. rewrite app_nil_r. f_equal.
  rewrite skipn_app, skipn_all, Nat.sub_diag. reflexivity.
Qed.
Lemma set_at_app : forall {A} (l : list A) x y r, set_at (length l) y (l ++ x :: r) = l ++ y :: r.
Proof.
  intros. unfold set_at. rewrite firstn_app, Nat.sub_diag, firstn_all. cbn [firstn]. rewrite app_nil_r. f_equal. f_equal.
  rewrite skipn_app, skipn_all2 by lia. replace (S (length l) - length l)%nat with 1%nat by lia. reflexivity.
Qed.

Definition upd (s : rlist) (l : list ival) : rlist :=
  RList (rl_pos s) (rl_lin s) (rl_lo s) (rl_hi s) (rl_base s) l (count_points l) (cum_of l).

Lemma merge_loop_spec : forall q fuel pre a s lo hi, (length q <= fuel)%nat ->
  rl_il s = pre ++ a :: q -> rl_npts s = steps_in (pre ++ [a]) -> rl_cum s = cums 0 (pre ++ [a]) ->
  tiling lo hi (rl_il s) -> Forall (fun a => okiv a /\ i_lin a = true) (rl_il s) -> adjacent_differ (pre ++ [a]) ->
  exists l, merge_loop fuel (length pre) s = (upd s l, Ok tt) /\ merged (rl_il s) l /\ adjacent_differ l.
Proof.
  induction q as [|b q IH]; intros fuel pre a s lo hi Hf Ei En Ec T F Ad.
  - assert (nth_error (rl_il s) (S (length pre)) = None) as E0.
    { apply nth_error_None. rewrite Ei, app_length. cbn. lia. }
    exists (rl_il s). split; [|split; [now apply merged_refl|rewrite Ei; exact Ad]].
    destruct fuel; cbn [merge_loop]; rewrite E0; unfold upd; rewrite En, Ec, Ei, cums_app; cbn [cums];
      rewrite set_last, cum_of_snoc; unfold count_points;
      replace (steps_in (pre ++ [a]) + 1)%Z with (1 + steps_in (pre ++ [a]))%Z by lia; reflexivity.
  - destruct fuel as [|fuel]; [cbn in Hf; lia|]. cbn [merge_loop].
    assert (nth_error (rl_il s) (S (length pre)) = Some b) as Eb.
    { rewrite Ei, nth_error_app2 by lia. replace (S (length pre) - length pre)%nat with 1%nat by lia. reflexivity. }
    assert (nth_error (rl_il s) (length pre) = Some a) as Ea.
    { rewrite Ei, nth_error_app2, Nat.sub_diag by lia. reflexivity. }
    rewrite Eb, Ea.
    assert (okiv a /\ i_lin a = true) as [Oa La] by (rewrite Forall_forall in F; apply F; rewrite Ei; apply in_or_app; right; left; auto).
    assert (okiv b /\ i_lin b = true) as [Ob Lb] by (rewrite Forall_forall in F; apply F; rewrite Ei; apply in_or_app; right; right; left; auto).
    assert (i_hi a = i_lo b) as Adj.
    { rewrite Ei in T. apply tiling_app in T as (m & _ & T). cbn in T. symmetry. apply T. }
    assert (2 <= i_n a)%Z as Na by apply Oa. assert (2 <= i_n b)%Z as Nb by apply Ob.
    destruct (Reqb (i_step a) (i_step b)) eqn:Es; rb.
    + destruct (mk_ival_ok (i_lo a) (i_hi b) (i_n a + i_n b - 1)) as (iv & Em & Ov & E1 & E2 & E3 & E4 & E5);
        [destruct Oa, Ob; lra|lia|]. rewrite Em.
      rewrite Ei in F. destruct (merge_pair pre a b q iv Oa Ob La Lb Es E1 E2 E3 E4 Ov Adj F) as [M Esv].
      set (s' := RList _ _ _ _ _ _ _ _).
      assert (rl_il s' = pre ++ iv :: q) as Ei'.
      { cbn. rewrite Ei, !del_at_app, ins_at_app. reflexivity. }
      assert (merged (rl_il s) (rl_il s')) as M' by (rewrite Ei, Ei'; exact M).
      destruct (IH fuel pre iv s' lo hi) as (l & El & Ml & Al).
      * cbn in Hf. lia.
      * exact Ei'.
      * cbn. rewrite En, !steps_app, !steps_cons, E3. unfold steps_in. cbn. lia.
      * cbn. rewrite Ec, !cums_app. cbn [cums]. rewrite <- app_assoc. cbn [app].
        rewrite app_nth2 by (rewrite cums_len; lia). rewrite cums_len.
        replace (S (length pre) - length pre)%nat with 1%nat by lia. cbn [nth].
        rewrite <- (cums_len pre 0) at 1. rewrite set_at_app.
        rewrite removelast_app by discriminate. cbn [removelast]. f_equal. f_equal.
        rewrite En, steps_app, !steps_cons, E3. unfold steps_in. cbn. lia.
      * apply M'. exact T.
      * apply M'.
      * eapply adj_swap; [exact Ad|congruence].
      * exists l. split; [exact El|]. split; [eapply merged_trans; eauto|exact Al].
    + set (s' := RList _ _ _ _ _ _ _ _).
      destruct (IH fuel (pre ++ [a]) b s' lo hi) as (l & El & Ml & Al).
      * cbn in Hf. lia.
      * cbn. rewrite Ei, <- app_assoc. reflexivity.
      * cbn. rewrite En. rewrite (steps_app (pre ++ [a])). unfold steps_in at 3. cbn. lia.
      * cbn. rewrite Ec. rewrite (cums_app (pre ++ [a])). cbn [cums]. rewrite En. do 2 f_equal. lia.
      * exact T.
      * exact F.
      * rewrite <- app_assoc. apply adj_app; auto.
      * exists l. rewrite app_length in El. cbn in El. rewrite Nat.add_1_r in El. split; [exact El|]. split; auto.
Qed.

Lemma merge_spec : forall s lo hi, rl_il s <> [] -> tiling lo hi (rl_il s) ->
  Forall (fun a => okiv a /\ i_lin a = true) (rl_il s) ->
  exists l, merge s = (upd s l, Ok tt) /\ merged (rl_il s) l /\ adjacent_differ l.
Proof.
  intros s lo hi N T F. unfold merge. destruct (rl_il s) as [|a q] eqn:E; [congruence|].
  set (s' := RList _ _ _ _ _ _ _ _).
  destruct (merge_loop_spec q (length (a :: q)) [] a s' lo hi) as (l & El & M & Ad); auto.
  - cbn. lia.
  - unfold steps_in. cbn. lia.
  - exact I.
  - exists l. auto.
Qed.
