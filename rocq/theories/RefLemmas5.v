(** The points of a list of intervals, and finding intervals. *)

From Coq Require Import ZArith List Bool Arith Reals Sorted Lra Lia.
From Verif Require Import Exn Instances RefModel RefSpec RefLemmas RefLemmas2 RefLemmas3 RefLemmas4.
Import ListNotations.
Local Open Scope R_scope.

(** ** Points *)

Lemma spaced_first : forall lin lo hi n, spaced lin lo hi n 0 = lo.
Proof. intros [] lo hi n; unfold spaced; rewrite Rmult_0_l; [lra|]. rewrite exp_0. lra. Qed.

Lemma spaced_last : forall lin lo hi n, (2 <= n)%Z -> (lin = false -> 0 < lo) -> lo < hi -> spaced lin lo hi n (n - 1) = hi.
Proof.
  intros lin lo hi n Hn H0 H. apply IZR_ge1 in Hn. unfold spaced. rewrite minus_IZR. destruct lin.
  - field. lra.
  - specialize (H0 eq_refl). replace ((IZR n - 1) * (ln (hi / lo) / (IZR n - 1))) with (ln (hi / lo)) by (field; lra).
    rewrite exp_ln by (apply Rdiv_lt_0_compat; lra). field. lra.
Qed.

Lemma spaced_lt : forall lin lo hi n j k, (2 <= n)%Z -> (lin = false -> 0 < lo) -> lo < hi -> (j < k)%Z ->
  spaced lin lo hi n j < spaced lin lo hi n k.
Proof.
  intros lin lo hi n j k Hn H0 H Hjk. apply IZR_ge1 in Hn. apply IZR_lt in Hjk.
  assert (0 < span lin lo hi / (IZR n - 1)) as S by (apply Rdiv_lt_0_compat; [now apply span_pos|lra]).
  unfold spaced, span in *. destruct lin.
  - apply Rplus_lt_compat_l. now apply Rmult_lt_compat_r.
  - specialize (H0 eq_refl). apply Rmult_lt_compat_l; auto. apply exp_increasing. now apply Rmult_lt_compat_r.
Qed.

Lemma pbl_len : forall lin a, length (points_but_last lin a) = (Z.to_nat (i_n a) - 1)%nat.
Proof. intros. unfold points_but_last. now rewrite map_length, seq_length. Qed.

Lemma sorted_map_seq : forall (g : nat -> R) m k, (forall i j, (i < j)%nat -> g i < g j) ->
  StronglySorted Rlt (map g (seq k m)).
Proof.
  induction m as [|m IH]; intros k H; cbn; constructor; auto. apply Forall_forall. intros x Hx.
  apply in_map_iff in Hx as (j & <- & Hj). apply in_seq in Hj. apply H. lia.
Qed.

Lemma sorted_app : forall A B, StronglySorted Rlt A -> StronglySorted Rlt B -> (forall x y, In x A -> In y B -> x < y) ->
  StronglySorted Rlt (A ++ B).
Proof.
  induction A as [|a A IH]; intros B SA SB H; cbn; auto. inversion SA as [|? ? S1 F]; subst. constructor.
  - apply IH; auto. intros x y Hx Hy. apply H; cbn; auto.
  - apply Forall_app. split; auto. apply Forall_forall. intros y Hy. apply H; cbn; auto.
Qed.

Lemma pbl_in : forall lin a x, (2 <= i_n a)%Z -> (lin = false -> 0 < i_lo a) -> i_lo a < i_hi a ->
  In x (points_but_last lin a) -> i_lo a <= x < i_hi a.
Proof.
  intros lin a x Hn H0 H Hx. unfold points_but_last in Hx. apply in_map_iff in Hx as (k & <- & Hk). apply in_seq in Hk.
  split.
  - destruct k as [|k]; [rewrite spaced_first; lra|]. rewrite <- (spaced_first lin (i_lo a) (i_hi a) (i_n a)) at 1.
    left. apply spaced_lt; auto. lia.
  - rewrite <- (spaced_last lin (i_lo a) (i_hi a) (i_n a)) at 2; auto. apply spaced_lt; auto. lia.
Qed.

Lemma points_facts : forall lin l lo hi, tiling lo hi l -> (lin = false -> 0 < lo) ->
  StronglySorted Rlt (all_points lin hi l) /\ (forall x, In x (all_points lin hi l) -> lo <= x <= hi)
  /\ (length (all_points lin hi l) = Z.to_nat (count_points l))
  /\ nth_error (all_points lin hi l) 0 = Some lo.
Proof.
  intros lin. induction l as [|a l IH]; intros lo hi T H0.
  - cbn in T. subst. cbn. split; [repeat constructor|]. split; [|split; reflexivity]. intros x [<-|[]]. lra.
  - pose proof (tiling_le _ _ _ T) as Hle. cbn in T. destruct T as (T1 & T2 & T3 & T4).
    pose proof (tiling_le _ _ _ T4) as Hle2.
    destruct (IH (i_hi a) hi T4) as (S & B & Ln & Fst). { intros L. specialize (H0 L). lra. }
    assert (lin = false -> 0 < i_lo a) as H0a by (rewrite T1; auto).
    unfold all_points in *. cbn [flat_map]. rewrite <- app_assoc. split; [|split; [|split]].
    + apply sorted_app; auto.
      * unfold points_but_last. apply sorted_map_seq. intros i j Hij. apply spaced_lt; auto. lia.
      * intros x y Hx Hy. apply pbl_in in Hx; auto. apply B in Hy. lra.
    + intros x Hx. apply in_app_or in Hx as [Hx|Hx]; [apply pbl_in in Hx; auto; lra|]. apply B in Hx. lra.
    + rewrite app_length, Ln, pbl_len. unfold count_points. rewrite steps_cons.
      assert (0 <= steps_in l)%Z as S0.
      { clear -T4. revert T4. generalize (i_hi a). induction l as [|b l IH]; intros r T; [unfold steps_in; cbn; lia|].
        rewrite steps_cons. cbn in T. destruct T as (_ & _ & Tn & T). apply IH in T. lia. }
      lia.
    + rewrite nth_error_app1 by (rewrite pbl_len; lia). unfold points_but_last.
      destruct (Z.to_nat (i_n a) - 1)%nat eqn:En; [lia|]. cbn. f_equal. rewrite spaced_first. auto.
Qed.

(** ** locate *)

Lemma tiling_order : forall l lo hi i j a b, tiling lo hi l -> (i < j)%nat -> nth_error l i = Some a -> nth_error l j = Some b ->
  i_hi a <= i_lo b.
Proof.
  induction l as [|c l IH]; intros lo hi i j a b T Hij Ha Hb; [destruct i; discriminate|].
  cbn in T. destruct T as (T1 & T2 & T3 & T4). destruct i as [|i], j as [|j]; cbn in Ha, Hb; try lia.
  - inversion Ha; subst c. apply nth_error_In in Hb. pose proof (tiling_in _ _ _ _ T4 Hb). lra.
  - apply (IH _ _ i j a b T4); auto. lia.
Qed.

Lemma tiling_cover : forall l lo hi x, tiling lo hi l -> lo <= x < hi -> exists p a, nth_error l p = Some a /\ contains a x.
Proof.
  unfold contains. induction l as [|c l IH]; intros lo hi x T Hx; cbn in T; [lra|]. destruct T as (T1 & T2 & T3 & T4).
  destruct (Rlt_dec x (i_hi c)).
  - exists 0%nat, c. split; [reflexivity|lra].
  - destruct (IH _ _ x T4) as (p & a & Hp & C); [lra|]. exists (S p), a. auto.
Qed.

Lemma loc_loop_spec : forall fuel x l p a L H lo hi, tiling L H l -> nth_error l p = Some a -> contains a x ->
  (lo <= p < hi)%nat -> (hi <= length l)%nat -> (hi - lo <= fuel)%nat -> loc_loop fuel x l lo hi = Ok p.
Proof.
  unfold contains. induction fuel as [|fuel IH]; intros x l p a L H lo hi T Hp C Hlp Hh Hf; [lia|]. cbn [loc_loop].
  set (mid := Nat.div (lo + hi) 2).
  assert (lo <= mid < hi)%nat as Hm.
  { unfold mid. split; [apply Nat.div_le_lower_bound; lia|apply Nat.div_lt_upper_bound; lia]. }
  destruct (nth_error l mid) as [b|] eqn:Eb; [|apply nth_error_None in Eb; lia].
  destruct (lt_eq_lt_dec mid p) as [[Hlt|He]|Hgt].
  - pose proof (tiling_order _ _ _ _ _ _ _ T Hlt Eb Hp).
    assert (lo < mid)%nat as Hlm. { assert (lo + 2 <= hi)%nat by lia. unfold mid. apply Nat.div_le_lower_bound; lia. }
    assert (In b l) as Ib by (eapply nth_error_In; eauto). pose proof (tiling_in _ _ _ _ T Ib).
    replace (Rleb (i_lo b) x && Rltb x (i_hi b)) with false by (symmetry; apply andb_false_iff; right; apply Rltb_false; lra).
    replace (Rltb x (i_lo b)) with false by (symmetry; apply Rltb_false; lra).
    apply (IH x l p a L H mid hi); auto; lia.
  - subst p. rewrite Eb in Hp. inversion Hp; subst b.
    replace (Rleb (i_lo a) x && Rltb x (i_hi a)) with true; [reflexivity|].
    symmetry. apply andb_true_iff. split; [apply Rleb_spec|apply Rltb_spec]; lra.
  - pose proof (tiling_order _ _ _ _ _ _ _ T Hgt Hp Eb).
    replace (Rleb (i_lo b) x && Rltb x (i_hi b)) with false by (symmetry; apply andb_false_iff; left; apply Rleb_false; lra).
    replace (Rltb x (i_lo b)) with true by (symmetry; apply Rltb_spec; lra).
    apply (IH x l p a L H lo mid); auto; lia.
Qed.

Lemma tiling_last : forall l lo hi a, tiling lo hi l -> nth_error l (length l - 1) = Some a -> i_hi a = hi.
Proof.
  intros l lo hi a T E. destruct (exists_last (l := l)) as (m & b & ->); [intros ->; discriminate|].
  rewrite app_length in E. cbn in E. rewrite Nat.add_sub, nth_error_app2, Nat.sub_diag in E by lia. cbn in E. inversion E; subst.
  apply tiling_app in T as (r & _ & T). cbn in T. tauto.
Qed.

Lemma locate_ok : forall s x, rl_lo s < rl_hi s -> tiling (rl_lo s) (rl_hi s) (rl_il s) -> rl_lo s <= x <= rl_hi s ->
  exists a, locate (length (rl_il s)) x s = Ok a /\ In a (rl_il s) /\ i_lo a <= x <= i_hi a /\ (x < rl_hi s -> x < i_hi a).
Proof.
  intros s x HL T Hx. unfold locate.
  replace (Rltb x (rl_lo s) || Rltb (rl_hi s) x) with false by (symmetry; apply orb_false_iff; split; apply Rltb_false; lra).
  destruct (Reqb x (rl_hi s)) eqn:E; rb.
  - destruct (rl_il s) as [|c l] eqn:El; [cbn in T; lra|]. rewrite <- El in *.
    assert (length (rl_il s) - 1 < length (rl_il s))%nat as Hlen by (rewrite El; cbn; lia).
    destruct (nth_error (rl_il s) (length (rl_il s) - 1)) as [a|] eqn:Ea; [|apply nth_error_None in Ea; lia].
    exists a. split; auto. split; [eapply nth_error_In; eauto|]. pose proof (tiling_last _ _ _ _ T Ea) as EH.
    apply nth_error_In in Ea. pose proof (tiling_in _ _ _ _ T Ea). subst x. split; [lra|]. intros; lra.
  - destruct (tiling_cover _ _ _ x T) as (p & a & Hp & C); [lra|].
    assert (p < length (rl_il s))%nat as Hpl by (apply nth_error_Some; congruence).
    rewrite (loc_loop_spec (length (rl_il s)) x (rl_il s) p a _ _ 0 (length (rl_il s)) T Hp C) by lia.
    rewrite Hp. exists a. split; auto. unfold contains in C. split; [eapply nth_error_In; eauto|]. split; [lra|]. intros; lra.
Qed.

Lemma loc_loop_more : forall fuel k x l lo hi p, loc_loop fuel x l lo hi = Ok p -> loc_loop (fuel + k) x l lo hi = Ok p.
Proof.
  induction fuel as [|fuel IH]; intros k x l lo hi p H; [discriminate|]. cbn [Nat.add loc_loop] in *.
  destruct (nth_error l _); auto. destruct (_ && _); auto. destruct (Rltb x _); auto.
Qed.

(** ** nlocate *)

Lemma cums_nth : forall l acc i a, nth_error l i = Some a ->
  nth_error (cums acc l) i = Some (acc + steps_in (firstn i l) + (i_n a - 1))%Z.
Proof.
  induction l as [|b l IH]; intros acc i a H; [destruct i; discriminate|]. destruct i as [|i]; cbn in H.
  - inversion H; subst. cbn [cums nth_error firstn]. unfold steps_in. cbn [map fold_right]. f_equal. lia.
  - cbn [cums nth_error firstn]. rewrite (IH _ i a H), steps_cons. f_equal. lia.
Qed.

Lemma nth_removelast : forall {A} (l : list A) i, (S i < length l)%nat -> nth_error (removelast l) i = nth_error l i.
Proof.
  intros A l i H. destruct (exists_last (l := l)) as (m & x & ->); [intros ->; cbn in H; lia|].
  rewrite removelast_last. rewrite app_length in H. cbn in H. now rewrite nth_error_app1 by lia.
Qed.

(** Partial sums of points. *)
Definition before (l : list ival) (i : nat) : Z := steps_in (firstn i l).

Lemma before_S : forall l i a, nth_error l i = Some a -> before l (S i) = (before l i + (i_n a - 1))%Z.
Proof.
  unfold before. intros l i a H. destruct (nth_error_split _ _ H) as (l1 & l2 & -> & <-).
  rewrite !firstn_app, Nat.sub_diag, firstn_all. replace (S (length l1) - length l1)%nat with 1%nat by lia.
  rewrite firstn_all2 by lia. cbn [firstn]. rewrite !steps_app. unfold steps_in at 2 4. cbn. lia.
Qed.

Lemma before_all : forall l, before l (length l) = steps_in l.
Proof. intros. unfold before. now rewrite firstn_all. Qed.

Lemma removelast_len : forall {A} (l : list A), length (removelast l) = (length l - 1)%nat.
Proof.
  intros A l. destruct l as [|a l]; [reflexivity|]. destruct (exists_last (l := a :: l)) as (m & x & ->); [discriminate|].
  rewrite removelast_last, app_length. cbn. lia.
Qed.

Lemma cum_nth : forall l i a, nth_error l i = Some a ->
  nth_error (cum_of l) i = Some (if Nat.eqb (S i) (length l) then count_points l else before l (S i)).
Proof.
  intros l i a H. assert (i < length l)%nat as Hi by (apply nth_error_Some; congruence). unfold cum_of.
  destruct (Nat.eqb_spec (S i) (length l)) as [E|N].
  - rewrite nth_error_app2 by (rewrite removelast_len, cums_len; lia).
    rewrite removelast_len, cums_len. replace (i - (length l - 1))%nat with 0%nat by lia. reflexivity.
  - rewrite nth_error_app1 by (rewrite removelast_len, cums_len; lia).
    rewrite nth_removelast by (rewrite cums_len; lia). rewrite (cums_nth l 0 i a H), (before_S l i a H). unfold before. f_equal.
Qed.

Lemma before_le : forall l i j, Forall (fun a => (2 <= i_n a)%Z) l -> (i <= j <= length l)%nat -> (before l i <= before l j)%Z.
Proof.
  intros l i j F H. induction j as [|j IH]; [replace i with 0%nat by lia; lia|].
  destruct (Nat.eq_dec i (S j)) as [->|N]; [lia|].
  destruct (nth_error l j) as [a|] eqn:E; [|apply nth_error_None in E; lia].
  rewrite (before_S l j a E). rewrite Forall_forall in F. pose proof (F a (nth_error_In _ _ E)). specialize (IH ltac:(lia)). lia.
Qed.

Lemma nloc_loop_spec : forall fuel n l p lo hi, Forall (fun a => (2 <= i_n a)%Z) l ->
  (before l p <= n < before l (S p))%Z -> (p < length l)%nat ->
  (lo <= p <= hi)%nat -> (hi <= length l)%nat -> (hi - lo <= fuel)%nat ->
  nloc_loop fuel n (cum_of l) lo hi = Ok p.
Proof.
  induction fuel as [|fuel IH]; intros n l p lo hi F Hn Hp Hlp Hh Hf; cbn [nloc_loop].
  - replace (Nat.ltb lo hi) with false by (symmetry; apply Nat.ltb_ge; lia). f_equal. lia.
  - destruct (Nat.ltb_spec lo hi) as [H|H]; [|f_equal; lia]. set (mid := Nat.div (lo + hi) 2).
    assert (lo <= mid < hi)%nat as Hm.
    { unfold mid. split; [apply Nat.div_le_lower_bound; lia|apply Nat.div_lt_upper_bound; lia]. }
    destruct (nth_error l mid) as [a|] eqn:Ea; [|apply nth_error_None in Ea; lia].
    rewrite (cum_nth l mid a Ea).
    assert (before l (length l) = steps_in l) as BA by apply before_all.
    destruct (le_lt_dec p mid) as [Hle|Hlt].
    + assert (before l (S p) <= before l (S mid))%Z by (apply before_le; auto; lia).
      replace (Z.ltb _ (n + 1)) with false; [apply IH; auto; lia|]. symmetry. apply Z.ltb_ge.
      destruct (Nat.eqb_spec (S mid) (length l)) as [E|N]; [|lia]. unfold count_points. rewrite E in H0. lia.
    + assert (before l (S mid) <= before l p)%Z by (apply before_le; auto; lia).
      destruct (Nat.eqb_spec (S mid) (length l)) as [E|N]; [lia|].
      replace (Z.ltb (before l (S mid)) (n + 1)) with true by (symmetry; apply Z.ltb_lt; lia). apply IH; auto; lia.
Qed.

Lemma find_point : forall l n, Forall (fun a => (2 <= i_n a)%Z) l -> (0 <= n < steps_in l)%Z ->
  exists p, (p < length l)%nat /\ (before l p <= n < before l (S p))%Z.
Proof.
  intros l n F Hn. rewrite <- before_all in Hn.
  assert (forall m, (m <= length l)%nat -> (n < before l m)%Z -> exists p, (p < length l)%nat /\ (before l p <= n < before l (S p))%Z) as G.
  { induction m as [|m IH]; intros Hm H; [unfold before in H; cbn in H; lia|].
    destruct (Z_le_dec (before l m) n); [exists m; split; [lia|lia]|apply IH; lia]. }
  apply (G (length l)); lia.
Qed.

Lemma points_nth : forall lin l lo hi p a k, tiling lo hi l -> nth_error l p = Some a -> (0 <= k < i_n a - 1)%Z ->
  nth_error (all_points lin hi l) (Z.to_nat (before l p + k)) = Some (spaced lin (i_lo a) (i_hi a) (i_n a) k).
Proof.
  intros lin. induction l as [|b l IH]; intros lo hi p a k T H Hk; [destruct p; discriminate|].
  cbn in T. destruct T as (T1 & T2 & T3 & T4). unfold all_points. cbn [flat_map]. rewrite <- app_assoc.
  destruct p as [|p]; cbn in H.
  - inversion H; subst b. unfold before. cbn [firstn]. unfold steps_in. cbn [map fold_right].
    rewrite nth_error_app1 by (rewrite pbl_len; lia). unfold points_but_last.
    replace (0 + k)%Z with k by lia. pose proof (map_nth_error (fun k0 : nat => spaced lin (i_lo a) (i_hi a) (i_n a) (Z.of_nat k0)) (Z.to_nat k) (seq 0 (Z.to_nat (i_n a) - 1))) as MN.
    rewrite (MN (Z.to_nat k)); [rewrite Z2Nat.id by lia; reflexivity|].
    rewrite (nth_error_nth' _ 0%nat) by (rewrite seq_length; lia). rewrite seq_nth by lia. reflexivity.
  - assert (before (b :: l) (S p) = i_n b - 1 + before l p)%Z as EB by reflexivity. rewrite EB.
    assert (0 <= before l p)%Z as B0.
    { unfold before. clear -T4. revert p T4. generalize (i_hi b). induction l as [|c l IH]; intros r p T; [rewrite firstn_nil; unfold steps_in; cbn; lia|].
      destruct p; [unfold steps_in; cbn; lia|]. cbn [firstn]. rewrite steps_cons. cbn in T. destruct T as (_ & _ & Tn & T). specialize (IH _ p T). lia. }
    rewrite nth_error_app2 by (rewrite pbl_len; lia). rewrite pbl_len.
    replace (Z.to_nat (i_n b - 1 + before l p + k) - (Z.to_nat (i_n b) - 1))%nat with (Z.to_nat (before l p + k)) by lia.
    apply (IH (i_hi b) hi p a k T4 H Hk).
Qed.

Lemma nlocate_ok : forall s n, inv s -> (0 <= n < rl_npts s)%Z ->
  exists i k a, nlocate (length (rl_il s)) n s = Ok (i, k, a) /\ nth_error (rl_il s) i = Some a /\ (0 <= k < i_n a)%Z
    /\ n = (before (rl_il s) i + k)%Z /\ (n < rl_npts s - 1 -> k < i_n a - 1)%Z
    /\ nth_error (all_points (rl_lin s) (rl_hi s) (rl_il s)) (Z.to_nat n) = Some (spaced (rl_lin s) (i_lo a) (i_hi a) (i_n a) k).
Proof.
  intros s n I Hn. pose proof (inv_tiling s I) as T. pose proof (inv_npts s I) as EN.
  assert (Forall (fun a => (2 <= i_n a)%Z) (rl_il s)) as F.
  { pose proof (inv_ok s I) as F. rewrite Forall_forall in *. intros a Ha. apply (F a Ha). }
  assert (rl_il s <> []) as NE. { intros E. rewrite E in T. cbn in T. pose proof (inv_lohi s I). lra. }
  assert (1 <= length (rl_il s))%nat as L1 by (destruct (rl_il s); [congruence|cbn; lia]).
  unfold nlocate. replace (Z.ltb n 0 || Z.ltb (rl_npts s - 1) n) with false by (symmetry; apply orb_false_iff; split; apply Z.ltb_ge; lia).
  destruct (Z.eqb_spec n (rl_npts s - 1)) as [E|N].
  - destruct (nth_error (rl_il s) (length (rl_il s) - 1)) as [a|] eqn:Ea; [|apply nth_error_None in Ea; lia].
    exists (length (rl_il s) - 1)%nat, (i_n a - 1)%Z, a. split; [reflexivity|]. split; [exact Ea|].
    rewrite Forall_forall in F. pose proof (nth_error_In _ _ Ea) as Ia. pose proof (F a Ia). split; [lia|].
    assert (n = before (rl_il s) (length (rl_il s) - 1) + (i_n a - 1))%Z as En.
    { rewrite <- (before_S _ _ _ Ea). replace (S (length (rl_il s) - 1)) with (length (rl_il s)) by lia.
      rewrite before_all. unfold count_points in EN. lia. }
    split; [exact En|]. split; [intros Hlt; lia|].
    assert (rl_lin s = false -> 0 < i_lo a) as H0.
    { intros L. pose proof (inv_pos s I L). pose proof (tiling_in _ _ _ _ T Ia). lra. }
    rewrite spaced_last; auto; [|apply (tiling_in _ _ _ _ T Ia)]. rewrite (tiling_last _ _ _ _ T Ea).
    destruct (points_facts (rl_lin s) (rl_il s) _ _ T (inv_pos s I)) as (_ & _ & Ln & _). unfold all_points in *.
    rewrite app_length in Ln. cbn [length] in Ln. rewrite nth_error_app2 by lia.
    replace (Z.to_nat n - _)%nat with 0%nat by lia. reflexivity.
  - destruct (find_point (rl_il s) n F) as (p & Hp & Hb); [unfold count_points in EN; lia|].
    rewrite (inv_cum s I). rewrite (nloc_loop_spec (length (rl_il s)) n (rl_il s) p 0 (length (rl_il s))); auto; try lia.
    destruct (nth_error (rl_il s) p) as [a|] eqn:Ea; [|apply nth_error_None in Ea; lia].
    rewrite (before_S _ _ _ Ea) in Hb.
    assert (exists r, r = Ok (p, (n - before (rl_il s) p)%Z, a) /\
      r = match p with 0%nat => match nth_error (rl_il s) 0 with Some iv => Ok (0%nat, n, iv) | None => Err IndexError end
          | S i => match nth_error (cum_of (rl_il s)) i with
                   | Some k => match nth_error (rl_il s) (S i) with Some iv => Ok (S i, (n - k)%Z, iv) | None => Err IndexError end
                   | None => Err IndexError end end) as (r & E1 & E2).
    { eexists. split; [reflexivity|]. destruct p as [|p].
      - rewrite Ea. unfold before. cbn [firstn]. unfold steps_in. cbn [map fold_right]. now rewrite Z.sub_0_r.
      - destruct (nth_error (rl_il s) p) as [c|] eqn:Ec; [|apply nth_error_None in Ec; lia].
        rewrite (cum_nth _ _ _ Ec). replace (Nat.eqb (S p) (length (rl_il s))) with false by (symmetry; apply Nat.eqb_neq; lia).
        rewrite Ea. reflexivity. }
    exists p, (n - before (rl_il s) p)%Z, a. rewrite <- E1, E2. split; [reflexivity|]. split; [exact Ea|]. split; [lia|]. split; [lia|]. split; [lia|].
    rewrite <- (points_nth (rl_lin s) (rl_il s) _ _ p a _ T Ea) by lia. do 2 f_equal. lia.
Qed.
