(** Stepping over the real numbers. *)

From Coq Require Import ZArith List Bool Arith Lia Reals Lra.
From Verif Require Import Exn PieModel PieSpec PieLemmas PieLemmas2 PieGridModel PieGridSpec
  PieGridLemmas PieGridLemmas2 PieKeep Instances PieRealSpec.
Import ListNotations.
Open Scope exn_scope.
Open Scope R_scope.

Notation state := (st numR).

Record on_lattice (f : Z -> R) (n : Z) (h : pst numR) : Prop := {
  ol_status : p_status h = Stepping;
  ol_steps : p_steps h = Some n;
  ol_val : exists k, p_num h = Some k /\ (0 <= k < n)%Z /\ p_value h = Some (f k);
  ol_slo : p_slo h = Some (f 0%Z);
  ol_shi : p_shi h = Some (f (n - 1)%Z);
  ol_step : match p_stype h with
            | Some LinSteps => exists d, p_delta h = Some d /\ forall k, f (k + 1)%Z = f k + d
            | Some LogSteps => exists c, p_fac h = Some c /\ c <> 0 /\ forall k, f (k + 1)%Z = f k * c
            | None => False
            end
}.

Lemma lattice_rewind : forall f n h, on_lattice f n h -> on_lattice f n (rewind h).
Proof.
  intros f n h [A B (k & K1 & K2 & K3) D E F]. unfold rewind. rewrite D.
  constructor; cbn; auto. exists 0%Z. repeat split; auto; lia.
Qed.

Lemma lattice_move : forall f n h k, on_lattice f n h -> (0 <= k < n)%Z ->
  on_lattice f n (with_value (f k : numR) (with_num k h)).
Proof.
  intros f n h k [A B C D E F] Hk. constructor; cbn; auto. exists k. auto.
Qed.

Lemma lattice_next : forall f n (s : state) p k, on_lattice f n (ps s p) ->
  p_num (ps s p) = Some k ->
  (k < n - 1 -> exists s', p_next_step p s = (s', Ok tt) /\ moved s p (k + 1) (f (k + 1)%Z) s')%Z
  /\ (k = (n - 1)%Z -> p_next_step p s = (s, Err ParamRangeError)).
Proof.
  intros f n s p k L Hk. destruct L as [A B (k' & K1 & K2 & K3) D E F].
  assert (k' = k) by congruence. subst k'. split.
  - intros Hl. destruct (p_next_ok p s n k (f k)) as (s' & v' & E1 & M & NV); auto; try lia.
    + split; [exists n; split; auto; lia|]. destruct (p_stype (ps s p)) as [[]|]; auto.
      * destruct F as (d & -> & _). discriminate.
      * destruct F as (d & -> & _). discriminate.
    + rewrite E. discriminate.
    + exists s'. split; [exact E1|].
      assert (v' = f (k + 1)%Z) as ->; [|exact M].
      unfold next_value in NV. destruct (Z.eqb_spec (k + 1) (n - 1)) as [Ek|].
      * rewrite E in NV. rewrite Ek. congruence.
      * destruct (p_stype (ps s p)) as [[]|]; [| |contradiction].
        -- destruct NV as (d & Ed & ->). destruct F as (d' & Ed' & F). rewrite F.
           assert (d = d') by congruence. now subst.
        -- destruct NV as (d & Ed & ->). destruct F as (d' & Ed' & _ & F). rewrite F.
           assert (d = d') by congruence. now subst.
  - intros ->. eapply p_next_end; eauto.
Qed.

Lemma lattice_prev : forall f n (s : state) p k, on_lattice f n (ps s p) ->
  p_num (ps s p) = Some k ->
  (0 < k -> exists s', p_prev_step p s = (s', Ok tt) /\ moved s p (k - 1) (f (k - 1)%Z) s')%Z
  /\ (k = 0%Z -> p_prev_step p s = (s, Err ParamRangeError)).
Proof.
  intros f n s p k L Hk. destruct L as [A B (k' & K1 & K2 & K3) D E F].
  assert (k' = k) by congruence. subst k'. split.
  - intros Hl. destruct (p_prev_ok p s k (f k)) as (s' & v' & E1 & M & NV); auto; try lia.
    + split; [exists n; split; auto; lia|]. destruct (p_stype (ps s p)) as [[]|]; auto.
      * destruct F as (d & -> & _). discriminate.
      * destruct F as (d & -> & _). discriminate.
    + rewrite D. discriminate.
    + exists s'. split; [exact E1|].
      assert (v' = f (k - 1)%Z) as ->; [|exact M].
      unfold prev_value in NV. destruct (Z.eqb_spec (k - 1) 0) as [Ek|].
      * rewrite D in NV. rewrite Ek. congruence.
      * destruct (p_stype (ps s p)) as [[]|]; [| |contradiction].
        -- destruct NV as (d & Ed & ->). destruct F as (d' & Ed' & F).
           assert (d = d') by congruence. subst.
           assert (H := F (k - 1)%Z). replace (k - 1 + 1)%Z with k in H by lia. cbn. lra.
        -- destruct NV as (d & Ed & ->). destruct F as (d' & Ed' & Hd & F).
           assert (d = d') by congruence. subst.
           assert (H := F (k - 1)%Z). replace (k - 1 + 1)%Z with k in H by lia. cbn.
           rewrite H. now field.
  - intros ->. now apply p_prev_end.
Qed.

Lemma moved_ps : forall (s : state) p k v s', moved s p k v s' ->
  ps s' p = with_value v (with_num k (ps s p)).
Proof. intros. rewrite (mv_ps _ _ _ _ _ H). apply upd_same. Qed.

Section Lattice.
Variable (f : Z -> R) (n : Z) (p : nat) (dflt : nat -> option numR).
Let P := on_lattice f n.

Lemma keep_next : keeps p P (p_next_step p).
Proof.
  intros s I L. split; [apply (p_next_good p s s I (track_refl _ _))|].
  destruct (ol_val _ _ _ L) as (k & K1 & K2 & K3).
  destruct (lattice_next f n s p k L K1) as [A B].
  destruct (Z.eq_dec k (n - 1)) as [E|E].
  - rewrite (B E). exact L.
  - destruct A as (s' & E1 & M); [lia|]. rewrite E1. cbn. rewrite (moved_ps _ _ _ _ _ M).
    apply lattice_move; auto; lia.
Qed.
Lemma keep_prev : keeps p P (p_prev_step p).
Proof.
  intros s I L. split; [apply (p_prev_good p s s I (track_refl _ _))|].
  destruct (ol_val _ _ _ L) as (k & K1 & K2 & K3).
  destruct (lattice_prev f n s p k L K1) as [A B].
  destruct (Z.eq_dec k 0) as [E|E].
  - rewrite (B E). exact L.
  - destruct A as (s' & E1 & M); [lia|]. rewrite E1. cbn. rewrite (moved_ps _ _ _ _ _ M).
    apply lattice_move; auto; lia.
Qed.
Lemma keep_first : keeps p P (first_step p).
Proof.
  intros s I L. split; [apply (first_good p s s I (track_refl _ _))|].
  destruct (first_step_eq p s (f 0%Z)) as (s' & E & F & _); try apply L.
  rewrite E. cbn. rewrite F, upd_same.
  destruct (ol_val _ _ _ L) as (k & K1 & K2 & K3). apply lattice_move; auto; lia.
Qed.
Lemma keep_last : keeps p P (last_step p).
Proof.
  intros s I L. split; [apply (last_good p s s I (track_refl _ _))|].
  destruct (ol_val _ _ _ L) as (k & K1 & K2 & K3).
  unfold last_step, bind, hnd. rewrite (ol_status _ _ _ L), (ol_steps _ _ _ L).
  cbn [status_eqb]. unfold attr, put, modify. rewrite (ol_shi _ _ _ L), set_value__eq. cbn. rewrite !upd_same.
  apply lattice_move; auto; lia.
Qed.
Lemma keep_sv : forall v, keeps p P (set_value p v).
Proof.
  intros v s I L. unfold set_value, bind, hnd. rewrite (ol_status _ _ _ L). cbn. now split.
Qed.
Lemma keep_us : forall v, keeps p P (unbounded_set p v).
Proof.
  intros v s I L. unfold unbounded_set, bind, hnd. rewrite (ol_status _ _ _ L). cbn. now split.
Qed.
Lemma access_here : forall s : state, P (ps s p) -> access dflt p s = (s, Ok tt).
Proof.
  intros s L. unfold access, bind, hnd. destruct (ol_val _ _ _ L) as (k & _ & _ & ->). reflexivity.
Qed.
Lemma keep_sp : forall pv, keeps p P (set_params dflt [p] pv).
Proof.
  intros v s I L. unfold set_params. cbn [for_each]. rewrite bind_ret_tt.
  rewrite (bind_ok _ _ _ _ _ _ _ _ (access_here s L)).
  unfold bind, hnd. rewrite (ol_status _ _ _ L). cbn. now split.
Qed.
Lemma keep_via : forall m : M numR unit, keeps p P m -> keeps p P (access dflt p;;; m).
Proof.
  intros m K s I L. rewrite (bind_ok _ _ _ _ _ _ _ _ (access_here s L)). now apply K.
Qed.

Lemma keep_op : forall o, target o = Some p -> leaves_steps p o -> keeps p P (run_op dflt o).
Proof.
  intros o T A. destruct o; cbn in T, A; try discriminate; injection T as ->; cbn [run_op];
    try congruence; try (apply keep_via).
  - intros s I L. rewrite access_here by exact L. now split.
  - apply keep_sv.
  - intros s I L.
    assert (D : defined s p) by (unfold defined; rewrite (ol_status _ _ _ L); discriminate).
    split; [apply (range_good p s s a b I (track_refl _ _) D)|].
    unfold range, put, modify. cbn. rewrite upd_same. destruct L. constructor; auto.
  - apply keep_next.
  - apply keep_prev.
  - apply keep_first.
  - apply keep_last.
  - apply keep_us.
  - intros s I L.
    assert (D : defined s p) by (unfold defined; rewrite (ol_status _ _ _ L); discriminate).
    split; [now apply add_listener_good|].
    unfold add_listener, bind, hnd, put, modify.
    destruct (existsb _ _); [exact L|]. cbn. rewrite upd_same. destruct L. constructor; auto.
  - intros s I L. now split.
Qed.

Lemma lattice_run : forall l s, Forall (leaves_steps p) l -> Inv s -> P (ps s p) ->
  Inv (run dflt l s) /\ P (ps (run dflt l s) p).
Proof.
  apply (keeps_run p P).
  - intros h L _. now apply lattice_rewind.
  - apply keep_op.
  - apply keep_next.
  - apply keep_prev.
  - apply keep_sv.
  - apply keep_us.
  - apply keep_sp.
Qed.
Lemma lattice_run_op : forall o s, leaves_steps p o -> Inv s -> P (ps s p) ->
  P (ps (fst (run_op dflt o s)) p).
Proof. intros o s A I L. apply (lattice_run [o] s); auto. Qed.
End Lattice.

(** ** Linear and logarithmic lattices *)
Lemma lin_lattice : forall (h : pst numR) (a b : R) n, (2 <= n)%Z ->
  on_lattice (lin_value a b n) n (lin_handler h (a : numR) b n).
Proof.
  intros h a b n Hn.
  assert (Hz : IZR (n - 1) <> 0) by (apply not_0_IZR; lia).
  constructor; cbn; auto.
  - exists 0%Z. repeat split; try lia. f_equal. unfold lin_value. field. exact Hz.
  - f_equal. unfold lin_value. field. exact Hz.
  - f_equal. unfold lin_value. field. exact Hz.
  - eexists. split; [reflexivity|]. intros k. unfold lin_value. rewrite plus_IZR. field. exact Hz.
Qed.

Lemma log_value_0 : forall a b n, 0 < a * b -> log_value a b n 0 = a.
Proof.
  intros a b n H. unfold log_value, Rpower.
  replace (IZR 0 / IZR (n - 1) * ln (b / a)) with 0 by (unfold Rdiv; ring).
  rewrite exp_0. ring.
Qed.
Lemma same_sign_div : forall a b, 0 < a * b -> 0 < b / a.
Proof.
  intros a b H.
  assert (a <> 0) by (intros ->; lra).
  replace (b / a) with ((a * b) * (/ a * / a)) by (field; auto).
  apply Rmult_lt_0_compat; auto.
  assert (/ a <> 0) by now apply Rinv_neq_0_compat.
  destruct (Rlt_dec 0 (/ a)); [now apply Rmult_lt_0_compat|].
  assert (0 < - / a) by lra.
  replace (/ a * / a) with ((- / a) * (- / a)) by ring. now apply Rmult_lt_0_compat.
Qed.
Lemma log_value_end : forall a b n, 0 < a * b -> (2 <= n)%Z -> log_value a b n (n - 1) = b.
Proof.
  intros a b n H Hn. unfold log_value, Rpower.
  assert (Hz : IZR (n - 1) <> 0) by (apply not_0_IZR; lia).
  replace (IZR (n - 1) / IZR (n - 1) * ln (b / a)) with (ln (b / a)) by (field; auto).
  rewrite exp_ln by now apply same_sign_div. field. intros ->; lra.
Qed.
Lemma log_value_step : forall a b n k, (2 <= n)%Z ->
  log_value a b n (k + 1) = log_value a b n k * exp (ln (b / a) / IZR (n - 1)).
Proof.
  intros a b n k Hn. unfold log_value, Rpower.
  assert (Hz : IZR (n - 1) <> 0) by (apply not_0_IZR; lia).
  rewrite Rmult_assoc, <- exp_plus. do 2 f_equal. rewrite plus_IZR. field. exact Hz.
Qed.

Lemma log_lattice : forall (h : pst numR) (a b : R) n, (2 <= n)%Z -> 0 < a * b ->
  on_lattice (log_value a b n) n (log_handler h (a : numR) b n).
Proof.
  intros h a b n Hn H. constructor; cbn; auto.
  - exists 0%Z. repeat split; try lia. f_equal. now rewrite log_value_0.
  - f_equal. now rewrite log_value_0.
  - f_equal. now rewrite log_value_end.
  - eexists. split; [reflexivity|]. split; [pose proof (exp_pos (ln (b / a) / IZR (n - 1))); lra|].
    intros k. now apply log_value_step.
Qed.

Lemma linop_lattice : forall dflt (s s0 : state) p lo hi n, Inv s ->
  run_op dflt (OLinStep p (Some lo) (Some hi) n) s = (s0, Ok tt) -> (2 <= n)%Z ->
  Inv s0 /\ on_lattice (lin_value lo hi n) n (ps s0 p) /\ at_step s0 p 0 lo /\ at_start s0.
Proof.
  intros dflt s s0 p lo hi n I H Hn. cbn [run_op] in H.
  destruct (access_good p s dflt s I (track_refl _ _)) as [I1 _].
  pose proof (access_ok_defined p dflt s) as HD.
  unfold bind in H. destruct (access dflt p s) as [s1 [[]|e]]; cbn [fst] in *; [|discriminate].
  destruct (linstep_ok s1 s0 p _ _ n I1 (HD s1 I eq_refl) H) as (a & b & Ea & Eb & _ & _ & _ & SS).
  injection Ea as <-. injection Eb as <-.
  split; [apply SS|]. rewrite (sst_p _ _ _ _ SS). split; [now apply lin_lattice|].
  split; [|apply SS]. unfold at_step. rewrite (sst_p _ _ _ _ SS). repeat split.
Qed.

Lemma logop_lattice : forall dflt (s s0 : state) p lo hi n, Inv s ->
  run_op dflt (OLogStep p (Some lo) (Some hi) n) s = (s0, Ok tt) -> (2 <= n)%Z ->
  0 < lo * hi /\ Inv s0 /\ on_lattice (log_value lo hi n) n (ps s0 p) /\ at_step s0 p 0 lo
  /\ at_start s0.
Proof.
  intros dflt s s0 p lo hi n I H Hn. cbn [run_op] in H.
  destruct (access_good p s dflt s I (track_refl _ _)) as [I1 _].
  pose proof (access_ok_defined p dflt s) as HD.
  unfold bind in H. destruct (access dflt p s) as [s1 [[]|e]]; cbn [fst] in *; [|discriminate].
  destruct (logstep_ok s1 s0 p _ _ n I1 (HD s1 I eq_refl) H)
    as (a & b & l & u & Ea & Eb & _ & _ & Hm & Ha & -> & Hu & SS).
  injection Ea as <-. injection Eb as <-.
  cbn in Hm, Ha, Hu. apply Rleb_false in Hm.
  assert (Hp : 0 < lo * hi) by lra.
  assert (u = hi) as ->. { apply Hu. apply Reqb_false. intros ->. lra. }
  split; [exact Hp|]. split; [apply SS|]. rewrite (sst_p _ _ _ _ SS).
  split; [now apply log_lattice|].
  split; [|apply SS]. unfold at_step. rewrite (sst_p _ _ _ _ SS). repeat split.
Qed.

(** next then prev restores everything but the log *)
Lemma lattice_next_prev : forall f n dflt (s s1 : state) p, Inv s -> on_lattice f n (ps s p) ->
  run_op dflt (ONext p) s = (s1, Ok tt) ->
  exists s2, run_op dflt (OPrev p) s1 = (s2, Ok tt) /\ same_state s s2.
Proof.
  intros f n dflt s s1 p I L H. cbn [run_op] in *.
  rewrite (bind_ok _ _ _ _ _ _ _ _ (access_here f n p dflt s L)) in H.
  destruct (ol_val _ _ _ L) as (k & K1 & K2 & K3).
  destruct (lattice_next f n s p k L K1) as [A B].
  destruct (Z.eq_dec k (n - 1)) as [E|E]; [rewrite (B E) in H; discriminate|].
  destruct A as (s' & E1 & M); [lia|]. rewrite E1 in H. injection H as ->.
  assert (L1 : on_lattice f n (ps s1 p)).
  { rewrite (moved_ps _ _ _ _ _ M). apply lattice_move; auto; lia. }
  rewrite (bind_ok _ _ _ _ _ _ _ _ (access_here f n p dflt s1 L1)).
  assert (Hk1 : p_num (ps s1 p) = Some (k + 1)%Z) by now rewrite (moved_ps _ _ _ _ _ M).
  destruct (lattice_prev f n s1 p (k + 1)%Z L1 Hk1) as [A' _].
  destruct A' as (s2 & E2 & M2); [lia|]. exists s2. split; [exact E2|].
  replace (k + 1 - 1)%Z with k in M2 by lia.
  constructor.
  - intros q. rewrite (mv_ps _ _ _ _ _ M2), (moved_ps _ _ _ _ _ M). unfold upd.
    destruct (Nat.eqb_spec q p) as [->|Hq].
    + destruct (ps s p); cbn in *. now subst.
    + rewrite (mv_ps _ _ _ _ _ M). now apply upd_other.
  - rewrite (mv_f _ _ _ _ _ M2). apply M.
  - rewrite (mv_v _ _ _ _ _ M2). apply M.
  - rewrite (mv_s _ _ _ _ _ M2). apply M.
  - intros q. rewrite (mv_i _ _ _ _ _ M2). now rewrite (mv_i _ _ _ _ _ M).
Qed.

(** index bookkeeping of a step *)
Lemma lattice_ops : forall f n dflt (s : state) p k, Inv s -> on_lattice f n (ps s p) ->
  p_num (ps s p) = Some k ->
  (if (k <? n - 1)%Z
   then exists s', run_op dflt (ONext p) s = (s', Ok tt) /\ at_step s' p (k + 1) (f (k + 1)%Z)
   else run_op dflt (ONext p) s = (s, Err ParamRangeError))
  /\ (if (0 <? k)%Z
   then exists s', run_op dflt (OPrev p) s = (s', Ok tt) /\ at_step s' p (k - 1) (f (k - 1)%Z)
   else run_op dflt (OPrev p) s = (s, Err ParamRangeError))
  /\ (exists s', run_op dflt (OFirst p) s = (s', Ok tt) /\ at_step s' p 0 (f 0%Z))
  /\ (exists s', run_op dflt (OLast p) s = (s', Ok tt) /\ at_step s' p (n - 1) (f (n - 1)%Z)).
Proof.
  intros f n dflt s p k I L Hk. cbn [run_op].
  pose proof (access_here f n p dflt s L) as Ac.
  rewrite !(bind_ok _ _ _ _ _ _ _ _ Ac).
  destruct (ol_val _ _ _ L) as (k' & K1 & K2 & K3).
  assert (k' = k) by congruence. subst k'.
  assert (Mv : forall k v s', moved s p k v s' -> at_step s' p k v).
  { intros k' v s' M. unfold at_step. rewrite (moved_ps _ _ _ _ _ M). cbn.
    repeat split. apply L. }
  split; [|split; [|split]].
  - destruct (lattice_next f n s p k L Hk) as [A B].
    destruct (Z.ltb_spec k (n - 1)).
    + destruct A as (s' & E & M); eauto.
    + apply B. lia.
  - destruct (lattice_prev f n s p k L Hk) as [A B].
    destruct (Z.ltb_spec 0 k).
    + destruct A as (s' & E & M); eauto.
    + apply B. lia.
  - destruct (first_step_eq p s (f 0%Z)) as (s' & E & F & _); try apply L.
    exists s'. split; [exact E|]. unfold at_step. rewrite F, upd_same. cbn.
    repeat split. apply L.
  - eexists. split.
    + unfold last_step, bind, hnd. rewrite (ol_status _ _ _ L), (ol_steps _ _ _ L).
      cbn [status_eqb]. unfold attr, put, modify. rewrite (ol_shi _ _ _ L), set_value__eq. reflexivity.
    + unfold at_step. cbn. rewrite !upd_same. cbn. repeat split. apply L.
Qed.
