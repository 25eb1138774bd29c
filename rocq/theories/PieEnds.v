(** The ends of stepped parameters are exact, whatever the arithmetic. *)

From Coq Require Import ZArith List Bool Arith Lia.
From Verif Require Import Exn PieModel PieSpec PieLemmas PieLemmas2 PieGridModel PieGridSpec
  PieGridLemmas PieGridLemmas2 PieKeep PieExact PieSession.
Import ListNotations.
Open Scope exn_scope.

Section Gen.
Context {N : num}.
Notation state := (st N).

Record ends (lo hi : N) (n : Z) (h : pst N) : Prop := {
  en_status : p_status h = Stepping;
  en_steps : p_steps h = Some n;
  en_val : exists k v, p_num h = Some k /\ p_value h = Some v /\ (0 <= k < n)%Z
     /\ (k = 0%Z -> v = lo) /\ (k = (n - 1)%Z -> v = hi);
  en_slo : p_slo h = Some lo;
  en_shi : p_shi h = Some hi;
  en_step : match p_stype h with
            | Some LinSteps => p_delta h <> None
            | Some LogSteps => p_fac h <> None
            | None => False
            end
}.

Variables (lo hi : N) (n : Z) (p : nat) (dflt : nat -> option N).
Hypothesis Hn : (2 <= n)%Z.
Let P := ends lo hi n.

Lemma ends_move : forall h k v, P h -> (0 <= k < n)%Z ->
  (k = 0%Z -> v = lo) -> (k = (n - 1)%Z -> v = hi) -> P (with_value v (with_num k h)).
Proof.
  intros h k v [A B C D E F] Hk H0 H1. constructor; cbn; auto. exists k, v. auto.
Qed.
Lemma ends_rewind : forall h, P h -> P (rewind h).
Proof.
  intros h H. unfold rewind. rewrite (en_slo _ _ _ _ H). apply ends_move; auto; lia.
Qed.
Lemma ends_moved : forall (s : state) k v s', moved s p k v s' ->
  ps s' p = with_value v (with_num k (ps s p)).
Proof. intros. rewrite (mv_ps _ _ _ _ _ H). apply upd_same. Qed.

Lemma ends_next : keeps p P (p_next_step p).
Proof.
  intros s I L. split; [apply (p_next_good p s s I (track_refl _ _))|].
  destruct (en_val _ _ _ _ L) as (k & v & K1 & K2 & K3 & _).
  destruct (Z.eq_dec k (n - 1)) as [->|Ek].
  - rewrite (p_next_end p s n (n - 1)); auto; apply L.
  - destruct (p_next_ok p s n k v) as (s' & v' & E1 & M & NV); auto; try apply L; try lia.
    + split; [exists n; split; [apply L|lia]|]. exact (en_step _ _ _ _ L).
    + rewrite (en_shi _ _ _ _ L). discriminate.
    + rewrite E1. cbn [fst]. rewrite (ends_moved _ _ _ _ M). apply ends_move; auto; try lia.
      intros E. unfold next_value in NV. destruct (Z.eqb_spec (k + 1) (n - 1)); [|contradiction].
      rewrite (en_shi _ _ _ _ L) in NV. congruence.
Qed.
Lemma ends_prev : keeps p P (p_prev_step p).
Proof.
  intros s I L. split; [apply (p_prev_good p s s I (track_refl _ _))|].
  destruct (en_val _ _ _ _ L) as (k & v & K1 & K2 & K3 & _).
  destruct (Z.eq_dec k 0) as [->|Ek].
  - rewrite (p_prev_end p s); auto; apply L.
  - destruct (p_prev_ok p s k v) as (s' & v' & E1 & M & NV); auto; try apply L; try lia.
    + split; [exists n; split; [apply L|lia]|]. exact (en_step _ _ _ _ L).
    + rewrite (en_slo _ _ _ _ L). discriminate.
    + rewrite E1. cbn [fst]. rewrite (ends_moved _ _ _ _ M). apply ends_move; auto; try lia.
      intros E. unfold prev_value in NV. destruct (Z.eqb_spec (k - 1) 0); [|contradiction].
      rewrite (en_slo _ _ _ _ L) in NV. congruence.
Qed.
Lemma ends_first : keeps p P (first_step p).
Proof.
  intros s I L. split; [apply (first_good p s s I (track_refl _ _))|].
  destruct (first_step_eq p s lo) as (s' & E & F & _); try apply L.
  rewrite E. cbn. rewrite F, upd_same. apply ends_move; auto; lia.
Qed.
Lemma ends_last : keeps p P (last_step p).
Proof.
  intros s I L. split; [apply (last_good p s s I (track_refl _ _))|].
  unfold last_step, bind, hnd. rewrite (en_status _ _ _ _ L), (en_steps _ _ _ _ L).
  cbn [status_eqb]. unfold attr, put, modify. rewrite (en_shi _ _ _ _ L), set_value__eq.
  cbn. rewrite !upd_same. apply ends_move; auto; lia.
Qed.
Lemma ends_sv : forall v, keeps p P (set_value p v).
Proof.
  intros v s I L. unfold set_value, bind, hnd. rewrite (en_status _ _ _ _ L). cbn. now split.
Qed.
Lemma ends_us : forall v, keeps p P (unbounded_set p v).
Proof.
  intros v s I L. unfold unbounded_set, bind, hnd. rewrite (en_status _ _ _ _ L). cbn. now split.
Qed.
Lemma ends_here : forall s : state, P (ps s p) -> access dflt p s = (s, Ok tt).
Proof.
  intros s L. unfold access, bind, hnd. destruct (en_val _ _ _ _ L) as (k & v & _ & -> & _).
  reflexivity.
Qed.
Lemma ends_sp : forall pv, keeps p P (set_params dflt [p] pv).
Proof.
  intros v s I L. unfold set_params. cbn [for_each]. rewrite bind_ret_tt.
  rewrite (bind_ok _ _ _ _ _ _ _ _ (ends_here s L)).
  unfold bind, hnd. rewrite (en_status _ _ _ _ L). cbn. now split.
Qed.
Lemma ends_via : forall m : M N unit, keeps p P m -> keeps p P (access dflt p;;; m).
Proof.
  intros m K s I L. rewrite (bind_ok _ _ _ _ _ _ _ _ (ends_here s L)). now apply K.
Qed.

Lemma ends_op : forall o, target o = Some p -> leaves_steps p o -> keeps p P (run_op dflt o).
Proof.
  intros o T A. destruct o; cbn in T, A; try discriminate; injection T as ->; cbn [run_op];
    try congruence; try (apply ends_via).
  - intros s I L. rewrite ends_here by exact L. now split.
  - apply ends_sv.
  - intros s I L.
    assert (D : defined s p) by (unfold defined; rewrite (en_status _ _ _ _ L); discriminate).
    split; [apply (range_good p s s a b I (track_refl _ _) D)|].
    unfold range, put, modify. cbn. rewrite upd_same. destruct L. constructor; auto.
  - apply ends_next.
  - apply ends_prev.
  - apply ends_first.
  - apply ends_last.
  - apply ends_us.
  - intros s I L.
    assert (D : defined s p) by (unfold defined; rewrite (en_status _ _ _ _ L); discriminate).
    split; [now apply add_listener_good|].
    unfold add_listener, bind, hnd, put, modify.
    destruct (existsb _ _); [exact L|]. cbn. rewrite upd_same. destruct L. constructor; auto.
  - intros s I L. now split.
Qed.

Lemma ends_run : forall l s, Forall (leaves_steps p) l -> Inv s -> P (ps s p) ->
  Inv (run dflt l s) /\ P (ps (run dflt l s) p).
Proof.
  apply (keeps_run p P).
  - intros h L _. now apply ends_rewind.
  - apply ends_op.
  - apply ends_next.
  - apply ends_prev.
  - apply ends_sv.
  - apply ends_us.
  - apply ends_sp.
Qed.

Lemma lin_ends : forall (s s0 : state), Inv s ->
  run_op dflt (OLinStep p (Some lo) (Some hi) n) s = (s0, Ok tt) ->
  Inv s0 /\ P (ps s0 p).
Proof.
  intros s s0 I H. cbn [run_op] in H.
  destruct (access_good p s dflt s I (track_refl _ _)) as [I1 _].
  pose proof (access_ok_defined p dflt s) as HD.
  unfold bind in H. destruct (access dflt p s) as [s1 [[]|e]]; cbn [fst] in *; [|discriminate].
  destruct (linstep_ok s1 s0 p _ _ n I1 (HD s1 I eq_refl) H) as (a & b & Ea & Eb & _ & _ & _ & SS).
  injection Ea as <-. injection Eb as <-.
  split; [apply SS|]. rewrite (sst_p _ _ _ _ SS). constructor; cbn; auto; try discriminate.
  exists 0%Z, lo. repeat split; auto; lia.
Qed.

Lemma log_ends : forall (s s0 : state), Inv s -> eqb N hi (ofZ N 0) = false ->
  run_op dflt (OLogStep p (Some lo) (Some hi) n) s = (s0, Ok tt) ->
  Inv s0 /\ P (ps s0 p).
Proof.
  intros s s0 I Hz H. cbn [run_op] in H.
  destruct (access_good p s dflt s I (track_refl _ _)) as [I1 _].
  pose proof (access_ok_defined p dflt s) as HD.
  unfold bind in H. destruct (access dflt p s) as [s1 [[]|e]]; cbn [fst] in *; [|discriminate].
  destruct (logstep_ok s1 s0 p _ _ n I1 (HD s1 I eq_refl) H)
    as (a & b & l & u & Ea & Eb & _ & _ & Hm & Ha & -> & Hu & SS).
  injection Ea as <-. injection Eb as <-. rewrite (Hu Hz) in SS.
  split; [apply SS|]. rewrite (sst_p _ _ _ _ SS). constructor; cbn; auto; try discriminate.
  exists 0%Z, lo. repeat split; auto; lia.
Qed.

Lemma exact_ends : forall (s s0 : state) o l, session dflt s ->
  o = OLinStep p (Some lo) (Some hi) n
  \/ o = OLogStep p (Some lo) (Some hi) n /\ eqb N hi (ofZ N 0) = false ->
  run_op dflt o s = (s0, Ok tt) -> Forall (leaves_steps p) l ->
  steps_between (run dflt l s0) p lo hi n.
Proof.
  intros s s0 o l S Ho E F. apply session_Inv in S.
  assert (H : Inv s0 /\ P (ps s0 p)).
  { destruct Ho as [->|[-> Hz]]; [now apply lin_ends with s|now apply log_ends with s]. }
  destruct (ends_run l s0 F (proj1 H) (proj2 H)) as [_ L]. split; [apply L|apply L].
Qed.
End Gen.

Lemma lin_exact_ends : forall (N : num) (dflt : nat -> option N) (s s0 : st N) p (lo hi : N) n l,
  session dflt s -> run_op dflt (OLinStep p (Some lo) (Some hi) n) s = (s0, Ok tt) ->
  (2 <= n)%Z -> Forall (leaves_steps p) l ->
  steps_between (run dflt l s0) p lo hi n.
Proof. intros. eapply exact_ends; eauto. Qed.
Lemma log_exact_ends : forall (N : num) (dflt : nat -> option N) (s s0 : st N) p (lo hi : N) n l,
  session dflt s -> run_op dflt (OLogStep p (Some lo) (Some hi) n) s = (s0, Ok tt) ->
  eqb N hi (ofZ N 0) = false -> (2 <= n)%Z -> Forall (leaves_steps p) l ->
  steps_between (run dflt l s0) p lo hi n.
Proof. intros. eapply exact_ends; eauto. Qed.
