(** Properties of one parameter that survive operations: a general scheme. *)

From Coq Require Import ZArith List Bool Arith Lia.
From Verif Require Import Exn PieModel PieSpec PieLemmas PieLemmas2 PieGridModel PieGridSpec
  PieGridLemmas PieGridLemmas2.
Import ListNotations.
Open Scope exn_scope.

Section Gen.
Context {N : num}.
Notation state := (st N).

(** The parameter an operation is addressed to. *)
Definition target (o : op N) : option nat :=
  match o with
  | OAccess p | OAssign p _ | OSetValue p _ | OFix p _ | ORange p _ _
  | OLinStep p _ _ _ | OLogStep p _ _ _ | ONext p | OPrev p | OFirst p | OLast p
  | OVary p _ _ _ | OUSet p _ | OAddListener p _ | ODelListener p _ => Some p
  | _ => None
  end.

Lemma bind_ret_tt : forall (m : M N unit) s, (m;;; ret tt) s = m s.
Proof. intros. unfold bind, ret. destruct (m s) as [? [[]|]]; reflexivity. Qed.

Section Keep.
Variable (p : nat) (P : pst N -> Prop).
Hypothesis Prew : forall h, P h -> p_status h = Stepping -> P (rewind h).

Definition keeps {A} (m : M N A) : Prop :=
  forall s, Inv s -> P (ps s p) -> Inv (fst (m s)) /\ P (ps (fst (m s)) p).

Lemma keeps_ret : forall A (a : A), keeps (ret a).
Proof. intros A a s I H. now split. Qed.
Lemma keeps_raise : forall A e, keeps (@raise _ A e).
Proof. intros A e s I H. now split. Qed.
Lemma keeps_get : keeps get.
Proof. intros s I H. now split. Qed.
Lemma keeps_attr : forall A e (o : option A), keeps (attr e o).
Proof. intros A e [a|] s I H; now split. Qed.
Lemma keeps_bind : forall A B (m : M N A) (k : A -> M N B),
  keeps m -> (forall a, keeps (k a)) -> keeps (bind m k).
Proof.
  intros A B m k H K s I Hp. unfold bind. destruct (H s I Hp) as [I1 P1].
  destruct (m s) as [s1 [a|e]]; cbn in *; [|now split]. now apply K.
Qed.
Lemma keeps_for_each : forall A (l : list A) f, (forall a, keeps (f a)) -> keeps (for_each l f).
Proof.
  intros A l f H. induction l as [|a l IH]; [apply keeps_ret|]. cbn. now apply keeps_bind.
Qed.

Lemma keeps_good : forall A q (m : M N A) s, q <> p -> Inv s -> P (ps s p) ->
  good q s (m s) -> Inv (fst (m s)) /\ P (ps (fst (m s)) p).
Proof.
  intros A q m s Hq I H [I' [F _]]. split; [exact I'|].
  destruct (F p) as [->|[St ->]]; auto.
Qed.

Lemma keeps_reset : keeps reset_steps.
Proof.
  intros s I H. destruct (reset_good s I) as (s' & E & I' & R). rewrite E. split; [exact I'|].
  cbn. rewrite (rr_ps _ _ R). destruct (mem_spec p (stepl s)) as [K|]; [|exact H].
  apply Prew; auto. now apply (lm_step _ (iv_lm _ I)).
Qed.

Lemma keeps_grid : keeps (p_next_step p) -> keeps (p_prev_step p) -> keeps grid_step.
Proof.
  intros Kn Kp s I H. unfold grid_step, bind, get.
  destruct (stepl s) as [|q0 l0] eqn:El; [now split|].
  assert (G : forall q, In q (q0 :: l0) -> In q (stepl s)) by now rewrite El.
  clear El. revert s I H G. generalize (last l0 q0) as lst. generalize (q0 :: l0) as l. clear q0 l0.
  induction l as [|q l IH]; intros lst s I H G; [now split|].
  cbn [grid_step_loop]. destruct (info s q) as [d|]; [|now split].
  set (m := match d with Nextd => p_next_step q | Prevd => p_prev_step q end).
  assert (K : Inv (fst (m s)) /\ P (ps (fst (m s)) p) /\ stepl (fst (m s)) = stepl s).
  { destruct (Nat.eq_dec q p) as [->|Hq].
    - unfold m; destruct d.
      + split; [now apply Kn|]. split; [now apply Kn|].
        destruct (p_next_step p s) eqn:E. apply p_next_lists in E. tauto.
      + split; [now apply Kp|]. split; [now apply Kp|].
        destruct (p_prev_step p s) eqn:E. apply p_prev_lists in E. tauto.
    - unfold m; destruct d.
      + destruct (keeps_good _ q (p_next_step q) s Hq I H
           (p_next_good q s s I (track_refl _ _))) as [A B].
        split; [exact A|]. split; [exact B|].
        destruct (p_next_step q s) eqn:E. apply p_next_lists in E. tauto.
      + destruct (keeps_good _ q (p_prev_step q) s Hq I H
           (p_prev_good q s s I (track_refl _ _))) as [A B].
        split; [exact A|]. split; [exact B|].
        destruct (p_prev_step q s) eqn:E. apply p_prev_lists in E. tauto. }
  destruct K as (I1 & P1 & S1).
  destruct (m s) as [s1 [u|e]]; cbn [fst] in *; [now split|].
  destruct e; try (now split).
  destruct (Nat.eqb q lst).
  - destruct (keeps_reset s1 I1 P1) as [A B]. unfold bind.
    destruct (reset_steps s1) as [s2 [u|e]]; now split.
  - unfold bind, modify. apply IH.
    + apply set_info_Inv; auto. rewrite S1. apply G. now left.
    + exact P1.
    + intros r Hr. cbn. rewrite S1. apply G. now right.
Qed.

Lemma keeps_sv : (forall v, keeps (set_value p v)) -> forall q v, keeps (set_value q v).
Proof.
  intros K q v. destruct (Nat.eq_dec q p) as [->|Hq]; [apply K|].
  intros s I H. eapply keeps_good; eauto. apply (set_value_good q s s v I (track_refl _ _)).
Qed.
Lemma keeps_us : (forall v, keeps (unbounded_set p v)) -> forall q v, keeps (unbounded_set q v).
Proof.
  intros K q v. destruct (Nat.eq_dec q p) as [->|Hq]; [apply K|].
  intros s I H. eapply keeps_good; eauto. apply (unbounded_set_good q s s v I (track_refl _ _)).
Qed.

Variable dflt : nat -> option N.
Variable allowed : op N -> Prop.
Hypothesis Hop : forall o, target o = Some p -> allowed o -> keeps (run_op dflt o).
Hypothesis Hnext : keeps (p_next_step p).
Hypothesis Hprev : keeps (p_prev_step p).
Hypothesis Hsv : forall v, keeps (set_value p v).
Hypothesis Hus : forall v, keeps (unbounded_set p v).
Hypothesis Hsp : forall pv, keeps (set_params dflt [p] pv).

Lemma keeps_run_op : forall o, allowed o -> keeps (run_op dflt o).
Proof.
  intros o Ha.
  assert (D : target o = Some p \/ target o <> Some p).
  { destruct (target o) as [q|]; [|right; discriminate].
    destruct (Nat.eq_dec q p) as [->|]; [now left|right; congruence]. }
  destruct D as [D|D]; [now apply Hop|].
  assert (V : forall q (m : M N unit), q <> p ->
     (forall s s1, Inv s1 -> track q s s1 -> defined s1 q -> good q s (m s1)) ->
     keeps (access dflt q;;; m)).
  { intros q m Hq Hm s I H. eapply keeps_good; eauto.
    apply via_access_good; auto. }
  destruct o; cbn [run_op target] in *; try (assert (p0 <> p) by congruence).
  - intros s I H'. eapply keeps_good; eauto. apply (access_good p0 s dflt s I (track_refl _ _)).
  - intros s I H'. eapply keeps_good; eauto. apply (fix_good p0 s s o I (track_refl _ _)).
  - apply V; auto. intros. now apply set_value_good.
  - apply V; auto. intros. now apply fix_good.
  - apply V; auto. intros. now apply range_good.
  - apply V; auto. intros. now apply linstep_good.
  - apply V; auto. intros. now apply logstep_good.
  - apply V; auto. intros. now apply p_next_good.
  - apply V; auto. intros. now apply p_prev_good.
  - apply V; auto. intros. now apply first_good.
  - apply V; auto. intros. now apply last_good.
  - apply V; auto. intros. now apply vary_good.
  - apply V; auto. intros. now apply unbounded_set_good.
  - intros s I H'. destruct (keeps_good _ p0 (access dflt p0) s H I H'
       (access_good p0 s dflt s I (track_refl _ _))) as [I1 P1].
    pose proof (access_ok_defined p0 dflt s) as HD.
    unfold bind. destruct (access dflt p0 s) as [s1 [[]|e]]; cbn in *; [|now split].
    destruct (add_listener_good p0 s1 l I1) as [A B]; auto. split; [exact A|].
    destruct (B p) as [E|[St E]]; auto; cbn in E |- *; rewrite E; auto.
  - apply V; auto. intros. now apply good_intro.
  - apply keeps_reset.
  - now apply keeps_grid.
  - unfold set_varying. apply keeps_bind; [apply keeps_get|]. intros s.
    destruct (negb _); [apply keeps_raise|]. apply keeps_for_each. intros [q v]. now apply keeps_sv.
  - unfold score_assign. apply keeps_bind; [apply keeps_get|]. intros s.
    apply keeps_for_each. intros [q v]. destruct unb; [now apply keeps_us|now apply keeps_sv].
  - unfold set_params. apply keeps_for_each. intros q.
    destruct (Nat.eq_dec q p) as [->|Hq].
    + intros s I H. specialize (Hsp pv s I H). unfold set_params in Hsp. cbn [for_each] in Hsp.
      rewrite bind_ret_tt in Hsp. exact Hsp.
    + apply V; auto. intros s s2 I2 F2 D2. apply sx_hnd.
      destruct (p_status (ps s2 q)); try now apply good_intro.
      * destruct (pv q); [|now apply good_intro]. now apply fix_good.
      * destruct (pv q); [|now apply good_intro]. now apply vary_good.
  - unfold score_eval. apply keeps_for_each. intros k s [L Hh] H. split; [|exact H].
    constructor; [now apply lists_log|exact Hh].
Qed.

Lemma keeps_run : forall l s, Forall allowed l -> Inv s -> P (ps s p) ->
  Inv (run dflt l s) /\ P (ps (run dflt l s) p).
Proof.
  induction l as [|o l IH]; intros s F I H; [now split|].
  inversion F; subst. cbn. destruct (keeps_run_op o H2 s I H) as [A B]. now apply IH.
Qed.

End Keep.
End Gen.
