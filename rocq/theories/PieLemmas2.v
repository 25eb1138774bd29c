(** More proofs about the parameter machine, for every arithmetic:
    announcements over whole operations, rejected calls, freshness of on_use,
    get_params/set_params. *)

From Coq Require Import ZArith List Bool Arith Lia.
From Verif Require Import Exn PieModel PieSpec PieLemmas.
Import ListNotations.
Open Scope exn_scope.

Section Gen.
Context {N : num}.
Notation state := (st N).

(** ** Announcements of whole operations *)

Lemma ann_reset : forall s s' : state, NoDup (stepl s) ->
  (forall p, In p (stepl s) -> ready (ps s p)) ->
  reset_rel s s' -> announced s s'.
Proof.
  intros s s' ND HR R. exists (flat_map (rewind_evs s) (stepl s)).
  split; [apply R|]. intros q.
  assert (HL : p_lst (rewind (ps s q)) = p_lst (ps s q)).
  { unfold rewind. now destruct (p_slo (ps s q)). }
  rewrite (rr_ps _ _ R q).
  rewrite !filter_flat_map. split; [destruct (mem q (stepl s)); auto|]. split.
  - rewrite (flat_map_ext_in _ _ _ (fun a => if Nat.eqb a q then rewind_evs s a else [])).
    + rewrite flat_map_pick by assumption.
      destruct (mem_spec q (stepl s)) as [Hi|Hi].
      * destruct (HR q Hi) as [_ [v Hv]]. exists [v]. unfold rewind_evs, rewind. rewrite Hv.
        cbn. now rewrite app_nil_r.
      * exists []. auto.
    + intros a _. unfold rewind_evs. destruct (p_slo (ps s a)) as [v|].
      * apply (filter_tell_value q a (p_lst (ps s a)) v).
      * cbn. now destruct (Nat.eqb a q).
  - exists []. cbn. split.
    + rewrite (flat_map_ext_in _ _ _ (fun _ => [])); [apply flat_map_nil|].
      intros a _. unfold rewind_evs. destruct (p_slo (ps s a)) as [v|]; [|reflexivity].
      apply (filter_tell_value_s q a (p_lst (ps s a)) v).
    + destruct (mem q (stepl s)); [now rewrite rewind_status|reflexivity].
Qed.

Lemma ann_reset_steps : forall s : state, Inv s ->
  exists s', reset_steps s = (s', Ok tt) /\ Inv s' /\ announced s s'.
Proof.
  intros s I. destruct (reset_good s I) as (s' & E & I' & R).
  exists s'. split; [exact E|]. split; [exact I'|].
  apply ann_reset; auto; [apply I|]. intros p Hp. apply hok_ready; [apply I|]. now apply I.
Qed.

Definition annI (s : state) (r : state * res unit) : Prop :=
  Inv (fst r) /\ announced s (fst r).

Lemma good_annI : forall p s (r : state * res unit), good p s r -> annI s r.
Proof. intros p s r [I [F A]]. now split. Qed.

Lemma annI_self : forall s (r : res unit), Inv s -> annI s (s, r).
Proof. intros. split; [assumption|apply ann_refl]. Qed.

Lemma annI_trans : forall (s s1 : state) r, announced s s1 -> annI s1 r -> annI s r.
Proof. intros s s1 r A [I B]. split; [exact I|]. eauto using ann_trans. Qed.

Lemma for_each_annI : forall A (l : list A) (f : A -> M N unit) s,
  Inv s -> (forall a s1, Inv s1 -> annI s1 (f a s1)) -> annI s (for_each l f s).
Proof.
  induction l as [|a l IH]; intros f s I H; [now apply annI_self|]. cbn [for_each].
  unfold bind. pose proof (H a s I) as [Ia Aa]. destruct (f a s) as [s1 [u|e]]; cbn in *.
  - apply (annI_trans s s1); auto.
  - now split.
Qed.

Lemma grid_loop_annI : forall last l (s : state), Inv s ->
  (forall p, In p l -> In p (stepl s)) -> annI s (grid_step_loop last l s).
Proof.
  induction l as [|p l IH]; intros s I H; [now apply annI_self|]. cbn [grid_step_loop].
  destruct (info s p) as [d|]; [|now apply annI_self].
  set (m := match d with Nextd => p_next_step p | Prevd => p_prev_step p end).
  assert (K : annI s (m s) /\ stepl (fst (m s)) = stepl s).
  { unfold m. destruct d.
    - split; [apply (good_annI p), (p_next_good p s s I (track_refl _ _))|].
      destruct (p_next_step p s) eqn:E. apply p_next_lists in E. tauto.
    - split; [apply (good_annI p), (p_prev_good p s s I (track_refl _ _))|].
      destruct (p_prev_step p s) eqn:E. apply p_prev_lists in E. tauto. }
  destruct (m s) as [s1 [u|e]]; cbn in K; destruct K as [[I1 A1] S1]; cbn in I1, A1.
  - now split.
  - destruct e; try (now split).
    apply (annI_trans s s1 _ A1).
    destruct (Nat.eqb p last).
    + destruct (ann_reset_steps s1 I1) as (s2 & E2 & I2 & A2).
      unfold bind. rewrite E2. now split.
    + unfold bind, modify. apply (annI_trans s1 (set_info p (Some (reverse_direction d)) s1)).
      * now apply ann_quiet.
      * apply IH.
        -- apply set_info_Inv; auto. rewrite S1. apply H. now left.
        -- intros q Hq. cbn. rewrite S1. apply H. now right.
Qed.

Theorem run_op_annI : forall dflt o s, Inv s -> ~ adds_listener o ->
  annI s (run_op dflt o s).
Proof.
  intros dflt o s I Ho. destruct o; cbn [run_op].
  - apply (good_annI p), (access_good p s dflt s I (track_refl _ _)).
  - apply (good_annI p), (fix_good p s s o I (track_refl _ _)).
  - apply (good_annI p), (via_access_good p). exact I. intros. now apply set_value_good.
  - apply (good_annI p), (via_access_good p). exact I. intros. now apply fix_good.
  - apply (good_annI p), (via_access_good p). exact I. intros. now apply range_good.
  - apply (good_annI p), (via_access_good p). exact I. intros. now apply linstep_good.
  - apply (good_annI p), (via_access_good p). exact I. intros. now apply logstep_good.
  - apply (good_annI p), (via_access_good p). exact I. intros. now apply p_next_good.
  - apply (good_annI p), (via_access_good p). exact I. intros. now apply p_prev_good.
  - apply (good_annI p), (via_access_good p). exact I. intros. now apply first_good.
  - apply (good_annI p), (via_access_good p). exact I. intros. now apply last_good.
  - apply (good_annI p), (via_access_good p). exact I. intros. now apply vary_good.
  - apply (good_annI p), (via_access_good p). exact I. intros. now apply unbounded_set_good.
  - exfalso. now apply Ho.
  - apply (good_annI p), (via_access_good p). exact I. intros. now apply good_intro.
  - destruct (ann_reset_steps s I) as (s' & E & I' & A). rewrite E. now split.
  - unfold grid_step, bind, get. destruct (stepl s) as [|q l] eqn:E; [now apply annI_self|].
    apply grid_loop_annI; [exact I|]. now rewrite E.
  - unfold set_varying, bind, get. destruct (negb _); [now apply annI_self|].
    apply for_each_annI; [exact I|]. intros [q v] s1 I1.
    apply (good_annI q), (set_value_good q s1 s1 v I1 (track_refl _ _)).
  - unfold score_assign, bind, get.
    apply for_each_annI; [exact I|]. intros [q v] s1 I1. cbn. destruct unb.
    + apply (good_annI q), (unbounded_set_good q s1 s1 v I1 (track_refl _ _)).
    + apply (good_annI q), (set_value_good q s1 s1 v I1 (track_refl _ _)).
  - unfold set_params. apply for_each_annI; [exact I|]. intros q s1 I1.
    apply (good_annI q), (via_access_good q). exact I1. intros s2 I2 F2 D2. apply sx_hnd.
    destruct (p_status (ps s2 q)); try now apply good_intro.
    + destruct (pv q); [|now apply good_intro]. now apply fix_good.
    + destruct (pv q); [|now apply good_intro]. now apply vary_good.
  - unfold score_eval. apply for_each_annI; [exact I|]. intros k s1 [L H]. split.
    + constructor; [now apply lists_log|exact H].
    + exists [EvUse; EvSignal k]. split; [reflexivity|]. intros q.
      split; [reflexivity|]. split; exists []; cbn; auto.
Qed.

(** ** Rejected calls *)

Lemma access_defined : forall dflt p (s : state), Inv s -> defined s p ->
  access dflt p s = (s, Ok tt).
Proof.
  intros dflt p s I D. unfold access, bind, hnd.
  pose proof (ho_val _ (iv_h s I p) D) as Hv.
  destruct (p_value (ps s p)); [reflexivity|congruence].
Qed.

Lemma set_value_rej : forall p v (s s' : state) e,
  set_value p v s = (s', Err e) -> s' = s.
Proof.
  intros p v s s' e. unfold set_value, bind, hnd.
  destruct (status_eqb _ _); [|now inversion 1].
  destruct (p_bnd (ps s p)) as [b|].
  - destruct (within v b); [rewrite set_value__eq; discriminate|now inversion 1].
  - rewrite set_value__eq; discriminate.
Qed.

Lemma unbounded_rej : forall p v (s s' : state) e,
  unbounded_set p v s = (s', Err e) -> s' = s.
Proof.
  intros p v s s' e. unfold unbounded_set, bind, hnd.
  destruct (status_eqb _ _); [|now inversion 1].
  destruct (p_bnd (ps s p)) as [[lo hi]|]; [|now inversion 1].
  destruct (bad _ _); [destruct (ltb _ _ _)|]; rewrite set_value__eq; discriminate.
Qed.

Definition rejkeep (s : state) (r : state * res unit) : Prop :=
  forall e, snd r = Err e -> fst r = s.

Lemma fix_rej : forall p o (s s' : state) e, Inv s ->
  fix_ p o s = (s', Err e) -> s' = s.
Proof.
  intros p o s s' e I. unfold fix_.
  assert (Hset : forall v s' e, (set_value_ p v;;; set_status_ p Fixed) s = (s', Err e) -> s' = s).
  { intros v t e'. unfold bind. rewrite set_value__eq.
    assert (G : rejkeep s (set_status_ p Fixed
       (log_ev (value_evs (ps s p) p v) (upd_p p (with_value v) s)))).
    { rewrite <- bind_ret.
      eapply sx_setst with (s0 := (log_ev (value_evs (ps s p) p v) (upd_p p (with_value v) s)))
         (h := with_value v (ps s p)).
      - apply lists_log, lists_upd; [reflexivity|apply I].
      - intros q Hq. cbn. rewrite upd_other by assumption. apply I.
      - apply track_refl.
      - cbn. now rewrite upd_same.
      - destruct (iv_h s I p) as [a b c d f g]. constructor; cbn; auto; congruence.
      - congruence.
      - intros s1 I1 F1 P1 e1. discriminate. }
    intros E. specialize (G e'). rewrite E in G. now apply G. }
  unfold bind at 1, hnd.
  destruct o as [v|].
  - destruct (p_bnd (ps s p)) as [b|]; [|apply Hset].
    destruct (within v b); [apply Hset|]. unfold bind, raise. now inversion 1.
  - destruct (status_eqb_spec (p_status (ps s p)) Undef) as [E|E].
    + unfold bind, raise. now inversion 1.
    + unfold bind at 1, ret.
      assert (G : rejkeep s (set_status_ p Fixed s)).
      { rewrite <- bind_ret.
        eapply sx_setst with (s0 := s) (h := ps s p); try apply I; try congruence.
        - intros q _; apply I.
        - apply track_refl.
        - apply hok_fixed; [apply I|]. now apply (ho_val _ (iv_h s I p)).
        - intros s1 I1 F1 P1 e1. discriminate. }
      intros E'. specialize (G e). rewrite E' in G. now apply G.
Qed.

Lemma first_rej : forall p (s s' : state) e, Inv s ->
  first_step p s = (s', Err e) -> s' = s.
Proof.
  intros p s s' e I E.
  destruct (status_eqb_spec (p_status (ps s p)) Stepping) as [Es|Es].
  - destruct (hok_ready _ (iv_h s I p) Es) as [_ [v Hv]].
    destruct (first_step_eq p s v Es Hv) as (s1 & E1 & _). congruence.
  - unfold first_step, bind, hnd in E.
    destruct (status_eqb_spec (p_status (ps s p)) Stepping); [contradiction|].
    unfold raise in E. now inversion E.
Qed.

Lemma last_rej : forall p (s s' : state) e, Inv s ->
  last_step p s = (s', Err e) -> s' = s.
Proof.
  intros p s s' e I E. unfold last_step, bind, hnd in E.
  destruct (status_eqb_spec (p_status (ps s p)) Stepping) as [Es|Es];
    [|unfold raise in E; now inversion E].
  destruct (ho_step _ (iv_h s I p) Es) as (_ & Hh & Hn & _).
  destruct (p_steps (ps s p)); [|congruence]. cbn in E.
  destruct (p_shi (ps s p)); [|congruence]. cbn in E. discriminate.
Qed.

Lemma next_rej : forall p (s s' : state) e,
  p_next_step p s = (s', Err e) -> e = ParamError \/ e = ParamRangeError -> s' = s.
Proof.
  intros p s s' e. unfold p_next_step, bind, hnd, attr, put, modify, raise.
  destruct (ps s p) as [st va bn de fa ty sl sh sn nu ls]; cbn.
  destruct st; cbn; try (intros E; inversion E; subst; auto; fail).
  destruct nu; cbn; try (intros E; inversion E; subst; auto; fail).
  destruct sn; cbn; try (intros E; inversion E; subst; auto; fail).
  destruct (Z.eqb _ _); cbn; try (intros E; inversion E; subst; auto; fail).
  destruct ty as [ty|]; cbn; try (intros E [|]; inversion E; subst; discriminate).
  destruct (Z.eqb _ _); cbn.
  - destruct sh; intros E [|]; inversion E; subst; discriminate.
  - destruct va; cbn; try (intros E [|]; inversion E; subst; discriminate).
    destruct ty; cbn; [destruct de|destruct fa]; intros E [|]; inversion E; subst; discriminate.
Qed.

Lemma prev_rej : forall p (s s' : state) e,
  p_prev_step p s = (s', Err e) -> e = ParamError \/ e = ParamRangeError -> s' = s.
Proof.
  intros p s s' e. unfold p_prev_step, bind, hnd, attr, put, modify, raise.
  destruct (ps s p) as [st va bn de fa ty sl sh sn nu ls]; cbn.
  destruct st; cbn; try (intros E; inversion E; subst; auto; fail).
  destruct nu; cbn; try (intros E; inversion E; subst; auto; fail).
  destruct (Z.eqb _ _); cbn; try (intros E; inversion E; subst; auto; fail).
  destruct ty as [ty|]; cbn; try (intros E [|]; inversion E; subst; discriminate).
  destruct (Z.eqb _ _); cbn.
  - destruct sl; intros E [|]; inversion E; subst; discriminate.
  - destruct va; cbn; try (intros E [|]; inversion E; subst; discriminate).
    destruct ty; cbn; [destruct de|destruct fa]; intros E [|]; inversion E; subst; discriminate.
Qed.

(** Result of a computation that is not one of the clean rejections. *)
Definition unclean (r : state * res unit) : Prop :=
  snd r <> Err ParamRangeError /\ snd r <> Err ValueError /\ snd r <> Err ParamError.

Lemma linstep_rej : forall p lo hi n (s s' : state) e, Inv s -> defined s p ->
  linstep p lo hi n s = (s', Err e) -> e = ParamRangeError -> s' = s.
Proof.
  intros p lo hi n s s' e I D. unfold linstep. unfold bind at 1, hnd.
  pose proof (iv_h s I p) as Hp. set (h := ps s p) in *.
  destruct (check_end_cases (p_bnd h) lo s) as [E|E];
    [rewrite (bind_ok _ _ _ _ _ _ _ _ E)|rewrite (bind_err _ _ _ _ _ _ _ _ E); now inversion 1].
  destruct (check_end_cases (p_bnd h) hi s) as [E'|E'];
    [rewrite (bind_ok _ _ _ _ _ _ _ _ E')|rewrite (bind_err _ _ _ _ _ _ _ _ E'); now inversion 1].
  match goal with |- ?t = _ -> _ => assert (U : unclean t) end.
  { assert (Dh : p_status h <> Undef) by exact D.
    pose proof (track_refl p s) as F.
    assert (Z1 : forall (s : state) e, e <> ParamRangeError -> e <> ValueError ->
       e <> ParamError -> unclean (s, Err e)).
    { intros. repeat split; cbn; congruence. }
    eapply sx_put with (s0 := s) (h := h); eauto; [hokd|]. intros s1 I1 F1 P1.
    assert (R : forall o b (s : state),
      (exists v, pick o b s = (s, Ok v)) \/ pick o b s = (s, Err AttributeError)).
    { intros [v|] [w|] t; cbn; [left|left|left|right]; try eexists; reflexivity. }
    destruct (R lo (bnd_lo h) s1) as [(l & El)|El];
      [rewrite (bind_ok _ _ _ _ _ _ _ _ El)|rewrite (bind_err _ _ _ _ _ _ _ _ El); now apply Z1].
    eapply sx_put with (s0 := s); eauto; [hokd|]. intros s2 I2 F2 P2.
    destruct (R hi (bnd_hi h) s2) as [(u & Eu)|Eu];
      [rewrite (bind_ok _ _ _ _ _ _ _ _ Eu)|rewrite (bind_err _ _ _ _ _ _ _ _ Eu); now apply Z1].
    eapply sx_put with (s0 := s); eauto; [hokd|]. intros s3 I3 F3 P3.
    eapply sx_put with (s0 := s); eauto; [hokd|]. intros s4 I4 F4 P4.
    destruct lo as [a|]; [|now apply Z1].
    destruct hi as [b|]; [|now apply Z1].
    destruct (Z.eqb n 1); [now apply Z1|].
    eapply sx_put with (s0 := s); eauto; [hokd|]. intros s5 I5 F5 P5.
    eapply sx_put with (s0 := s); eauto; [hokd|]. intros s6 I6 F6 P6.
    eapply sx_setv with (s0 := s); eauto; [hokd|]. intros s7 I7 F7 P7.
    rewrite <- bind_ret. eapply sx_setst with (s0 := s); eauto; try apply I7; try congruence.
    - intros q _; apply I7.
    - apply hok_stepping; cbn; try congruence. hokd.
    - intros s8 I8 F8 _. repeat split; discriminate. }
  intros E1 ->. rewrite E1 in U. destruct U as [U _]. now elim U.
Qed.

Lemma logstep_rej : forall p lo hi n (s s' : state) e, Inv s -> defined s p ->
  logstep p lo hi n s = (s', Err e) -> e = ParamRangeError \/ e = ValueError -> s' = s.
Proof.
  intros p lo hi n s s' e I D. unfold logstep. unfold bind at 1, hnd.
  pose proof (iv_h s I p) as Hp. set (h := ps s p) in *.
  destruct (check_end_cases (p_bnd h) lo s) as [E|E];
    [rewrite (bind_ok _ _ _ _ _ _ _ _ E)|rewrite (bind_err _ _ _ _ _ _ _ _ E); now inversion 1].
  destruct (check_end_cases (p_bnd h) hi s) as [E'|E'];
    [rewrite (bind_ok _ _ _ _ _ _ _ _ E')|rewrite (bind_err _ _ _ _ _ _ _ _ E'); now inversion 1].
  destruct lo as [a|]; [|now inversion 1].
  destruct hi as [b|]; [|now inversion 1].
  destruct (leb _ _ _); [now inversion 1|].
  match goal with |- ?t = _ -> _ => assert (U : unclean t) end.
  { assert (Dh : p_status h <> Undef) by exact D.
    pose proof (track_refl p s) as F.
    assert (Z1 : forall (s : state) e, e <> ParamRangeError -> e <> ValueError ->
       e <> ParamError -> unclean (s, Err e)).
    { intros. repeat split; cbn; congruence. }
    eapply sx_put with (s0 := s) (h := h); eauto; [hokd|]. intros s1 I1 F1 P1.
    assert (R : forall (c : bool) (v : N) b (s : state),
      (exists w, (if c then ret v else attr AttributeError b) s = (s, Ok w))
      \/ (if c then ret v else attr AttributeError b) s = (s, Err AttributeError)).
    { intros [] v [w|] t; cbn; [left|left|left|right]; try eexists; reflexivity. }
    destruct (R (truthy a) a (bnd_lo h) s1) as [(l & El)|El];
      [rewrite (bind_ok _ _ _ _ _ _ _ _ El)|rewrite (bind_err _ _ _ _ _ _ _ _ El); now apply Z1].
    eapply sx_put with (s0 := s); eauto; [hokd|]. intros s2 I2 F2 P2.
    destruct (R (truthy b) b (bnd_hi h) s2) as [(u & Eu)|Eu];
      [rewrite (bind_ok _ _ _ _ _ _ _ _ Eu)|rewrite (bind_err _ _ _ _ _ _ _ _ Eu); now apply Z1].
    eapply sx_put with (s0 := s); eauto; [hokd|]. intros s3 I3 F3 P3.
    eapply sx_put with (s0 := s); eauto; [hokd|]. intros s4 I4 F4 P4.
    destruct (eqb _ _ _); [now apply Z1|].
    eapply sx_put with (s0 := s); eauto; [hokd|]. intros s5 I5 F5 P5.
    eapply sx_put with (s0 := s); eauto; [hokd|]. intros s6 I6 F6 P6.
    eapply sx_setv with (s0 := s); eauto; [hokd|]. intros s7 I7 F7 P7.
    rewrite <- bind_ret. eapply sx_setst with (s0 := s); eauto; try apply I7; try congruence.
    - intros q _; apply I7.
    - apply hok_stepping; cbn; try congruence. hokd.
    - intros s8 I8 F8 _. repeat split; discriminate. }
  intros E1 He. rewrite E1 in U. destruct U as [U1 [U2 _]].
  destruct He as [-> | ->]; [now elim U1|now elim U2].
Qed.

End Gen.
