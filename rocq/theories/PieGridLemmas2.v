(** Traversal of a grid by repeated grid steps, and what linstep, logstep and
    do_grid achieve. *)

From Coq Require Import ZArith List Bool Arith Lia.
From Verif Require Import Exn PieModel PieSpec PieLemmas PieLemmas2 PieGridModel PieGridSpec
  PieGridLemmas.
Import ListNotations.
Open Scope exn_scope.

Section Gen.
Context {N : num}.
Notation state := (st N).

Lemma grid_step_sim : forall al (s : state),
  stepl s <> [] -> Forall2 (axis_ok s) (stepl s) al -> Inv s ->
  match astep al with
  | Some al' => exists s', grid_step s = (s', Ok tt)
       /\ Inv s' /\ Forall2 (axis_ok s') (stepl s) al' /\ only_steps (stepl s) s s'
  | None => exists s1 s', grid_step s = (s', Err StopStepping)
       /\ Inv s' /\ reset_rel s1 s' /\ ps s1 = ps s
       /\ fixedl s1 = fixedl s /\ varyl s1 = varyl s /\ stepl s1 = stepl s
  end.
Proof.
  intros al s Hne F I.
  pose proof (grid_loop_sim al (stepl s) s (last (stepl s) 0)) as K.
  assert (E : grid_step s = grid_step_loop (last (stepl s) 0) (stepl s) s).
  { unfold grid_step, bind, get. destruct (stepl s) as [|p l]; [now elim Hne|].
    f_equal. clear. revert p. induction l as [|q l IH]; intros p; [reflexivity|].
    cbn [last] in *. destruct l as [|r l]; [reflexivity|]. apply (IH p). }
  rewrite E. apply K; auto; try apply I.
  clear -Hne. destruct (stepl s) as [|p l]; [now elim Hne|]. clear.
  revert p. induction l as [|q l IH]; intros p; [reflexivity|].
  cbn [last] in *. apply IH.
Qed.

Lemma axes_indices : forall (s : state) l al, Forall2 (axis_ok s) l al ->
  map (fun p => p_num (ps s p)) l = map Some (aidx al).
Proof.
  intros s l al F. induction F as [|p a l al A F IH]; [reflexivity|].
  cbn. rewrite (ao_num _ _ _ A). f_equal. exact IH.
Qed.

(** handlers after any number of steps *)
Inductive steps_from (h : pst N) : pst N -> Prop :=
| sf_refl : steps_from h h
| sf_step : forall h1 h2, steps_from h h1 -> stepped h1 h2 -> steps_from h h2.

Lemma steps_from_trans : forall h h1 h2,
  steps_from h h1 -> steps_from h1 h2 -> steps_from h h2.
Proof. intros h h1 h2 A B. induction B; eauto using steps_from. Qed.

(** a state inside a traversal that began in s *)
Record inside (s s' : state) : Prop := {
  in_inv : Inv s';
  in_f : fixedl s' = fixedl s;
  in_v : varyl s' = varyl s;
  in_s : stepl s' = stepl s;
  in_on : forall q, In q (stepl s) -> steps_from (ps s q) (ps s' q);
  in_off : forall q, ~ In q (stepl s) -> ps s' q = ps s q
}.

Lemma inside_refl : forall s : state, Inv s -> inside s s.
Proof. intros s I. constructor; auto. intros; constructor. Qed.
Lemma inside_trans : forall s s1 s2 : state, inside s s1 -> inside s1 s2 -> inside s s2.
Proof.
  intros s s1 s2 A B. constructor.
  - apply B.
  - rewrite (in_f _ _ B). apply A.
  - rewrite (in_v _ _ B). apply A.
  - rewrite (in_s _ _ B). apply A.
  - intros q Hq. eapply steps_from_trans; [now apply A|]. apply B. now rewrite (in_s _ _ A).
  - intros q Hq. rewrite (in_off _ _ B); [now apply A|]. now rewrite (in_s _ _ A).
Qed.
Lemma inside_step : forall (s s' : state), Inv s' -> only_steps (stepl s) s s' -> inside s s'.
Proof.
  intros s s' I (O1 & O2 & O3 & O4 & O5). constructor; auto.
  - intros q Hq. destruct (O2 q Hq) as [->|K]; [constructor|econstructor; [constructor|exact K]].
  - intros q Hq. now apply O1.
Qed.

(** the end of a traversal that began in s *)
Record wound_back (s e : state) : Prop := {
  wb_inv : Inv e;
  wb_f : fixedl e = fixedl s;
  wb_v : varyl e = varyl s;
  wb_s : stepl e = stepl s;
  wb_on : forall q, In q (stepl s) -> exists h, steps_from (ps s q) h /\ ps e q = rewind h;
  wb_off : forall q, ~ In q (stepl s) -> ps e q = ps s q;
  wb_start : at_start e
}.

Lemma reset_at_start : forall s1 e : state, Inv s1 -> reset_rel s1 e -> at_start e.
Proof.
  intros s1 e I R p Hp. rewrite (rr_s _ _ R) in Hp.
  rewrite (rr_ps _ _ R), (rr_i _ _ R). apply mem_In in Hp as Hm. rewrite Hm.
  destruct (hok_ready _ (iv_h _ I p)) as [_ [v Hv]]; [now apply (lm_step _ (iv_lm _ I))|].
  unfold rewind. rewrite Hv. cbn. repeat split. now rewrite Hv.
Qed.

Lemma path_trail : forall al vs, path al vs -> forall s : state,
  Inv s -> stepl s <> [] -> Forall2 (axis_ok s) (stepl s) al ->
  exists l e, trail s l e /\ Forall2 indices l vs /\ Forall (inside s) l /\ wound_back s e.
Proof.
  induction 1 as [al E|al al' vs E P IH]; intros s I Hne F;
    pose proof (grid_step_sim al s Hne F I) as K; rewrite E in K.
  - destruct K as (s1 & e & G & I' & R & P1 & L1 & L2 & L3).
    assert (A : at_start e).
    { intros p Hp. rewrite (rr_s _ _ R) in Hp.
      rewrite (rr_ps _ _ R), (rr_i _ _ R), P1. apply mem_In in Hp as Hm. rewrite Hm.
      destruct (hok_ready _ (iv_h _ I p)) as [_ [v Hv]].
      { apply (lm_step _ (iv_lm _ I)). congruence. }
      unfold rewind. rewrite Hv. cbn. repeat split. now rewrite Hv. }
    exists [s], e. split; [now split|]. split.
    { constructor; [|constructor]. now apply axes_indices. }
    split; [constructor; [now apply inside_refl|constructor]|].
    constructor; auto.
    + rewrite (rr_f _ _ R). exact L1.
    + rewrite (rr_v _ _ R). exact L2.
    + rewrite (rr_s _ _ R). exact L3.
    + intros q Hq. exists (ps s q). split; [constructor|].
      rewrite (rr_ps _ _ R), P1, L3. apply mem_In in Hq. now rewrite Hq.
    + intros q Hq. rewrite (rr_ps _ _ R), P1, L3.
      destruct (mem_spec q (stepl s)); [contradiction|reflexivity].
  - destruct K as (s1 & G & I' & F' & O).
    pose proof (inside_step s s1 I' O) as In1.
    assert (Es : stepl s1 = stepl s) by apply In1.
    destruct (IH s1) as (l & e & T & X & Y & W); auto; try congruence.
    exists (s :: l), e. split; [|split; [|split]].
    + destruct l as [|b l]; [inversion P; subst; inversion X|].
      split; [reflexivity|]. exists s1. now split.
    + constructor; [now apply axes_indices|exact X].
    + constructor; [now apply inside_refl|].
      eapply Forall_impl; [|exact Y]. intros t Ht. eapply inside_trans; eauto.
    + constructor.
      * apply W.
      * rewrite (wb_f _ _ W). apply In1.
      * rewrite (wb_v _ _ W). apply In1.
      * rewrite (wb_s _ _ W). apply In1.
      * intros q Hq. destruct (wb_on _ _ W q) as (h & Hh & Eh); [congruence|].
        exists h. split; [|exact Eh]. eapply steps_from_trans; [now apply In1|exact Hh].
      * intros q Hq. rewrite (wb_off _ _ W); [now apply In1|congruence].
      * apply W.
Qed.

Lemma start_axes : forall (s : state) l ns,
  Inv s -> (forall p, In p l -> In p (stepl s)) -> at_start s ->
  (forall p, In p l -> steppable (ps s p)) ->
  map (fun p => p_steps (ps s p)) l = map (fun n => Some (Z.of_nat n)) ns ->
  Forall2 (axis_ok s) l (map (fun n => Ax n 0 true) ns) /\ Forall (fun n => 1 <= n) ns.
Proof.
  induction l as [|p l IH]; intros [|n ns] I Hl A S E; try discriminate.
  { split; constructor. }
  cbn in E. injection E as E1 E2.
  assert (In p (stepl s)) as Hp by (apply Hl; now left).
  assert (St : p_status (ps s p) = Stepping) by now apply (lm_step _ (iv_lm _ I)).
  destruct (A p Hp) as (A1 & A2 & A3).
  destruct (S p (or_introl eq_refl)) as [(m & Em & Hm) _].
  rewrite E1 in Em. injection Em as Em.
  destruct (ho_step _ (iv_h _ I p) St) as (Q1 & Q2 & Q3 & Q4 & Q5).
  destruct (IH ns) as [IH1 IH2]; auto.
  { intros; apply Hl; now right. }
  { intros; apply S; now right. }
  split; constructor; auto; [|lia].
  constructor; cbn; auto; try lia.
  - apply S. now left.
  - rewrite A2. exact Q1.
Qed.

Lemma trail_complete : forall (s : state) ns,
  Inv s -> stepl s <> [] -> at_start s ->
  (forall p, In p (stepl s) -> steppable (ps s p)) -> sizes s ns ->
  exists l e, trail s l e /\ Forall2 indices l (snake ns) /\ Forall (inside s) l
    /\ wound_back s e.
Proof.
  intros s ns I Hne A S E.
  destruct (start_axes s (stepl s) ns) as [F H1]; auto.
  eapply path_trail; eauto. now apply path_snake.
Qed.

(** ** Successful linstep and logstep *)
Record stepping_set (s : state) (p : nat) (h : pst N) (s' : state) : Prop := {
  sst_inv : Inv s';
  sst_p : ps s' p = h;
  sst_q : forall q, q <> p ->
     ps s' q = if status_eqb (p_status (ps s q)) Stepping then rewind (ps s q) else ps s q;
  sst_s : stepl s' = (if status_eqb (p_status (ps s p)) Stepping then stepl s
                      else stepl s ++ [p]);
  sst_start : at_start s'
}.

Lemma set_stepping : forall (s s1 : state) p h v,
  Inv s -> defined s p ->
  (forall q, q <> p -> ps s1 q = ps s q) -> ps s1 p = h ->
  fixedl s1 = fixedl s -> varyl s1 = varyl s -> stepl s1 = stepl s -> info s1 = info s ->
  p_status h = p_status (ps s p) -> p_lst h = p_lst (ps s p) ->
  p_slo h = Some v -> p_value h = Some v -> p_num h = Some 0%Z ->
  p_shi h <> None -> p_steps h <> None -> p_stype h <> None ->
  exists s', set_status_ p Stepping s1 = (s', Ok tt)
    /\ stepping_set s p (with_status Stepping h) s'.
Proof.
  intros s s1 p h v I D Hq Hp E1 E2 E3 E4 Hst Hl Hlo Hv Hnum Hhi Hn Ht.
  assert (L1 : lists_match_status s1).
  { destruct I as [L _].
    assert (K : forall q, p_status (ps s1 q) = p_status (ps s q)).
    { intros q. destruct (Nat.eq_dec q p) as [->|]; [now rewrite Hp|now rewrite Hq]. }
    constructor; rewrite ?E1, ?E2, ?E3, ?E4; try (intros q; rewrite K); apply L. }
  pose proof (iv_h _ I p) as Hok.
  assert (K : hok (with_status Stepping h)).
  { constructor; cbn; try congruence; try (intros; repeat split; congruence).
    - rewrite Hl. apply Hok.
    - rewrite Hl. apply Hok. }
  assert (HB : forall q, hok (base s1 p Stepping q)).
  { intros q. unfold base, upd. destruct (Nat.eqb_spec q p) as [->|]; [now rewrite Hp|].
    rewrite Hq by assumption. apply I. }
  destruct (set_status_eq s1 p Stepping L1) as (s' & E & C & T); try discriminate.
  { intros q H. now apply hok_ready. }
  { rewrite Hp. apply (ho_lst _ K). }
  { rewrite Hp. apply (ho_lst_nd _ K). }
  exists s'. split; [exact E|].
  pose proof (chg_lists _ _ _ _ L1 C) as L'.
  assert (IV : forall a, involves a Stepping = true) by (intros []; reflexivity).
  assert (HS : forall q, mem q (stepl s') = status_eqb (p_status (base s1 p Stepping q)) Stepping).
  { intros q. rewrite base_status, <- (chg_status _ _ _ _ q C).
    destruct (mem_spec q (stepl s')) as [Hi|Hi]; rewrite (lm_step _ L') in Hi.
    - now rewrite Hi.
    - destruct (status_eqb_spec (p_status (ps s' q)) Stepping); congruence. }
  assert (HP : forall q, ps s' q = if status_eqb (p_status (base s1 p Stepping q)) Stepping
                 then rewind (base s1 p Stepping q) else base s1 p Stepping q).
  { intros q. rewrite (cg_ps _ _ _ _ C q), IV, HS. reflexivity. }
  assert (Hi' : forall q, hok (ps s' q)).
  { intros q. rewrite HP.
    destruct (status_eqb_spec (p_status (base s1 p Stepping q)) Stepping); [|apply HB].
    now apply hok_rewind. }
  constructor.
  - now constructor.
  - rewrite HP. unfold base. rewrite upd_same, Hp. cbn.
    unfold rewind. cbn. rewrite Hlo. unfold rewound.
    destruct h; cbn in *. now subst.
  - intros q Hne. rewrite HP. unfold base. rewrite upd_other by assumption.
    now rewrite Hq.
  - rewrite (cg_s _ _ _ _ C), E3, Hp, Hst. unfold move.
    destruct (status_eqb_spec (p_status (ps s p)) Stepping) as [|Hx]; [reflexivity|].
    cbn. rewrite without_notin; [reflexivity|]. intros Hin.
    apply Hx. now apply (lm_step _ (iv_lm _ I)).
  - intros q Hin. apply mem_In in Hin as Hm. rewrite (cg_i _ _ _ _ C q), IV, Hm.
    rewrite HP. rewrite HS in Hm. rewrite Hm.
    destruct (status_eqb_spec (p_status (base s1 p Stepping q)) Stepping) as [Hx|]; [|discriminate].
    destruct (hok_ready _ (HB q) Hx) as [_ [w Hw]].
    unfold rewind. rewrite Hw. cbn. repeat split. now rewrite Hw.
Qed.

(** The state linstep leaves on success. *)
Definition lin_handler (h : pst N) (a b : N) (n : Z) : pst N :=
  with_status Stepping (with_value a (with_num 0%Z (with_delta
    (div N (sub N b a) (ofZ N (n - 1)%Z)) (with_steps n (with_shi b (with_slo a
      (with_stype LinSteps h))))))).
Definition log_handler (h : pst N) (a b : N) (n : Z) : pst N :=
  with_status Stepping (with_value a (with_num 0%Z (with_fac
    (vexp N (div N (vlog N (div N b a)) (ofZ N (n - 1)%Z)))
      (with_steps n (with_shi b (with_slo a (with_stype LogSteps h))))))).

Lemma linstep_ok : forall (s s' : state) p lo hi n,
  Inv s -> defined s p -> linstep p lo hi n s = (s', Ok tt) ->
  exists a b, lo = Some a /\ hi = Some b /\ n <> 1%Z
    /\ check_end (p_bnd (ps s p)) lo s = (s, Ok tt)
    /\ check_end (p_bnd (ps s p)) hi s = (s, Ok tt)
    /\ stepping_set s p (lin_handler (ps s p) a b n) s'.
Proof.
  intros s s' p lo hi n I D H. unfold linstep in H.
  unfold bind at 1, hnd in H.
  destruct (check_end_cases (p_bnd (ps s p)) lo s) as [E|E];
    [rewrite (bind_ok _ _ _ _ _ _ _ _ E) in H|rewrite (bind_err _ _ _ _ _ _ _ _ E) in H; discriminate].
  destruct (check_end_cases (p_bnd (ps s p)) hi s) as [E'|E'];
    [rewrite (bind_ok _ _ _ _ _ _ _ _ E') in H|rewrite (bind_err _ _ _ _ _ _ _ _ E') in H; discriminate].
  destruct lo as [a|].
  2:{ exfalso. unfold bind, put, modify, pick, attr in H.
      destruct (bnd_lo (ps s p)); [|discriminate].
      destruct hi; cbn in H; [discriminate|]. destruct (bnd_hi (ps s p)); discriminate. }
  destruct hi as [b|].
  2:{ exfalso. unfold bind, put, modify, pick, attr in H.
      cbn in H. destruct (bnd_hi (ps s p)); discriminate. }
  destruct (Z.eqb_spec n 1) as [->|Hn1].
  { exfalso. unfold bind, put, modify, pick, attr in H. cbn in H. discriminate. }
  exists a, b. do 3 (split; [auto|]). split; [exact E|]. split; [exact E'|].
  unfold bind, put, modify, pick, attr, ret in H.
  rewrite set_value__eq in H.
  set (s1 := log_ev _ _) in H.
  destruct (set_stepping s s1 p
    (with_value a (with_num 0%Z (with_delta
    (div N (sub N b a) (ofZ N (n - 1)%Z)) (with_steps n (with_shi b (with_slo a
      (with_stype LinSteps (ps s p)))))))) a) as (s2 & E2 & SS); auto; try (cbn; congruence).
  - intros q Hq. unfold s1. cbn. now rewrite !upd_other by assumption.
  - unfold s1. cbn. now rewrite !upd_same.
  - rewrite E2 in H. injection H as <-. exact SS.
Qed.

Lemma logstep_ok : forall (s s' : state) p lo hi n,
  Inv s -> defined s p -> logstep p lo hi n s = (s', Ok tt) ->
  exists a b l u, lo = Some a /\ hi = Some b
    /\ check_end (p_bnd (ps s p)) lo s = (s, Ok tt)
    /\ check_end (p_bnd (ps s p)) hi s = (s, Ok tt)
    /\ leb N (mul N a b) (ofZ N 0) = false
    /\ eqb N a (ofZ N 0) = false
    /\ l = a
    /\ (eqb N b (ofZ N 0) = false -> u = b)
    /\ stepping_set s p
         (with_status Stepping (with_value a (with_num 0%Z (with_fac
           (vexp N (div N (vlog N (div N b a)) (ofZ N (n - 1)%Z)))
             (with_steps n (with_shi u (with_slo l (with_stype LogSteps (ps s p))))))))) s'.
Proof.
  intros s s' p lo hi n I D H. unfold logstep in H.
  unfold bind at 1, hnd in H.
  destruct (check_end_cases (p_bnd (ps s p)) lo s) as [E|E];
    [rewrite (bind_ok _ _ _ _ _ _ _ _ E) in H|rewrite (bind_err _ _ _ _ _ _ _ _ E) in H; discriminate].
  destruct (check_end_cases (p_bnd (ps s p)) hi s) as [E'|E'];
    [rewrite (bind_ok _ _ _ _ _ _ _ _ E') in H|rewrite (bind_err _ _ _ _ _ _ _ _ E') in H; discriminate].
  destruct lo as [a|]; [|discriminate]. destruct hi as [b|]; [|discriminate].
  destruct (leb N (mul N a b) (ofZ N 0)) eqn:Eab; [discriminate|].
  assert (Ea : eqb N a (ofZ N 0) = false).
  { destruct (eqb N a (ofZ N 0)) eqn:Ea; [|reflexivity]. exfalso.
    unfold truthy in H. rewrite Ea in H. cbn [negb] in H.
    unfold bind, put, modify, attr, ret in H.
    destruct (bnd_lo (ps s p)); [|discriminate].
    destruct (eqb N b (ofZ N 0)); cbn in H; [destruct (bnd_hi (ps s p)); discriminate|discriminate]. }
  unfold truthy in H. rewrite Ea in H. cbn [negb] in H.
  assert (Hu : exists u, (eqb N b (ofZ N 0) = false -> u = b) /\
     (forall t : state, (if negb (eqb N b (ofZ N 0)) then ret b
        else attr AttributeError (bnd_hi (ps s p))) t = (t, Ok u))).
  { destruct (eqb N b (ofZ N 0)); cbn in *; [|exists b; now split].
    unfold bind, put, modify, attr, ret in H.
    destruct (bnd_hi (ps s p)) as [u|]; [|discriminate].
    exists u. split; [discriminate|reflexivity]. }
  destruct Hu as (u & Hu & Eu).
  exists a, b, a, u. do 8 (split; [auto|]).
  unfold bind at 1, put at 1, modify at 1 in H.
  unfold bind at 1, ret at 1 in H. unfold bind at 1, put at 1, modify at 1 in H.
  rewrite (bind_ok _ _ _ _ _ _ _ _ (Eu _)) in H.
  unfold bind, put, modify in H. rewrite set_value__eq in H.
  set (s1 := log_ev _ _) in H.
  destruct (set_stepping s s1 p
    (with_value a (with_num 0%Z (with_fac
           (vexp N (div N (vlog N (div N b a)) (ofZ N (n - 1)%Z)))
             (with_steps n (with_shi u (with_slo a (with_stype LogSteps (ps s p)))))))) a)
    as (s2 & E2 & SS); auto; try (cbn; congruence).
  - intros q Hq. unfold s1. cbn. now rewrite !upd_other by assumption.
  - unfold s1. cbn. now rewrite !upd_same.
Qed.

End Gen.
