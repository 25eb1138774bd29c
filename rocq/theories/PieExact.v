(** Exact results of fix, vary and the step declarations. *)

From Coq Require Import ZArith List Bool Arith Lia.
From Verif Require Import Exn PieModel PieSpec PieLemmas PieLemmas2 PieGridModel PieGridSpec
  PieGridLemmas PieGridLemmas2.
Import ListNotations.
Open Scope exn_scope.

Section Gen.
Context {N : num}.
Notation state := (st N).

(** s with handler h at p, the lists and directions as they were. *)
Record at_handler (s s1 : state) (p : nat) (h : pst N) : Prop := {
  ah_p : ps s1 p = h;
  ah_q : forall q, q <> p -> ps s1 q = ps s q;
  ah_f : fixedl s1 = fixedl s;
  ah_v : varyl s1 = varyl s;
  ah_s : stepl s1 = stepl s;
  ah_i : info s1 = info s;
  ah_st : p_status h = p_status (ps s p)
}.

Lemma setst_exact : forall (s s1 : state) p h x,
  Inv s -> at_handler s s1 p h -> hok (with_status x h) -> x <> Undef -> x <> Stepping ->
  exists s', set_status_ p x s1 = (s', Ok tt) /\ Inv s' /\ chg s1 p x s'
    /\ ps s' p = with_status x h.
Proof.
  intros s s1 p h x I A K Hx Hx'.
  assert (L1 : lists_match_status s1).
  { destruct I as [L _].
    assert (E : forall q, p_status (ps s1 q) = p_status (ps s q)).
    { intros q. destruct (Nat.eq_dec q p) as [->|].
      - rewrite (ah_p _ _ _ _ A). apply A.
      - now rewrite (ah_q _ _ _ _ A). }
    constructor; rewrite ?(ah_f _ _ _ _ A), ?(ah_v _ _ _ _ A), ?(ah_s _ _ _ _ A),
      ?(ah_i _ _ _ _ A); try (intros q; rewrite E); apply L. }
  assert (HB : forall q, hok (base s1 p x q)).
  { intros q. unfold base, upd. destruct (Nat.eqb_spec q p) as [->|].
    - now rewrite (ah_p _ _ _ _ A).
    - rewrite (ah_q _ _ _ _ A) by assumption. apply I. }
  destruct (set_status_eq s1 p x L1 Hx) as (s' & E & C & T).
  { intros q H. now apply hok_ready. }
  { rewrite (ah_p _ _ _ _ A). apply (ho_lst _ K). }
  { rewrite (ah_p _ _ _ _ A). apply (ho_lst_nd _ K). }
  exists s'. split; [exact E|].
  pose proof (chg_lists _ _ _ _ L1 C) as L'.
  assert (HS : forall q, mem q (stepl s') = status_eqb (p_status (base s1 p x q)) Stepping).
  { intros q. rewrite base_status, <- (chg_status _ _ _ _ q C).
    destruct (mem_spec q (stepl s')) as [Hi|Hi]; rewrite (lm_step _ L') in Hi.
    - now rewrite Hi.
    - destruct (status_eqb_spec (p_status (ps s' q)) Stepping); congruence. }
  split; [|split; [exact C|]].
  - constructor; [exact L'|]. intros q. rewrite (cg_ps _ _ _ _ C q), HS.
    destruct (involves _ _); [|apply HB].
    destruct (status_eqb_spec (p_status (base s1 p x q)) Stepping); [|apply HB].
    now apply hok_rewind.
  - rewrite (cg_ps _ _ _ _ C p), HS. unfold base. rewrite upd_same, (ah_p _ _ _ _ A). cbn.
    destruct (status_eqb_spec x Stepping); [contradiction|]. now rewrite andb_false_r.
Qed.

Lemma setv_handler : forall (s s1 : state) p h v, at_handler s s1 p h ->
  at_handler s (log_ev (value_evs (ps s1 p) p v) (upd_p p (with_value v) s1)) p (with_value v h).
Proof.
  intros s s1 p h v A. constructor; try apply A.
  - cbn. now rewrite upd_same, (ah_p _ _ _ _ A).
  - intros q Hq. cbn. rewrite upd_other by assumption. now apply A.
Qed.
Lemma put_handler : forall (s s1 : state) p h f, at_handler s s1 p h ->
  p_status (f h) = p_status h -> at_handler s (upd_p p f s1) p (f h).
Proof.
  intros s s1 p h f A E. constructor; try apply A.
  - cbn. now rewrite upd_same, (ah_p _ _ _ _ A).
  - intros q Hq. cbn. rewrite upd_other by assumption. now apply A.
  - rewrite E. apply A.
Qed.
Lemma handler_refl : forall (s : state) p, at_handler s s p (ps s p).
Proof. now constructor. Qed.

Definition fixed_handler (o : option N) (h : pst N) : pst N :=
  with_status Fixed (match o with Some v => with_value v h | None => h end).

(** fix either rejects, changing nothing, or succeeds. *)
Lemma fix_exact : forall p o (s : state), Inv s -> defined s p ->
  match o, p_bnd (ps s p) with
  | Some v, Some b => within v b
  | _, _ => true
  end = false /\ fix_ p o s = (s, Err ParamRangeError)
  \/
  match o, p_bnd (ps s p) with
  | Some v, Some b => within v b
  | _, _ => true
  end = true /\
  exists s1 s', fix_ p o s = (s', Ok tt) /\ Inv s' /\ ps s' p = fixed_handler o (ps s p)
    /\ at_handler s s1 p (match o with Some v => with_value v (ps s p) | None => ps s p end)
    /\ chg s1 p Fixed s'.
Proof.
  intros p o s I D. pose proof (iv_h s I p) as Hp.
  assert (Hset : forall v, exists s1 s', (set_value_ p v;;; set_status_ p Fixed) s = (s', Ok tt)
     /\ Inv s' /\ ps s' p = fixed_handler (Some v) (ps s p)
     /\ at_handler s s1 p (with_value v (ps s p)) /\ chg s1 p Fixed s').
  { intros v. unfold bind. rewrite set_value__eq.
    pose proof (setv_handler s s p _ v (handler_refl s p)) as A.
    destruct (setst_exact s _ p _ Fixed I A) as (s' & E & I' & C & P); try discriminate.
    { destruct Hp as [a b c d e f]. constructor; cbn; auto; congruence. }
    eexists _, s'. split; [exact E|]. split; [exact I'|]. split; [exact P|]. split; [exact A|exact C]. }
  unfold fix_, bind at 1 3, hnd. destruct o as [v|].
  - destruct (p_bnd (ps s p)) as [b|].
    + destruct (within v b); [right; split; [reflexivity|apply Hset]|left; now split].
    + right; split; [reflexivity|apply Hset].
  - right. split; [destruct (p_bnd (ps s p)); reflexivity|].
    destruct (status_eqb_spec (p_status (ps s p)) Undef) as [E|E]; [now elim D|].
    unfold bind, ret.
    destruct (setst_exact s s p _ Fixed I (handler_refl s p)) as (s' & E' & I' & C & P); try discriminate.
    { apply hok_fixed; auto. now apply (ho_val _ Hp). }
    exists s, s'. split; [exact E'|]. split; [exact I'|]. split; [exact P|].
    split; [apply handler_refl|exact C].
Qed.

(** vary without a range, on a parameter that has one: succeeds or rejects the
    start value after having made the parameter varying. *)
Lemma vary_exact : forall p o d (s : state) b,
  Inv s -> defined s p -> p_bnd (ps s p) = Some b ->
  (d = None -> p_delta (ps s p) <> None) ->
  let h := match d with Some x => with_delta x (ps s p) | None => ps s p end in
  exists s1 s', Inv s' /\ at_handler s s1 p h
    /\ chg s1 p Varying s' /\ ps s' p = with_status Varying h /\
  vary p o d None s = match o with
    | None => (s', Ok tt)
    | Some v => if within v b
                then (log_ev (value_evs (ps s' p) p v) (upd_p p (with_value v) s'), Ok tt)
                else (s', Err ParamRangeError)
    end.
Proof.
  intros p o d s b I D Hb Hd h. pose proof (iv_h s I p) as Hp.
  assert (Hv : p_value (ps s p) <> None) by (now apply (ho_val _ Hp)).
  unfold vary, bind at 1, hnd. rewrite Hb. unfold bind at 1, ret at 1.
  assert (K : exists s1, at_handler s s1 p h /\
     (match d with
       | Some d0 => put p (with_delta d0)
       | None => match p_delta (ps s p) with Some _ => ret tt | None => raise ValueError end
      end) s = (s1, Ok tt)).
  { destruct d as [x|].
    - exists (upd_p p (with_delta x) s). split; [|reflexivity].
      unfold h. now apply put_handler; [apply handler_refl|].
    - exists s. split; [apply handler_refl|].
      destruct (p_delta (ps s p)); [reflexivity|now elim Hd]. }
  destruct K as (s1 & A & E1). rewrite (bind_ok _ _ _ _ _ _ _ _ E1).
  assert (Hh : hok h). { unfold h. destruct d; [hokd|]; auto. }
  assert (Hbh : p_bnd h = Some b) by (unfold h; destruct d; auto).
  destruct (setst_exact s s1 p h Varying I A) as (s' & E & I' & C & P); try discriminate.
  { apply hok_varying; auto; try congruence.
    - unfold h; destruct d; auto.
    - unfold h. destruct d; [discriminate|auto]. }
  exists s1, s'. split; [exact I'|]. split; [exact A|]. split; [exact C|]. split; [exact P|].
  rewrite (bind_ok _ _ _ _ _ _ _ _ E). destruct o as [v|].
  - unfold set_value, bind, hnd. rewrite P. cbn [p_status with_status status_eqb p_bnd].
    rewrite Hbh. destruct (within v b); [|reflexivity]. rewrite set_value__eq. now rewrite P.
  - destruct (p_value (ps s p)); [reflexivity|congruence].
Qed.

Lemma linstep_total : forall p a b n (s : state), Inv s -> defined s p -> n <> 1%Z ->
  linstep p (Some a) (Some b) n s = (s, Err ParamRangeError)
  \/ exists s', linstep p (Some a) (Some b) n s = (s', Ok tt).
Proof.
  intros p a b n s I D Hn. remember (linstep p (Some a) (Some b) n s) as r eqn:Er.
  unfold linstep in Er. unfold bind at 1, hnd in Er.
  destruct (check_end_cases (p_bnd (ps s p)) (Some a) s) as [E|E];
    [rewrite (bind_ok _ _ _ _ _ _ _ _ E) in Er|rewrite (bind_err _ _ _ _ _ _ _ _ E) in Er; now left].
  destruct (check_end_cases (p_bnd (ps s p)) (Some b) s) as [E'|E'];
    [rewrite (bind_ok _ _ _ _ _ _ _ _ E') in Er|rewrite (bind_err _ _ _ _ _ _ _ _ E') in Er; now left].
  right. destruct (Z.eqb_spec n 1); [contradiction|].
  unfold bind, put, modify, pick, attr, ret in Er. rewrite set_value__eq in Er.
  match type of Er with context [set_status_ p Stepping ?x] => set (s1 := x) in * end.
  destruct (set_stepping s s1 p
    (with_value a (with_num 0%Z (with_delta
    (div N (sub N b a) (ofZ N (n - 1)%Z)) (with_steps n (with_shi b (with_slo a
      (with_stype LinSteps (ps s p)))))))) a) as (s2 & E2 & SS); auto; try (cbn; congruence).
  - intros q Hq. unfold s1. cbn. now rewrite !upd_other by assumption.
  - unfold s1. cbn. now rewrite !upd_same.
  - exists s2; congruence.
Qed.

Lemma logstep_total : forall p a b n (s : state), Inv s -> defined s p ->
  eqb N a (ofZ N 0) = false -> eqb N b (ofZ N 0) = false ->
  (exists e, logstep p (Some a) (Some b) n s = (s, Err e))
  \/ exists s', logstep p (Some a) (Some b) n s = (s', Ok tt).
Proof.
  intros p a b n s I D Ha Hb. remember (logstep p (Some a) (Some b) n s) as r eqn:Er.
  unfold logstep in Er. unfold bind at 1, hnd in Er.
  destruct (check_end_cases (p_bnd (ps s p)) (Some a) s) as [E|E];
    [rewrite (bind_ok _ _ _ _ _ _ _ _ E) in Er|rewrite (bind_err _ _ _ _ _ _ _ _ E) in Er; left; eexists; exact Er].
  destruct (check_end_cases (p_bnd (ps s p)) (Some b) s) as [E'|E'];
    [rewrite (bind_ok _ _ _ _ _ _ _ _ E') in Er|rewrite (bind_err _ _ _ _ _ _ _ _ E') in Er; left; eexists; exact Er].
  destruct (leb N (mul N a b) (ofZ N 0)); [left; eexists; exact Er|].
  right. unfold truthy in Er. rewrite Ha, Hb in Er. cbn [negb] in Er.
  unfold bind, put, modify, ret in Er. rewrite set_value__eq in Er.
  match type of Er with context [set_status_ p Stepping ?x] => set (s1 := x) in * end.
  destruct (set_stepping s s1 p
    (with_value a (with_num 0%Z (with_fac
           (vexp N (div N (vlog N (div N b a)) (ofZ N (n - 1)%Z)))
             (with_steps n (with_shi b (with_slo a (with_stype LogSteps (ps s p)))))))) a)
     as (s2 & E2 & SS); auto; try (cbn; congruence).
  - intros q Hq. unfold s1. cbn. now rewrite !upd_other by assumption.
  - unfold s1. cbn. now rewrite !upd_same.
  - exists s2; congruence.
Qed.

End Gen.
